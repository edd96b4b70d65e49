(** What queries of a curve object should answer: a function of the control points alone. *)
From Coq Require Import List ZArith Bool.
From Verif Require Import Py MTransform MBezier MBezierObj.
Import ListNotations.

Section Obj.
  Context {T : Type} `{NumOps T} `{TrigOps T}.
  (** The stateless answer; extrema is left out, see [same_but_ends]. *)
  Definition pure_answer (b : bezier T) (q : bquery T) : option (banswer T) :=
    match q with
    | QDcPoints => Some (ADcPoints (dcPoints b))
    | QExtrema => None
    | QBbox => Some (ABbox (bbox b))
    | QBounds => Some (ABounds (boundsRectangle b))
    | QLut s => Some (ALut (sampleLUT b s))
    | QReduce f => Some (AReduce (reduce f b))
    | QDerivative t => Some (APoint (derivative b t))
    | QLength => Some (ALength (quadrature b))
    | QGet t => Some (APoint (get b t))
    | QHull t => Some (AHull (hull b t))
    | QSplit t => Some (ASplit (split1 b t))
    end.
  (** [l'] is [l], possibly with a leading 0 and a trailing 1 added. *)
  Definition same_but_ends (l l' : list T) : Prop :=
    exists pre post, l' = pre ++ l ++ post /\ (pre = [] \/ pre = [nofZ 0]) /\ (post = [] \/ post = [nofZ 1]).
  Definition reads_only (q : bquery T) : Prop :=
    match q with QBbox | QBounds | QReduce _ => False | _ => True end.
End Obj.
