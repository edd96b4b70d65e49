(** Vocabulary of the BoundsRectangle properties. *)
From Coq Require Import List ZArith Bool.
From Verif Require Import Py SpecOrder MBounds.
Import ListNotations.
Local Open Scope num_scope.

Section SpecBounds.
  Context {T : Type} `{NumOps T}.
  Definition le (x y : T) : Prop := (x <=? y) = true.
  Local Infix "≤" := le (at level 70).

  (** For every side some point is on the inner side of the sentinel value. *)
  Definition in_range (ps : list (point T)) : Prop :=
    (exists p, In p ps /\ fst p ≤ nofZ 32768) /\ (exists p, In p ps /\ nofZ (-32768) ≤ fst p) /\
    (exists p, In p ps /\ snd p ≤ nofZ 32768) /\ (exists p, In p ps /\ nofZ (-32768) ≤ snd p).

  (** Equality of rectangles: edges compare equal. *)
  Definition req (a b : rect T) : Prop :=
    eqv (left a) (left b) /\ eqv (right a) (right b) /\ eqv (top a) (top b) /\ eqv (bottom a) (bottom b).

  Section Domain.
    Variable D : T -> Prop.
    (** Every coordinate is a comparable value. *)
    Definition good_contour (c : contour T) : Prop := Forall (good_points D) c.
    (** Inclusion of the enclosed point sets. *)
    Definition inside (b a : rect T) : Prop :=
      forall p, D (fst p) -> D (snd p) -> enclosesPoint b p = true -> enclosesPoint a p = true.
    Definition disjoint (a b : rect T) : Prop :=
      forall p, D (fst p) -> D (snd p) -> ~ (enclosesPoint a p = true /\ enclosesPoint b p = true).
  End Domain.
  (** At least one segment, no segment without points. *)
  Definition solid (c : contour T) : Prop := c <> [] /\ Forall (fun s => s <> []) c.
End SpecBounds.
