(** Rectangles around at least one point, with numbers of any ordered kind, for C152. *)
From Coq Require Import List.
From Verif Require Import Py SpecOrder SpecBounds MBounds.
Import ListNotations.
Section Meet.
  Context {T : Type} `{NumOps T} (D : T -> Prop).
  Definition around (r : rect T) : Prop := exists ps, ps <> [] /\ good_points D ps /\ r = BoundsRectangle ps.
  (** Both nothing, or rectangles with equal edges. *)
  Definition same (o o' : option (rect T)) : Prop :=
    match o, o' with
    | Some a, Some b => req a b
    | None, None => True
    | _, _ => False
    end.
End Meet.
