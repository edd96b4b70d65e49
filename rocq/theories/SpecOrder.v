(** Totally (pre)ordered numbers, as needed for statements that only compare: [D] is the set of
    comparable values (everything for ints and reals, the non-NaN values for floats). *)
From Coq Require Import List ZArith Bool.
From Verif Require Import Py.
Import ListNotations.
Local Open Scope num_scope.

Record TotalOrder {T : Type} `{NumOps T} (D : T -> Prop) : Prop := mkTotalOrder {
  to_lit : forall z, D (nofZ z);
  to_refl : forall x, D x -> (x <=? x) = true;
  to_trans : forall x y z, D x -> D y -> D z ->
             (x <=? y) = true -> (y <=? z) = true -> (x <=? z) = true;
  to_total : forall x y, D x -> D y -> (x <=? y) = true \/ (y <=? x) = true;
  to_lt : forall x y, D x -> D y -> (x <? y) = negb (y <=? x);
  to_eq : forall x y, D x -> D y -> (x =? y) = (x <=? y) && (y <=? x);
  to_Z : forall a b, (a <= b)%Z -> (@nofZ T _ a <=? nofZ b) = true
}.

Section Boxes.
  Context {T : Type} `{NumOps T}.
  (** The box with the given edges contains the point. *)
  Definition in_box (l r b t : T) (p : point T) : Prop :=
    (l <=? fst p) = true /\ (fst p <=? r) = true /\ (b <=? snd p) = true /\ (snd p <=? t) = true.
  (** Equality of Python numbers ([==]) on comparable values. *)
  Definition eqv (x y : T) : Prop := (x <=? y) = true /\ (y <=? x) = true.
  Definition good_points (D : T -> Prop) (ps : list (point T)) : Prop :=
    Forall (fun p => D (fst p) /\ D (snd p)) ps.
End Boxes.
