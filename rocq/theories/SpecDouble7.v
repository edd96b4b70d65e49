(** Matrices of doubles, for C142. *)
From Coq Require Import List ZArith Reals.
From Verif Require Import Py Inst InstFloat SpecDouble SpecMatrix.
Import ListNotations.
Local Open Scope R_scope.

(** Row [i], column [j]; zero outside. *)
Definition dentry (M : list (list b64)) (i j : nat) : b64 := nth j (nth i M []) (Flocq.IEEE754.BinarySingleNaN.B754_zero false).
(** The matrix of the real numbers the doubles stand for. *)
Definition vmat (M : list (list b64)) : list (list R) := map (map val) M.
(** Every entry is finite and at most [b] in size. *)
Definition msized (b : R) (M : list (list b64)) : Prop :=
  List.Forall (List.Forall (fun x => fin x /\ Rabs (val x) <= b)) M.
(** Every entry is a whole number. *)
Definition mwhole (M : list (list b64)) : Prop :=
  List.Forall (List.Forall (fun x => exists z, val x = IZR z)) M.
(** The unit matrix. *)
Definition dunit (n : nat) (M : list (list b64)) : Prop :=
  shape n n M /\ forall i j, (i < n)%nat -> (j < n)%nat -> fin (dentry M i j) /\ val (dentry M i j) = if Nat.eqb i j then 1 else 0.
