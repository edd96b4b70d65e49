(** Matrix algebra over the reals, index by index, independent of the model. *)
From Coq Require Import List ZArith Reals.
Import ListNotations.
Local Open Scope R_scope.

(** [f 0 + ... + f (n-1)]. *)
Fixpoint rsum (n : nat) (f : nat -> R) : R :=
  match n with O => 0 | S k => rsum k f + f k end.

(** [r] rows of [c] entries. *)
Definition shape {A : Type} (r c : nat) (M : list (list A)) : Prop :=
  length M = r /\ Forall (fun row => length row = c) M.
Definition entry (M : list (list R)) (i j : nat) : R := nth j (nth i M []) 0.
(** Row-by-column product; [P] is [A * B] with inner dimension [n]. *)
Definition prod_entry (n : nat) (A B : list (list R)) (i j : nat) : R :=
  rsum n (fun k => entry A i k * entry B k j).
Definition is_prod (r n c : nat) (A B P : list (list R)) : Prop :=
  forall i j, (i < r)%nat -> (j < c)%nat -> entry P i j = prod_entry n A B i j.
Definition is_id (n : nat) (M : list (list R)) : Prop :=
  shape n n M /\ forall i j, (i < n)%nat -> (j < n)%nat -> entry M i j = if Nat.eqb i j then 1 else 0.
(** [A * B] is the identity. *)
Definition inverse_of (n : nat) (A B : list (list R)) : Prop :=
  forall i j, (i < n)%nat -> (j < n)%nat -> prod_entry n A B i j = if Nat.eqb i j then 1 else 0.
(** Some non-zero vector is mapped to zero. *)
Definition singular (n : nat) (M : list (list R)) : Prop :=
  exists v : nat -> R, (exists k, (k < n)%nat /\ v k <> 0) /\
    forall i, (i < n)%nat -> rsum n (fun k => entry M i k * v k) = 0.
