(** What C146 says of a call: it returns exactly under a condition, and otherwise raises the one exception named. *)
From Coq Require Import List ZArith.
From Verif Require Import Py.
Import ListNotations.

Definition returns_iff {A : Type} (P : Prop) (e : exn) (r : res A) : Prop := (P -> exists a, r = Ok a) /\ (~ P -> r = Err e).
(** It returns or raises this exception, nothing else. *)
Definition at_worst {A : Type} (e : exn) (r : res A) : Prop := (exists a, r = Ok a) \/ r = Err e.
(** Lists of lists with three rows of three. *)
Definition three_by_three {A : Type} (m : list (list A)) : Prop := length m = 3%nat /\ Forall (fun r => length r = 3%nat) m.
(** Numbers in which a whole number is zero only if it is 0 (true of real numbers and of doubles, see C146_numbers). *)
Definition whole_zero {T : Type} `{NumOps T} : Prop := forall z : Z, neqb (nofZ z) (nofZ 0) = Z.eqb z 0.
(** Numbers in which 1 - 0 is not 0. *)
Definition unit_step {T : Type} `{NumOps T} : Prop := neqb (nsub (nofZ 1) (nofZ 0)) (nofZ 0) = false.
