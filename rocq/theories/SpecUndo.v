(** The determinant of a 3x3 matrix, for C147. *)
From Coq Require Import List Reals.
From Verif Require Import SpecMatrix.
Local Open Scope R_scope.
Definition det3 (m : list (list R)) : R :=
  let e := entry m in
  e 0%nat 0%nat * (e 1%nat 1%nat * e 2%nat 2%nat - e 1%nat 2%nat * e 2%nat 1%nat)
  - e 0%nat 1%nat * (e 1%nat 0%nat * e 2%nat 2%nat - e 1%nat 2%nat * e 2%nat 0%nat)
  + e 0%nat 2%nat * (e 1%nat 0%nat * e 2%nat 1%nat - e 1%nat 1%nat * e 2%nat 0%nat).
