(** Vocabulary for statements about IEEE double precision numbers. *)
From Coq Require Import List ZArith Reals.
From Flocq Require Import Core BinarySingleNaN.
From Verif Require Import Py SpecGeom InstFloat.
Local Open Scope R_scope.

(** Half the distance between 1 and the next double; half the least positive double. *)
Definition ulp1 : R := / 2 ^ 53.
Definition tiny : R := / 2 ^ 1075.
(** The real number, and the point of the plane, that finite doubles stand for. *)
Definition val (x : b64) : R := B2R x.
Definition vpt (p : point b64) : pt := (val (fst p), val (snd p)).
Definition fin (x : b64) : Prop := is_finite x = true.
(** The coordinates are finite and at most [M] in size. *)
Definition sized (M : R) (p : point b64) : Prop :=
  fin (fst p) /\ fin (snd p) /\ Rabs (val (fst p)) <= M /\ Rabs (val (snd p)) <= M.
(** A finite point at most [e] away from [q] in either coordinate. *)
Definition off (e : R) (p : point b64) (q : pt) : Prop :=
  fin (fst p) /\ fin (snd p) /\ Rabs (val (fst p) - fst q) <= e /\ Rabs (val (snd p) - snd q) <= e.
(** The double [x] is the integer [z]; likewise for points and matrices. *)
Definition is_int (x : b64) (z : Z) : Prop := fin x /\ val x = IZR z.
Definition int_pt (p : point b64) (z : Z * Z) : Prop := is_int (fst p) (fst z) /\ is_int (snd p) (snd z).
Definition int_matrix (m : list (list b64)) (z : list (list Z)) : Prop := List.Forall2 (List.Forall2 is_int) m z.
(** The coordinates are whole multiples of 2^-e, at most [N] of them. *)
Definition on_grid (e : nat) (N : Z) (p : point b64) : Prop :=
  exists zx zy, (fin (fst p) /\ val (fst p) = IZR zx * / 2 ^ e) /\ (fin (snd p) /\ val (snd p) = IZR zy * / 2 ^ e) /\
    (Z.abs zx <= N)%Z /\ (Z.abs zy <= N)%Z.
