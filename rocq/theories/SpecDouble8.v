(** Transforms of doubles, for C145. *)
From Coq Require Import List ZArith Reals.
From Verif Require Import Py Inst InstFloat SpecGeom SpecDouble SpecDouble7 SpecMatrix.
Import ListNotations.
Local Open Scope R_scope.

(** A 3x3 matrix of finite doubles; an affine one has the last column 0, 0, 1. *)
Definition matrix3 (m : list (list b64)) : Prop := shape 3 3 m /\ List.Forall (List.Forall fin) m.
Definition affine_d (m : list (list b64)) : Prop :=
  matrix3 m /\ val (dentry m 0 2) = 0 /\ val (dentry m 1 2) = 0 /\ val (dentry m 2 2) = 1.
(** The [j]-th coordinate of the row (x, y, 1) times the matrix, without rounding; the sum of the sizes of its terms. *)
Definition coord3 (m : list (list b64)) (j : nat) (p : pt) : R :=
  fst p * val (dentry m 0 j) + snd p * val (dentry m 1 j) + val (dentry m 2 j).
Definition size3 (m : list (list b64)) (j : nat) (p : pt) : R :=
  Rabs (fst p) * Rabs (val (dentry m 0 j)) + Rabs (snd p) * Rabs (val (dentry m 1 j)) + Rabs (val (dentry m 2 j)).
(** What rounding may add to that coordinate. *)
Definition slip3 (m : list (list b64)) (j : nat) (p : pt) : R := 4 * ulp1 * size3 m j p + 8 * tiny.
(** The image under an affine matrix. *)
Definition affine_image (m : list (list b64)) (p : pt) : pt := (coord3 m 0 p, coord3 m 1 p).
