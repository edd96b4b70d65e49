(** The true length of a curve: the integral of its speed. *)
From Coq Require Import List ZArith Reals.
From Coquelicot Require Import Coquelicot.
From Verif Require Import SpecGeom SpecBezier.
Import ListNotations.
Local Open Scope R_scope.

(** The length of the derivative of the curve with control points [p] at [t]. *)
Definition true_speed (p : list pt) (t : R) : R :=
  sqrt ((Derive (fun u => fst (curve p u)) t) ^ 2 + (Derive (fun u => snd (curve p u)) t) ^ 2).
(** The length of the part of the curve over [[a, z]], and of the whole curve. *)
Definition part_length (p : list pt) (a z : R) : R := RInt (true_speed p) a z.
Definition arc_length (p : list pt) : R := part_length p 0 1.

(** The polynomial with coefficients [l] at [x], and the sum of the sizes of its coefficients. *)
Fixpoint poly (l : list R) (x : R) : R := match l with [] => 0 | a :: r => a + x * poly r x end.
Fixpoint coef_sum (l : list R) : R := match l with [] => 0 | a :: r => Rabs a + coef_sum r end.
