(** Vocabulary for CurveFitting.py. *)
From Coq Require Import List ZArith Reals Binomial.
From Verif Require Import SpecGeom SpecMatrix.
Import ListNotations.
Local Open Scope R_scope.

(** [Binomial.C n k] is n! / (k! (n-k)!). *)
(** The Bernstein polynomial b_{c,N} at [t]. *)
Definition bernstein (N c : nat) (t : R) : R := Binomial.C N c * t ^ c * (1 - t) ^ (N - c).
(** The Bezier curve of degree [N] with coefficients [f 0 .. f N]. *)
Definition bezier_at (N : nat) (f : nat -> R) (t : R) : R := rsum (S N) (fun c => bernstein N c t * f c).
(** A Pascal triangle: row [i] has the [i + 1] binomial coefficients of order [i]. *)
Definition pascal_table (lut : list (list Z)) : Prop :=
  forall i, (i < length lut)%nat ->
    length (nth i lut []) = S i /\ forall k, (k <= i)%nat -> IZR (nth k (nth i lut []) 0%Z) = Binomial.C i k.
Definition ptn (p : list pt) (i : nat) : pt := nth i p (0, 0).
(** The squared distance between the points [P] and the Bezier curve of degree [N] with control points
    ([f i], [g i]) at the parameters [s], added up. *)
Definition fit_error (P : list pt) (s : list R) (N : nat) (f g : nat -> R) : R :=
  rsum (length P) (fun i => (bezier_at N f (nth i s 0) - fst (ptn P i)) ^ 2 + (bezier_at N g (nth i s 0) - snd (ptn P i)) ^ 2).
