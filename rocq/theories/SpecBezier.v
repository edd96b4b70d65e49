(** Bezier curves over the reals, independent of the model: Bernstein form, derivatives. *)
From Coq Require Import List ZArith Reals.
From Verif Require Import SpecGeom SpecMatrix SpecFit.
Import ListNotations.
Local Open Scope R_scope.

(** Coordinate functions of a control polygon. *)
Definition cx (p : list pt) (i : nat) : R := fst (nth i p (0, 0)).
Definition cy (p : list pt) (i : nat) : R := snd (nth i p (0, 0)).
(** The point at [t] of the Bezier curve with control points [p] (degree [length p - 1]):
    the sum of C(n,i) t^i (1-t)^(n-i) p_i. *)
Definition curve (p : list pt) (t : R) : pt :=
  (bezier_at (length p - 1) (cx p) t, bezier_at (length p - 1) (cy p) t).
(** [d] is the derivative of the plane curve [f] at [t]. *)
Definition is_deriv (f : R -> pt) (t : R) (d : pt) : Prop :=
  derivable_pt_lim (fun u => fst (f u)) t (fst d) /\ derivable_pt_lim (fun u => snd (f u)) t (snd d).
