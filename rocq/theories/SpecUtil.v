(** Vocabulary for BezierUtilities.py and the functions of PathUtilities.py. *)
From Coq Require Import List ZArith Reals.
From Verif Require Import SpecGeom.
Import ListNotations.
Local Open Scope R_scope.

(** Bernstein polynomials of degree 1 and 2 with the given coefficients. *)
Definition bern1 (a b t : R) : R := (1 - t) * a + t * b.
Definition bern2 (a b c t : R) : R := (1 - t) ^ 2 * a + 2 * (1 - t) * t * b + t ^ 2 * c.
Definition bern3 (a b c d t : R) : R :=
  (1 - t) ^ 3 * a + 3 * (1 - t) ^ 2 * t * b + 3 * (1 - t) * t ^ 2 * c + t ^ 3 * d.

(** Two lines given by two points each have parallel directions (degenerate lines included). *)
Definition parallel (p1 p2 p3 p4 : pt) : Prop := vcross (vsub p2 p1) (vsub p4 p3) = 0.

(** First occurrences of the values of a list, in order. *)
Fixpoint first_occurrences {A : Type} (eqb : A -> A -> bool) (l : list A) : list A :=
  match l with
  | [] => []
  | x :: r => x :: filter (fun y => negb (eqb x y)) (first_occurrences eqb r)
  end.

(** Some coordinate of the two points is within the sentinel range, on every side. *)
Definition near (a b : pt) : Prop :=
  (fst a <= 32768 \/ fst b <= 32768) /\ (- 32768 <= fst a \/ - 32768 <= fst b) /\
  (snd a <= 32768 \/ snd b <= 32768) /\ (- 32768 <= snd a \/ - 32768 <= snd b).
