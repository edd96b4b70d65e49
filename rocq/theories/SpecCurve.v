(** Vocabulary of the curve properties that mentions curve objects and calls. *)
From Coq Require Import List ZArith Reals.
From Verif Require Import Py Inst SpecGeom SpecBezier MTransform MBezUtil MBezier.
Import ListNotations.
Local Open Scope R_scope.

(** Everything obtained from [o] by finitely many split calls. *)
Inductive descends (o : bezier R) : bezier R -> Prop :=
| d_self : descends o o
| d_left : forall b t l r q, descends o b -> split1 b t = Ok (l, r, q) -> descends o l
| d_right : forall b t l r q, descends o b -> split1 b t = Ok (l, r, q) -> descends o r
| d_part : forall b t1 t2 c, descends o b -> split2 b t1 t2 = Ok (SCurve c) -> descends o c
| d_tripleL : forall b t1 t2 l r q, descends o b -> split2 b t1 t2 = Ok (STriple l r q) -> descends o l
| d_tripleR : forall b t1 t2 l r q, descends o b -> split2 b t1 t2 = Ok (STriple l r q) -> descends o r.
(** An affine transform: last column 0, 0, 1. *)
Definition affine_matrix (m : MTransform.matrix R) : Prop := exists a b d e g h, m = [[a; b; 0]; [d; e; 0]; [g; h; 1]].
(** Coordinates within the start values of _getminmax. *)
Definition safe_point (p : pt) : Prop := Rabs (fst p) <= 9007199254740991 /\ Rabs (snd p) <= 9007199254740991.

(** The power-basis coefficients of the cubic with Bernstein coefficients [a b c d]. *)
Definition k3 (a b c d : R) : R := - a + 3 * b - 3 * c + d.
Definition k2 (a b c d : R) : R := 3 * a - 6 * b + 3 * c.
Definition k1 (a b c d : R) : R := -3 * a + 3 * b.
(** The discriminant of Cardano's formula for x^3 + a x^2 + b x + c:
    (q/2)^2 + (p/3)^3 for the depressed cubic z^3 + p z + q. *)
Definition cardano (a b c : R) : R :=
  ((2 * a ^ 3 - 9 * a * b + 27 * c) / 54) ^ 2 + ((3 * b - a ^ 2) / 9) ^ 3.
(** Outside the tolerance: exactly zero or larger than 1e-6 in absolute value. *)
Definition clear (x : R) : Prop := x = 0 \/ 1 / 1000000 < Rabs x.
(** The coefficients roots() compares with its tolerance are clear of it. *)
Definition cubic_clear (a b c d : R) : Prop :=
  let A3 := k3 a b c d in let A2 := k2 a b c d in let A1 := k1 a b c d in
  clear A3 /\
  (A3 = 0 -> clear A2 /\ (A2 = 0 -> clear A1)) /\
  (A3 <> 0 -> cardano (A2 / A3) (A1 / A3) (a / A3) <= 0 \/ 1 / 1000000 < cardano (A2 / A3) (A1 / A3) (a / A3)).
(** Accepted parameters: [0,1] and the tolerance around its ends. *)
Definition near_unit (t : R) : Prop := 0 <= t <= 1 \/ Rabs t <= 1 / 1000000 \/ Rabs (t - 1) <= 1 / 1000000.
(** The box of the segment from [a] to [z], widened by one millionth (the tolerance of [approximately]). *)
Definition near_box (a z p : pt) : Prop :=
  (Rmin (fst a) (fst z) - 1 / 1000000 <= fst p <= Rmax (fst a) (fst z) + 1 / 1000000) /\
  (Rmin (snd a) (snd z) - 1 / 1000000 <= snd p <= Rmax (snd a) (snd z) + 1 / 1000000).
(** The length of a control polygon in the taxicab metric. *)
Fixpoint taxi_length (p : list pt) : R :=
  match p with
  | a :: ((b :: _) as r) => Rabs (fst b - fst a) + Rabs (snd b - snd a) + taxi_length r
  | _ => 0
  end.
Definition taxi (p q : pt) : R := Rabs (fst p - fst q) + Rabs (snd p - snd q).
(** All control points within the start values of BoundsRectangle. *)
Definition in_sentinels (p : list pt) : Prop := forall q, In q p -> Rabs (fst q) <= 32768 /\ Rabs (snd q) <= 32768.
(** A bound of the speed of the curve: degree times the length of the control polygon. *)
Definition speed (p : list pt) : R := INR (length p - 1) * taxi_length p.
(** Any two points of the part of the curve over [[x,y]] are within [d] of each other. *)
Definition small_part (d : R) (p : list pt) (x y : R) : Prop :=
  forall w w', x <= w <= y -> x <= w' <= y -> taxi (curve p w) (curve p w') < d.
(** [segs] cover [o] from [a] to [z], end to end: the recorded intervals are consecutive, and
    each segment is the part of [o] over its interval. *)
Fixpoint tiles (o : list pt) (a z : R) (segs : list (bezier R)) : Prop :=
  match segs with
  | [] => a = z
  | s :: rest => bt1 s = a /\ a < bt2 s /\ length (cps s) = length o /\
      (forall u, curve (cps s) u = curve o (a + u * (bt2 s - a))) /\ tiles o (bt2 s) z rest
  end.
(** A segment without an S-bend that turns by less than 60 degrees: non-zero end tangents [d0], [d1] with
    |d0| |d1| < 2 d0.d1; the inner control points of a cubic are not strictly on opposite sides of the chord. *)
Definition turns_little (p : list pt) : Prop :=
  (exists d0 d1, is_deriv (curve p) 0 d0 /\ is_deriv (curve p) 1 d1 /\ 0 < vdot d0 d0 /\ 0 < vdot d1 d1 /\
     sqrt (vdot d0 d0) * sqrt (vdot d1 d1) < 2 * vdot d0 d1) /\
  (length p = 4%nat -> let side := fun i => vcross (vsub (nth 3 p (0, 0)) (nth 0 p (0, 0))) (vsub (nth i p (0, 0)) (nth 0 p (0, 0))) in
     ~ (0 < side 1%nat /\ side 2%nat < 0) /\ ~ (side 1%nat < 0 /\ 0 < side 2%nat)).
(** The length of the control polygon. *)
Fixpoint polygon_length (p : list pt) : R :=
  match p with
  | a :: ((b :: _) as r) => vdist a b + polygon_length r
  | _ => 0
  end.
(** The inner control points of a cubic are strictly on the same side of the chord, or both on its line. *)
Definition bends_one_way (p : list pt) : Prop :=
  length p = 4%nat -> let side := fun i => vcross (vsub (nth 3 p (0, 0)) (nth 0 p (0, 0))) (vsub (nth i p (0, 0)) (nth 0 p (0, 0))) in
  0 < side 1%nat * side 2%nat \/ (side 1%nat = 0 /\ side 2%nat = 0).
(** Every part of the curve [o] over a parameter interval of at most a hundredth turns little and bends one way. *)
Definition gentle (o : list pt) : Prop := forall t1 t2 p, 0 <= t1 -> t1 < t2 -> t2 <= 1 -> t2 - t1 <= 1 / 100 ->
  length p = length o -> (forall s, curve p s = curve o (t1 + s * (t2 - t1))) -> turns_little p /\ bends_one_way p.
(** A corner frame: [x] along [u] and [y] along [u] turned left, from [c]. *)
Definition turned (u : pt) : pt := (- snd u, fst u).
Definition frame (c u : pt) (x y : R) : pt := vadd c (vadd (vscale x u) (vscale y (turned u))).
(** The unit normal to the left of the direction [d]. *)
Definition left_normal (d n : pt) : Prop := vdot n n = 1 /\ vdot n d = 0 /\ 0 < vcross d n.
(** The first and the last leg of a control polygon. *)
Definition first_leg (p : list pt) : pt := vsub (nth 1 p (0, 0)) (nth 0 p (0, 0)).
Definition last_leg (p : list pt) : pt := vsub (nth (length p - 1) p (0, 0)) (nth (length p - 2) p (0, 0)).
(** The point where the normals at the two ends meet. *)
Definition normals_meet (p : list pt) (o : pt) : Prop :=
  vdot (vsub o (nth 0 p (0, 0))) (first_leg p) = 0 /\ vdot (vsub o (nth (length p - 1) p (0, 0))) (last_leg p) = 0.
(** [p] moved by [k] away from [o]. *)
Definition away (o : pt) (k : R) (p : pt) : pt := vadd p (vscale (k / vdist o p) (vsub p o)).
(** The point at signed distance [d] to the left of the curve at [t]. *)
Definition offset_point (o : list pt) (d t : R) (q : pt) : Prop :=
  exists v n, is_deriv (curve o) t v /\ left_normal v n /\ q = vadd (curve o t) (vscale d n).
(** [q] is within the horizontal and within the vertical extent of the curve. *)
Definition in_extent (p : list pt) (q : pt) : Prop :=
  (exists s t, 0 <= s <= 1 /\ 0 <= t <= 1 /\ fst (curve p s) <= fst q <= fst (curve p t)) /\
  (exists s t, 0 <= s <= 1 /\ 0 <= t <= 1 /\ snd (curve p s) <= snd q <= snd (curve p t)).
