(** What is asked of the C library and of Python's [round] when angles are computed in double precision. *)
From Coq Require Import List ZArith Reals.
From Flocq Require Import Core BinarySingleNaN.
From Verif Require Import Py SpecGeom InstFloat SpecDouble.
Local Open Scope R_scope.

(** A library function that is within [e] of the true one at every finite argument. *)
Definition within (e : R) (f : b64 -> b64) (g : R -> R) : Prop :=
  forall x, fin x -> fin (f x) /\ Rabs (val (f x) - g (val x)) <= e.
Definition within2 (e : R) (f : b64 -> b64 -> b64) (g : R -> R -> R) : Prop :=
  forall x y, fin x -> fin y -> fin (f x y) /\ Rabs (val (f x y) - g (val x) (val y)) <= e.
(** [math.atan2]: for a point other than the origin, within [e] of an angle at which the point lies.
    (On the negative x axis either of -pi and pi will do: the sign of a zero decides there.) *)
Definition angle_within (e : R) (f : b64 -> b64 -> b64) : Prop :=
  forall y x, fin y -> fin x -> (val x, val y) <> (0, 0) -> fin (f y x) /\
    exists th, - PI <= th <= PI /\ Rabs (val (f y x) - th) <= e /\
      let h := sqrt (val x ^ 2 + val y ^ 2) in val x = h * cos th /\ val y = h * sin th.
(** No double is closer to [r] than [x]. *)
Definition nearest_double (r : R) (x : b64) : Prop :=
  fin x /\ forall y, fin y -> Rabs (val x - r) <= Rabs (val y - r).
(** [round(x, 15)]: a decimal with 15 places at most half a unit away, read back as a double. *)
Definition rounds15 (f : b64 -> b64) : Prop := forall x, fin x ->
  exists k : Z, Rabs (val x * 10 ^ 15 - IZR k) <= / 2 /\ nearest_double (IZR k / 10 ^ 15) (f x).
(** [math.pi]: 7074237752028440 / 2^51. *)
Definition math_pi : b64 := @B754_finite prec emax false 7074237752028440 (-51) eq_refl.
(** [p] seen from the line through [s] and [f]: how far along it, and how far to the left of it. *)
Definition along_and_across (s f p : pt) : pt :=
  (vdot (vsub f s) (vsub p s) / vdist s f, vcross (vsub f s) (vsub p s) / vdist s f).
(** The distance of [p] from the line through [s] and [f]. *)
Definition line_dist (s f p : pt) : R := Rabs (vcross (vsub f s) (vsub p s)) / vdist s f.
(** [math.atan2] on the axes, as fixed by the C standard (Annex F.10.1.4): the doubles 0, pi/2 and pi with the
    sign of the first argument. *)
Definition half_pi : b64 := @B754_finite prec emax false 7074237752028440 (-52) eq_refl.
Definition atan2_axes (f : b64 -> b64 -> b64) : Prop := forall y x, fin y -> fin x ->
  (val y = 0 -> 0 < val x -> fin (f y x) /\ val (f y x) = 0) /\
  (val y = 0 -> val x < 0 -> f y x = math_pi \/ f y x = Bopp math_pi) /\
  (val x = 0 -> 0 < val y -> f y x = half_pi) /\
  (val x = 0 -> val y < 0 -> f y x = Bopp half_pi).
(** Within [e] of the box spanned by [a] and [z]. *)
Definition box_within (e : R) (a z p : pt) : Prop :=
  Rmin (fst a) (fst z) - e <= fst p <= Rmax (fst a) (fst z) + e /\ Rmin (snd a) (snd z) - e <= snd p <= Rmax (snd a) (snd z) + e.
(** [math.hypot]: within the fraction [e] of the true length, for arguments up to 2^1000. *)
Definition hypot_within (e : R) (f : b64 -> b64 -> b64) : Prop :=
  forall x y, fin x -> fin y -> Rabs (val x) <= 2 ^ 1000 -> Rabs (val y) <= 2 ^ 1000 ->
    fin (f x y) /\ let h := sqrt (val x ^ 2 + val y ^ 2) in Rabs (val (f x y) - h) <= e * h + 2 * tiny.
