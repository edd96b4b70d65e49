(** Property C138: every double, NaN and the infinities included, as a coordinate. *)
From Coq Require Import List ZArith Bool Reals Lra Lia.
From Flocq Require Import Core BinarySingleNaN.
From Verif Require Import Py InstFloat SpecDouble SpecNan MBounds MPathUtil MBezier MContour ProofNan.
Import ListNotations.
Local Open Scope R_scope.
Local Notation top := MBounds.top.
Local Infix "≤" := (fun x y : b64 => nleb x y = true) (at level 70).

(** ** C138.  The box of any points has edges that are numbers; they are decided by the coordinates that are numbers, one by one. *)
Theorem C138_box (ps : list (point b64)) : let r := BoundsRectangle ps in
  numbers r /\ forall x : b64, not_nan x ->
  (x ≤ left r <-> x ≤ bofZ 32768 /\ forall p, In p ps -> not_nan (fst p) -> x ≤ fst p) /\
  (right r ≤ x <-> bofZ (-32768) ≤ x /\ forall p, In p ps -> not_nan (fst p) -> fst p ≤ x) /\
  (x ≤ bottom r <-> x ≤ bofZ 32768 /\ forall p, In p ps -> not_nan (snd p) -> x ≤ snd p) /\
  (top r ≤ x <-> bofZ (-32768) ≤ x /\ forall p, In p ps -> not_nan (snd p) -> snd p ≤ x).
Proof. exact (box_nan ps). Qed.
Print Assumptions C138_box.
Theorem C138_box_skips (ps qs : list (point b64)) (p : point b64) : is_nan (fst p) = true -> is_nan (snd p) = true ->
  BoundsRectangle (ps ++ p :: qs) = BoundsRectangle (ps ++ qs).
Proof. exact (box_skips ps qs p). Qed.
Print Assumptions C138_box_skips.
(** Joining, cutting and the boxes of contours give numbers whatever they are given. *)
Theorem C138_boxes : (forall a b : rect b64, numbers (union a b)) /\ (forall a b i : rect b64, intersection a b = Some i -> numbers i) /\
  (forall c : contour b64, numbers (fromContour c)) /\ (forall cs : list (contour b64), numbers (fromContours cs)).
Proof. exact boxes_nan. Qed.
Print Assumptions C138_boxes.
(** A box never encloses a point that has a NaN. *)
Theorem C138_enclosesPoint (r : rect b64) (p : point b64) : enclosesPoint r p = true -> not_nan (fst p) /\ not_nan (snd p) /\ numbers r.
Proof. exact (inside_nan r p). Qed.
Print Assumptions C138_enclosesPoint.
(** So do the boxes of curves, also when the curve runs through NaN. *)
Theorem C138_curve_box (TO : TrigOps b64) (b : bezier b64) :
  (forall x0 x1 y0 y1, bbox b = Ok ((x0, x1), (y0, y1)) -> not_nan x0 /\ not_nan x1 /\ not_nan y0 /\ not_nan y1) /\
  (forall r, boundsRectangle b = Ok r -> numbers r).
Proof. exact (curve_box_nan b). Qed.
Print Assumptions C138_curve_box.
(** Parameters that are reported are finite and on the curve (within the tolerance of the code), whatever the control points are. *)
Theorem C138_roots (TO : TrigOps b64) (b : bezier b64) (seg : option (segment b64)) (l : list b64) : roots b seg = Ok l ->
  Forall (fun t => fin t /\ - (2 / 1000000) <= val t <= 1 + 2 / 1000000) l.
Proof. exact (roots_nan b seg l). Qed.
Print Assumptions C138_roots.
Theorem C138_lineIntersects (TO : TrigOps b64) (b : bezier b64) (p1 p2 : point b64) (l : list b64) : lineIntersects b p1 p2 = Ok l ->
  Forall (fun t => fin t /\ - (2 / 1000000) <= val t <= 1 + 2 / 1000000) l.
Proof. exact (line_nan b p1 p2 l). Qed.
Print Assumptions C138_lineIntersects.
Theorem C138_extrema (TO : TrigOps b64) (b : bezier b64) (e : extremaT b64) : extrema b = Ok e ->
  Forall (fun t => fin t /\ 0 <= val t <= 1) (ex0 e ++ ex1 e ++ ex2 e).
Proof. exact (extrema_nan b e). Qed.
Print Assumptions C138_extrema.
(** A line is vertical when both abscissas are finite and equal, and not otherwise; a line that is neither vertical nor horizontal is
    diagonal, so that two equal infinite abscissas make a diagonal line. *)
Theorem C138_lines (a b : point b64) : exists v h d, isVerticalLine [a; b] = Ok v /\ isHorizontalLine [a; b] = Ok h /\ isDiagonalLine [a; b] = Ok d /\
  (v = true <-> fin (fst a) /\ fin (fst b) /\ val (fst a) = val (fst b)) /\ (h = true <-> fin (snd a) /\ fin (snd b) /\ val (snd a) = val (snd b)) /\
  d = negb v && negb h /\ (slope [a; b] = Ok SInf <-> v = true).
Proof. exact (lines_total a b). Qed.
Print Assumptions C138_lines.
(** The nearest point of a table: samples at a distance that is not a number are passed over; the rest is searched as if they were not there. *)
Theorem C138_findClosest (TO : TrigOps b64) (p : point b64) (lut : list (point b64)) :
  let d (q : point b64) := thypot (nsub (fst q) (fst p)) (nsub (snd q) (snd p)) in
  (findClosest p lut = (-1)%Z /\ forall q, In q lut -> nltb (d q) (bofZ 9007199254740991) = false) \/
  (exists k, findClosest p lut = Z.of_nat k /\ (k < length lut)%nat /\ not_nan (d (nth k lut p)) /\ nltb (d (nth k lut p)) (bofZ 9007199254740991) = true /\
    (forall q, In q lut -> nltb (d q) (d (nth k lut p)) = false) /\
    forall m, (m < k)%nat -> not_nan (d (nth m lut p)) -> nltb (d (nth k lut p)) (d (nth m lut p)) = true).
Proof. exact (closest_nan p lut). Qed.
Print Assumptions C138_findClosest.

(** NaN in every place, an infinity, and a math library that answers with the larger argument. *)
Definition C138_lib : TrigOps b64 := FTrig (fun x => x) (fun x => x) (fun x => x) pmax pmax pmax (bofZ 3) (fun x => x).
Example C138_case : let n : b64 := B754_nan in let i : b64 := B754_infinity false in
  let r := BoundsRectangle [(n, bofZ 2); (bofZ 5, n); (n, n); (i, bofZ 3)] in
  neqb (left r) (bofZ 5) && neqb (right r) i && neqb (top r) (bofZ 3) && neqb (bottom r) (bofZ 2) = true /\ enclosesPoint r (bofZ 6, n) = false /\
  isVerticalLine [(i, bofZ 0); (i, bofZ 1)] = Ok false /\ isDiagonalLine [(i, bofZ 0); (i, bofZ 1)] = Ok true /\
  @findClosest b64 _ C138_lib (bofZ 0, bofZ 0) [(n, n); (bofZ 7, bofZ 1); (n, bofZ 3); (bofZ 2, bofZ 1)] = 3%Z /\
  @roots b64 _ C138_lib (mkBez [(bofZ 0, bofZ 1); (n, n); (bofZ 4, bofZ 1)] (bofZ 0) (bofZ 1)) None = Ok [] /\
  (match @roots b64 _ C138_lib (mkBez [(bofZ 0, bofZ (-1)); (n, bofZ 0); (i, bofZ 1)] (bofZ 0) (bofZ 1)) None with Ok [t] => neqb (nadd t t) (bofZ 1) | _ => false end) = true.
Proof.
  cbv zeta. split; [vm_compute; reflexivity|]. split; [vm_compute; reflexivity|]. split; [vm_compute; reflexivity|]. split; [vm_compute; reflexivity|].
  split; [vm_compute; reflexivity|]. split; [vm_compute; reflexivity|].
  vm_compute; reflexivity.
Qed.
