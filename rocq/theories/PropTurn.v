(** Property C133: drawings sent through an affine map, turned, or turned over.
    [mapped a b c d v] is the affine map with linear part [[a b] [c d]] and offset [v];
    [turned c s v] the turn with cosine [c] and sine [s]; [quarter] the turn by 90 degrees;
    [flipped] changes the sign of y (SpecTurn.v).  [answer f] applies [f] to a result and keeps an error. *)
From Coq Require Import List ZArith Bool Reals Lra Lia String.
From Verif Require Import Py Inst SpecGeom SpecBezier SpecCurve SpecMove SpecTurn MBounds MBezUtil MBezier MTables MBezierObj MContour ProofTurn.
Import ListNotations.
Local Open Scope R_scope.
#[local] Hint Extern 0 (TrigOps R) => exact RPy : typeclass_instances.

(** ** C133 *)
(** Any affine map of the control points maps points, samples, hulls, parts and raised curves. *)
Theorem C133_affine_maps (a b c d : R) (v : R * R) (z : bezier R) (t u : R) (steps : Z) :
  let f := mapped a b c d v in let fz := mapped_curve a b c d v in
  get (fz z) t = answer f (get z t) /\ getLUT (fz z) steps = answer (map f) (getLUT z steps) /\ hull (fz z) t = map f (hull z t) /\
  derivative (fz z) t = answer (mapped a b c d (0, 0)) (derivative z t) /\ raiseOrder (fz z) = answer fz (raiseOrder z) /\
  split1 (fz z) t = answer (fun x => let '(l, r, h) := x in (fz l, fz r, map f h)) (split1 z t) /\
  split2curve (fz z) t u = answer fz (split2curve z t u).
Proof.
  cbv zeta. split; [apply get_map|]. split; [apply getLUT_map|]. split; [apply hull_map|]. split; [apply derivative_map|]. split; [apply raiseOrder_map|]. split; [apply split1_map|apply split2curve_map].
Qed.
Print Assumptions C133_affine_maps.
(** A map that does not flatten the plane also maps crossings of lines and the ABC points. *)
Theorem C133_crossings (a b c d : R) (v : R * R) (p q r s : R * R) (z : bezier R) (t : R) : a * d - b * c <> 0 ->
  let f := mapped a b c d v in
  lli4 (f p) (f q) (f r) (f s) = option_map f (lli4 p q r s) /\
  getABC (mapped_curve a b c d v z) t = answer (fun x => let '(A, B, C, k, h) := x in (f A, f B, option_map f C, k, map f h)) (getABC z t).
Proof. intros D f. split; [now apply lli4_map|now apply getABC_map]. Qed.
Print Assumptions C133_crossings.
(** A map that keeps distances keeps lengths, and the closest point of a contour goes along. *)
Theorem C133_lengths_and_closest_points (a b c d : R) (z : bezier R) (v p : R * R) (k k' : bcontour R) (steps : Z) :
  a * a + c * c = 1 -> b * b + d * d = 1 -> a * b + c * d = 0 ->
  let f := mapped a b c d (0, 0) in
  c_beziers k' = map (mapped_curve a b c d (0, 0)) (c_beziers k) -> c_lut k' = map f (c_lut k) ->
  quadrature (mapped_curve a b c d v z) = quadrature z /\
  snd (findClosestPoint k' (f p) steps) = answer (fun x => (fst x, f (snd x))) (snd (findClosestPoint k p steps)).
Proof. intros O1 O2 O3 f B L. split; [exact (length_map round15 a b c d O1 O2 O3 v z)|exact (closestPoint_map round15 a b c d O1 O2 O3 k k' p steps B L)]. Qed.
Print Assumptions C133_lengths_and_closest_points.
Example C133_map_case : (3 / 5) * (3 / 5) + (4 / 5) * (4 / 5) = 1 /\ (4 / 5) * (4 / 5) + (- (3 / 5)) * (- (3 / 5)) = 1 /\ (3 / 5) * (4 / 5) + (4 / 5) * - (3 / 5) = 0 /\
  (3 / 5) * - (3 / 5) - (4 / 5) * (4 / 5) <> 0.
Proof. lra. Qed.
(** Turns: directions turn, everything measured against the curve stays. *)
Theorem C133_turns (c s : R) (v : R * R) (z : bezier R) (t d : R) (o p q : R * R) : c * c + s * s = 1 ->
  let f := turned c s v in let dir := turned c s (0, 0) in let fz := turned_curve c s v in
  tangent (fz z) t = answer dir (tangent z t) /\ normal (fz z) t = answer dir (normal z t) /\ normal_ (fz z) t = answer dir (normal_ z t) /\
  angle (f o) (f p) (f q) = angle o p q /\ isClockwise (map f (cps z)) = isClockwise (cps z) /\ simple (fz z) = simple z /\
  offsetPoint (fz z) t d = answer (fun x => let '(e, n, m) := x in (f e, dir n, f m)) (offsetPoint z t d) /\
  offsetLinear (fz z) d = answer (map fz) (offsetLinear z d).
Proof.
  intros U f dir fz. split; [exact (tangent_turn round15 c s U v z t)|]. split; [exact (normal_turn round15 c s U v z t)|]. split; [exact (normal__turn round15 c s U v z t)|]. split; [exact (angle_turn round15 c s U v o p q)|].
  split; [exact (clockwise_turn round15 c s U v (cps z))|]. split; [exact (simple_turn round15 c s U v z)|]. split; [exact (offsetPoint_turn round15 c s U v z t d)|exact (offsetLinear_turn round15 c s U v z d)].
Qed.
Print Assumptions C133_turns.
(** Curves scaled by a number or by a function. *)
Theorem C133_turned_offsets (c s : R) (v : R * R) (z : bezier R) (d : R) (g : R -> R) : c * c + s * s = 1 ->
  ((List.length (cps z) <= 4)%nat -> scaleNum (turned_curve c s v z) d = answer (turned_curve c s v) (scaleNum z d)) /\
  (List.length (cps z) = 4%nat -> scaleFn (turned_curve c s v z) g = answer (turned_curve c s v) (scaleFn z g)).
Proof. intros U. split; [exact (scaleNum_turn round15 c s U v z d)|exact (scaleFn_turn round15 c s U v z g)]. Qed.
Print Assumptions C133_turned_offsets.
Example C133_turn_case : let z := mkBez [(0, 0); (0, 4); (4, 4); (4, 0)] 0 1 in
  (3 / 5) * (3 / 5) + (4 / 5) * (4 / 5) = 1 /\ List.length (cps z) = 4%nat /\ turned (3 / 5) (4 / 5) (1, 0) (0, 5) = (-3, 3).
Proof. cbv zeta. split; [lra|]. split; [reflexivity|]. unfold turned, mapped. cbn [fst snd]. f_equal; field. Qed.
(** A quarter turn: boxes turn, the extreme parameters and the intersections are the same, the
    reduced pieces turn. *)
Theorem C133_quarter_turns (z : bezier R) (fuel : nat) : (2 <= List.length (cps z) <= 4)%nat ->
  boundsRectangle (quarter_curve z) = answer quarter_rect (boundsRectangle z) /\
  answer ex2 (extrema (quarter_curve z)) = answer ex2 (extrema z) /\
  reduce fuel (quarter_curve z) = answer (map quarter_curve) (reduce fuel z).
Proof. intros L. split; [exact (box_quarter round15 z L)|]. split; [exact (extrema_quarter round15 z L)|exact (reduce_quarter round15 fuel z L)]. Qed.
Print Assumptions C133_quarter_turns.
Theorem C133_quarter_turn_intersections (rfuel fuel : nat) (z : bezier R) (o : option (bezier R)) (th : R) : (102 <= rfuel)%nat ->
  (forall y, y = z \/ o = Some y -> List.length (cps y) = 3%nat \/ List.length (cps y) = 4%nat) ->
  intersects rfuel fuel (quarter_curve z) (option_map quarter_curve o) th = intersects rfuel fuel z o th.
Proof. intros F L. apply (intersects_quarter round15); [exact F|apply L; now left|intros y Y; apply L; now right]. Qed.
Print Assumptions C133_quarter_turn_intersections.
Theorem C133_quarter_turned_outlines (cs : list (contour R)) : (forall c s, In c cs -> In s c -> (2 <= List.length s <= 4)%nat) ->
  newOutline (map (map (map quarter)) cs) = answer quarter_outline (newOutline cs) /\
  forall c, In c cs -> newContour (map (map quarter) c) = answer quarter_contour (newContour c).
Proof. intros F. split; [exact (newOutline_quarter round15 cs F)|]. intros c C. apply (newContour_quarter round15). intros s. now apply F. Qed.
Print Assumptions C133_quarter_turned_outlines.
Example C133_quarter_case : quarter (3, 5) = (-5, 3) /\ quarter_rect (mkRect 1 2 4 3) = mkRect (-4) (-3) 2 1.
Proof. unfold quarter, turned, mapped, quarter_rect. cbn [fst snd left right top bottom]. split; f_equal; ring. Qed.
(** Turned over: the box is turned over, the normals point to the other side, offsets go the other
    way, and a curve that is not straight at its start changes its sense of rotation. *)
Theorem C133_turned_over (z : bezier R) (t d : R) : (2 <= List.length (cps z) <= 4)%nat ->
  let mirror := fun n : R * R => (- fst n, snd n) in
  boundsRectangle (flipped_curve z) = answer flipped_rect (boundsRectangle z) /\
  answer ex2 (extrema (flipped_curve z)) = answer ex2 (extrema z) /\
  tangent (flipped_curve z) t = answer flipped (tangent z t) /\ normal (flipped_curve z) t = answer mirror (normal z t) /\
  offsetPoint (flipped_curve z) t (- d) = answer (fun x => let '(c, n, p) := x in (flipped c, mirror n, flipped p)) (offsetPoint z t d).
Proof.
  intros L mirror. split; [exact (box_flip round15 z L)|]. split; [exact (extrema_flip round15 z L)|]. split; [exact (tangent_flip round15 z t)|]. split; [exact (normal_flip round15 z t)|exact (offset_flip round15 z t d)].
Qed.
Print Assumptions C133_turned_over.
Theorem C133_turned_over_sides (z : bezier R) (o p q : R * R) (d : R) (p0 p1 pn : R * R) (r : list (R * R)) :
  (~ right_behind o p q -> angle (flipped o) (flipped p) (flipped q) = - angle o p q) /\
  (cps z = p0 :: p1 :: r ++ [pn] -> (List.length r <= 1)%nat -> vcross (vsub pn p0) (vsub p1 p0) <> 0 ->
     isClockwise (map flipped (cps z)) = answer negb (isClockwise (cps z)) /\
     scaleNum (flipped_curve z) (- d) = answer flipped_curve (scaleNum z d)) /\
  ((forall a b c e, cps z = [a; b; c; e] -> ~ right_behind a e b /\ ~ right_behind a e c) -> simple (flipped_curve z) = simple z).
Proof. exact (flip_sides round15 z o p q d p0 p1 pn r). Qed.
Print Assumptions C133_turned_over_sides.
Example C133_sides_case : ~ right_behind (0, 0) (4, 0) (0, 4) /\ ~ right_behind (0, 0) (4, 0) (4, 4) /\ vcross (vsub (4, 0) (0, 0)) (vsub (0, 4) (0, 0)) <> 0.
Proof. unfold right_behind, vcross, vdot, vsub. cbn [fst snd]. split; [lra|]. split; lra. Qed.
(** A control point exactly behind the start counts as lying on the left, also in the turned-over
    curve, so [simple] tells the two apart. *)
Theorem C133_straight_behind_matters : exists z : bezier R, List.length (cps z) = 4%nat /\ simple z = Ok false /\ simple (flipped_curve z) = Ok true.
Proof. exists (mkBez [(0, 0); (-1, 0); (5, -3); (1, 0)] 0 1). split; [reflexivity|]. exact simple_sides. Qed.
Print Assumptions C133_straight_behind_matters.
