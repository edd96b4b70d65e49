(** Property C130: a drawing that is moved or resized gives the same answers, moved and resized alike.
    [placed k v] multiplies by [k > 0] and then adds [v]; [answer f] applies [f] to the result of a query
    and leaves its exception alone (SpecMove.v). *)
From Coq Require Import List ZArith Bool Reals Lra Lia.
From Verif Require Import Py Inst SpecGeom SpecBezier SpecCurve SpecMove MTransform MBounds MBezUtil MPathUtil MBezier MBezierObj ProofMove ProofMove2.
Import ListNotations.
Local Open Scope R_scope.
#[local] Existing Instance RPy.

(** ** C130 *)
(** Points on the curve and points derived from it. *)
Theorem C130_points (k : R) (v : R * R) (b : bezier R) (t : R) (n : Z) : 0 < k ->
  get (placed_curve k v b) t = answer (placed k v) (get b t) /\
  getLUT (placed_curve k v b) n = answer (map (placed k v)) (getLUT b n) /\
  hull (placed_curve k v b) t = map (placed k v) (hull b t) /\
  raiseOrder (placed_curve k v b) = answer (placed_curve k v) (raiseOrder b) /\
  getABC (placed_curve k v b) t = answer (fun x => let '(A, B, C, r, h) := x in (placed k v A, placed k v B, option_map (placed k v) C, r, map (placed k v) h)) (getABC b t).
Proof.
  intros K. exact (conj (get_mv k v b t) (conj (getLUT_mv k v b n) (conj (hull_mv k v b t) (conj (raiseOrder_mv k v K b) (getABC_mv k v K b t))))).
Qed.
Print Assumptions C130_points.
(** Directions and parameters stay; lengths are multiplied. *)
Theorem C130_directions_and_lengths (k : R) (v : R * R) (b : bezier R) (t : R) : 0 < k ->
  derivative (placed_curve k v b) t = answer (placed k (0, 0)) (derivative b t) /\
  tangent (placed_curve k v b) t = tangent b t /\ normal (placed_curve k v b) t = normal b t /\
  extrema (placed_curve k v b) = extrema b /\ simple (placed_curve k v b) = simple b /\
  isClockwise (cps (placed_curve k v b)) = isClockwise (cps b) /\ computeDirection (cps (placed_curve k v b)) = computeDirection (cps b) /\
  quadrature (placed_curve k v b) = answer (Rmult k) (quadrature b).
Proof.
  intros K. split; [exact (eq_trans (derivative_mv k v b t) (answer_ext _ _ _ (sc_placed k)))|].
  exact (conj (tangent_mv round15 k v K b t) (conj (normal_mv round15 k v K b t) (conj (extrema_mv round15 k v K b) (conj (simple_mv round15 k v K b)
    (conj (clockwise_mv round15 k v K (cps b)) (conj (direction_mv k v K (cps b)) (length_mv round15 k v K b))))))).
Qed.
Print Assumptions C130_directions_and_lengths.
(** Splitting, reduction and the scaled curve. *)
Theorem C130_parts (k : R) (v : R * R) (b : bezier R) (t t' d : R) (fuel : nat) : 0 < k ->
  split1 (placed_curve k v b) t = answer (fun x => let '(l, r, q) := x in (placed_curve k v l, placed_curve k v r, map (placed k v) q)) (split1 b t) /\
  split2curve (placed_curve k v b) t t' = answer (placed_curve k v) (split2curve b t t') /\
  reduce fuel (placed_curve k v b) = answer (map (placed_curve k v)) (reduce fuel b) /\
  ((length (cps b) <= 4)%nat -> scaleNum (placed_curve k v b) (k * d) = answer (placed_curve k v) (scaleNum b d)).
Proof.
  intros K. exact (conj (split1_mv k v K b t) (conj (split2curve_mv k v K b t t') (conj (reduce_mv round15 k v K fuel b) (scaleNum_mv round15 k v K b d)))).
Qed.
Print Assumptions C130_parts.
(** Boxes.  A box starts from +-32768, so one point of the curve has to be in that range before and after. *)
Theorem C130_boxes (k : R) (v : R * R) (b : bezier R) (s s' : R) : 0 < k -> (2 <= length (cps b) <= 4)%nat ->
  tightbbox (placed_curve k v b) = answer (map (map (placed k v))) (tightbbox b) /\
  (0 <= s <= 1 -> Rabs (fst (curve (cps b) s)) <= 32768 -> Rabs (snd (curve (cps b) s)) <= 32768 ->
   0 <= s' <= 1 -> Rabs (k * fst (curve (cps b) s') + fst v) <= 32768 -> Rabs (k * snd (curve (cps b) s') + snd v) <= 32768 ->
   boundsRectangle (placed_curve k v b) = answer (placed_rect k v) (boundsRectangle b)).
Proof.
  intros K L. split; [exact (tight_mv round15 k v K b L)|]. intros S X Y S' X' Y'. apply (bounds_mv round15 k v K b L).
  - exists s. auto.
  - exists s'. unfold placed_curve. cbn [cps]. rewrite (curve_mv k v) by lia. auto.
Qed.
Print Assumptions C130_boxes.
Example C130_range_needed : let b := mkBez [(0, 0); (1, 1); (2, 0)] 0 1 in
  boundsRectangle (placed_curve 1 (100000, 0) b) <> answer (placed_rect 1 (100000, 0)) (boundsRectangle b).
Proof. exact (range_needed_mv round15). Qed.
(** Intersections of two curves, or of a curve with itself: the same pairs of parameters in the same
    order, if the threshold grows with the drawing. *)
Theorem C130_intersections (k : R) (v : R * R) (b : bezier R) (other : option (bezier R)) (threshold : R) (rfuel fuel : nat) : 0 < k -> (102 <= rfuel)%nat ->
  (forall c, c = b \/ other = Some c -> (length (cps c) = 3 \/ length (cps c) = 4)%nat /\ in_sentinels (cps c) /\ in_sentinels (map (placed k v) (cps c))) ->
  intersects rfuel fuel (placed_curve k v b) (option_map (placed_curve k v) other) (k * threshold) = intersects rfuel fuel b other threshold.
Proof. exact (intersections_mv round15 k v b other threshold rfuel fuel). Qed.
Print Assumptions C130_intersections.
Example C130_case : let b := mkBez [(0, 0); (100, 200); (200, 0)] 0 1 in 0 < 3 /\ (length (cps b) = 3 \/ length (cps b) = 4)%nat /\
  in_sentinels (cps b) /\ in_sentinels (map (placed 3 (-50, 70)) (cps b)).
Proof.
  cbv zeta. split; [lra|]. split; [now left|]. split; intros q H; cbn [cps map placed fst snd In] in H; decompose [or] H; try contradiction; subst q; unfold placed; cbn [fst snd];
    split; apply Rabs_le; lra.
Qed.
(** Crossings with lines and offset curves use fixed tolerances.  They follow a drawing that is moved. *)
Theorem C130_lines_and_offsets (v : R * R) (b line : bezier R) (p q : R * R) (d : R) (fuel : nat) :
  (length (cps b) = 3 \/ length (cps b) = 4)%nat -> cps line <> [] -> (102 <= fuel)%nat ->
  isLinear (cps (placed_curve 1 v b)) = isLinear (cps b) /\
  lineIntersects (placed_curve 1 v b) (placed 1 v p) (placed 1 v q) = lineIntersects b p q /\
  intersectWithLine (placed_curve 1 v b) (placed_curve 1 v line) = answer (option_map (placed 1 v)) (intersectWithLine b line) /\
  offsetCurves fuel (placed_curve 1 v b) d = answer (map (placed_curve 1 v)) (offsetCurves fuel b d).
Proof.
  intros L N F. exact (conj (linear_t round15 v (cps b)) (conj (lineIntersects_t round15 v b p q) (conj (intersectWithLine_t round15 v b line N) (offset_t round15 v fuel b d L F)))).
Qed.
Print Assumptions C130_lines_and_offsets.
(** They do not follow a drawing that is resized: an arch 1 high counts as straight when it is drawn 100000
    times smaller, so that offset moves it instead of scaling it. *)
Example C130_tolerance_is_fixed : let p := [(0, 0); (1, 1); (2, 0)] in isLinear p = Ok false /\ isLinear (map (placed (1 / 100000) (0, 0)) p) = Ok true.
Proof. exact straight_when_small. Qed.
