(** Properties C80 to C85: tightbbox, scale, offset, straightness and the domain of simple (Bezier.py 41-63, 267-274, 557-615, 745-816). *)
From Coq Require Import List ZArith Bool Reals Lra Lia.
From Verif Require Import Py Inst InstFloat SpecGeom SpecBezier SpecCurve MTransform MBezUtil MBezier ProofBezier ProofBezier2 ProofBezier3 ProofReduce ProofTight ProofScale ProofOffset ProofHigh.
Import ListNotations.
Local Open Scope R_scope.
#[local] Existing Instance RPy.

(** ** C80 *)
(** The trigonometric functions round to 15 digits, so the rectangle encloses the curve enlarged by a factor [k] about its start, with |k - 1| <= 4e-15. *)
Theorem C80_tightbbox (b : bezier R) : (2 <= length (cps b) <= 4)%nat ->
  let p0 := nth 0 (cps b) (0, 0) in let pn := nth (length (cps b) - 1) (cps b) (0, 0) in
  exists c u w h k, 0 <= w /\ 0 <= h /\ vdot u u = k /\ Rabs (k - 1) <= 4 * / 10 ^ 15 /\
    (let v := vsub (vscale (vdist p0 pn) u) (vsub pn p0) in Rabs (fst v) <= / 2 * / 10 ^ 15 * vdist p0 pn /\ Rabs (snd v) <= / 2 * / 10 ^ 15 * vdist p0 pn) /\
    tightbbox b = Ok [[frame c u 0 0; frame c u 0 h]; [frame c u 0 h; frame c u w h]; [frame c u w h; frame c u w 0]; [frame c u w 0; frame c u 0 0]] /\
    (forall t, 0 <= t <= 1 -> exists x y, 0 <= x <= w /\ 0 <= y <= h /\ along p0 (curve (cps b) t) k = frame c u x y) /\
    (exists t y, 0 <= t <= 1 /\ along p0 (curve (cps b) t) k = frame c u 0 y) /\ (exists t y, 0 <= t <= 1 /\ along p0 (curve (cps b) t) k = frame c u w y) /\
    (exists t x, 0 <= t <= 1 /\ along p0 (curve (cps b) t) k = frame c u x 0) /\ (exists t x, 0 <= t <= 1 /\ along p0 (curve (cps b) t) k = frame c u x h).
Proof. exact (tight_rounded b). Qed.
Print Assumptions C80_tightbbox.
(** With exact functions it encloses the curve itself, along the chord. *)
Theorem C80_tightbbox_exact (b : bezier R) : (2 <= length (cps b) <= 4)%nat ->
  let p0 := nth 0 (cps b) (0, 0) in let pn := nth (length (cps b) - 1) (cps b) (0, 0) in
  exists c u w h, 0 <= w /\ 0 <= h /\ vdot u u = 1 /\ vscale (vdist p0 pn) u = vsub pn p0 /\
    @tightbbox R RNum RExact b = Ok [[frame c u 0 0; frame c u 0 h]; [frame c u 0 h; frame c u w h]; [frame c u w h; frame c u w 0]; [frame c u w 0; frame c u 0 0]] /\
    (forall t, 0 <= t <= 1 -> exists x y, 0 <= x <= w /\ 0 <= y <= h /\ curve (cps b) t = frame c u x y) /\
    (exists t y, 0 <= t <= 1 /\ curve (cps b) t = frame c u 0 y) /\ (exists t y, 0 <= t <= 1 /\ curve (cps b) t = frame c u w y) /\
    (exists t x, 0 <= t <= 1 /\ curve (cps b) t = frame c u x 0) /\ (exists t x, 0 <= t <= 1 /\ curve (cps b) t = frame c u x h).
Proof. exact (tight_exact b). Qed.
Print Assumptions C80_tightbbox_exact.
(** The rectangle of the frame at (1,1) with axes (4/5,3/5), (-3/5,4/5), width 10 and height 5: its far corner is (6,11). *)
Example C80_case : frame (1, 1) (4 / 5, 3 / 5) 10 5 = (6, 11) /\ (2 <= length [(1, 1); (0, 3); (5, 4)] <= 4)%nat.
Proof. split; [unfold frame, turned, vadd, vscale; cbn [fst snd]; f_equal; lra|simpl; lia]. Qed.

(** ** C81 *)
(** [k] is [d] when the first leg turns to the left of the chord (or straight back), [-d] otherwise. *)
Theorem C81_scale_number (b : bezier R) (d : R) : (length (cps b) = 3 \/ length (cps b) = 4)%nat ->
  let p := cps b in let a := first_leg p in let z := last_leg p in let u := vsub (nth (length p - 1) p (0, 0)) (nth 0 p (0, 0)) in
  let inner := removelast (tl p) in
  ((a = (0, 0) \/ z = (0, 0)) -> scaleNum b d = Err ZeroDivisionError) /\
  (a <> (0, 0) -> z <> (0, 0) -> vcross a z = 0 -> scaleNum b d = Err ValueError) /\
  (vcross a z <> 0 -> exists o n0 n1 k, left_normal a n0 /\ left_normal z n1 /\ normals_meet p o /\
    ((0 < vcross u a \/ (vcross u a = 0 /\ vdot u a < 0)) -> k = d) /\ (~ (0 < vcross u a \/ (vcross u a = 0 /\ vdot u a < 0)) -> k = - d) /\
    (In o inner -> scaleNum b d = Err ZeroDivisionError) /\
    (~ In o inner -> exists c, scaleNum b d = Ok c /\
       cps c = vadd (nth 0 p (0, 0)) (vscale d n0) :: map (away o k) inner ++ [vadd (nth (length p - 1) p (0, 0)) (vscale d n1)])).
Proof. exact (scale_number round15 b d). Qed.
Print Assumptions C81_scale_number.
(** The corner (0,0), (0,3), (4,3) scaled by 5: the normals meet in (4,0). *)
Example C81_case : exists c, scaleNum (mkBez [(0, 0); (0, 3); (4, 3)] 0 1) 5 = Ok c /\ cps c = [(-5, 0); (-4, 6); (4, 8)].
Proof. exact (corner_scaled round15). Qed.

(** ** C82 *)
(** Full claim: the scaled curve leaves its ends in the directions of the curve.  False for a number: the corner above leaves in the direction (1,6) instead of (0,1). *)
Theorem C82_end_tangents_refuted : exists (b c : bezier R) (d : R), length (cps b) = 3%nat /\ scaleNum b d = Ok c /\ first_leg (cps b) <> (0, 0) /\
  vcross (first_leg (cps b)) (first_leg (cps c)) <> 0.
Proof. exact (tangent_lost round15). Qed.
Print Assumptions C82_end_tangents_refuted.
(** For a function it holds on cubics: the legs keep their lines, scaled by 1 - d/r where [r] is the signed distance from the end to the point where the normals meet. *)
Theorem C82_scale_function_partial (p0 p1 p2 p3 : pt) (u v : R) (d : R -> R) : let b := mkBez [p0; p1; p2; p3] u v in let a := vsub p1 p0 in let z := vsub p3 p2 in
  ((a = (0, 0) \/ z = (0, 0)) -> scaleFn b d = Err ZeroDivisionError) /\
  (a <> (0, 0) -> z <> (0, 0) -> vcross a z = 0 -> scaleFn b d = Err ValueError) /\
  (vcross a z <> 0 -> exists n0 n1 r0 r1, left_normal a n0 /\ left_normal z n1 /\ vadd p0 (vscale r0 n0) = vadd p3 (vscale r1 n1) /\
    (r0 = 0 \/ r1 = 0 -> scaleFn b d = Err TypeError) /\
    (r0 <> 0 -> r1 <> 0 -> exists c, scaleFn b d = Ok c /\ let e0 := vadd p0 (vscale (d 0) n0) in let e1 := vadd p3 (vscale (d 1) n1) in
       cps c = [e0; vadd e0 (vscale (1 - d 0 / r0) a); vsub e1 (vscale (1 - d 1 / r1) z); e1])).
Proof. exact (scale_function round15 p0 p1 p2 p3 u v d). Qed.
Print Assumptions C82_scale_function_partial.
Example C82_case : vcross (vsub (0, 3) (0, 0)) (vsub (4, 4) (1, 4)) <> 0.
Proof. unfold vcross, vsub; cbn [fst snd]. lra. Qed.
(** On quadratics scale(function) never works. *)
Theorem C82_scale_function_quadratic_refuted (b : bezier R) (d : R -> R) : length (cps b) = 3%nat -> scaleFn b d = Err ZeroDivisionError.
Proof. exact (scale_function_quadratic round15 b d). Qed.
Print Assumptions C82_scale_function_quadratic_refuted.

(** ** C83 *)
Theorem C83_offset_straight (b : bezier R) (d : R) (fuel : nat) : (length (cps b) = 3 \/ length (cps b) = 4)%nat -> isLinear (cps b) = Ok true ->
  (first_leg (cps b) = (0, 0) -> offsetCurves fuel b d = Err ZeroDivisionError) /\
  (first_leg (cps b) <> (0, 0) -> exists n c, left_normal (first_leg (cps b)) n /\ offsetCurves fuel b d = Ok [c] /\ length (cps c) = length (cps b) /\
     forall t, curve (cps c) t = vadd (curve (cps b) t) (vscale d n)).
Proof. exact (offset_linear round15 b d fuel). Qed.
Print Assumptions C83_offset_straight.
Theorem C83_offset_pieces (b : bezier R) (d : R) (fuel : nat) (l : list (bezier R)) : (length (cps b) = 3 \/ length (cps b) = 4)%nat -> (102 <= fuel)%nat ->
  isLinear (cps b) = Ok false -> offsetCurves fuel b d = Ok l ->
  exists rs, reduce fuel b = Ok rs /\ length l = length rs /\ (rs = [] \/ tiles (cps b) 0 1 rs) /\
  forall i r c, nth_error rs i = Some r -> nth_error l i = Some c -> length (cps c) = length (cps b) /\
    offset_point (cps b) d (bt1 r) (nth 0 (cps c) (0, 0)) /\ (isLinear (cps r) = Ok false -> offset_point (cps b) d (bt2 r) (last (cps c) (0, 0))).
Proof. exact (offset_pieces round15 b d fuel l). Qed.
Print Assumptions C83_offset_pieces.
Theorem C83_pieces_join (b : bezier R) (d : R) (fuel : nat) (l rs : list (bezier R)) (i : nat) (r c c' : bezier R) :
  (length (cps b) = 3 \/ length (cps b) = 4)%nat -> (102 <= fuel)%nat -> isLinear (cps b) = Ok false ->
  offsetCurves fuel b d = Ok l -> reduce fuel b = Ok rs -> nth_error rs i = Some r -> isLinear (cps r) = Ok false ->
  nth_error l i = Some c -> nth_error l (S i) = Some c' -> last (cps c) (0, 0) = nth 0 (cps c') (0, 0).
Proof. exact (offset_joins round15 b d fuel l rs i r c c'). Qed.
Print Assumptions C83_pieces_join.

(** A quadratic that is not degenerate can always be offset. *)
Theorem C83_quadratics (b : bezier R) (d : R) (fuel : nat) : length (cps b) = 3%nat -> (102 <= fuel)%nat -> vcross (first_leg (cps b)) (last_leg (cps b)) <> 0 ->
  exists l, offsetCurves fuel b d = Ok l.
Proof. exact (offset_quadratic b d fuel). Qed.
Print Assumptions C83_quadratics.
(** The arch (0,0), (1,1), (2,0) has a non-empty offset; the segment (0,0), (1,0), (4,0) is straight. *)
Example C83_case : let b := mkBez [(0, 0); (1, 1); (2, 0)] 0 1 in isLinear (cps b) = Ok false /\ exists l, offsetCurves 102 b (1 / 2) = Ok l /\ l <> [].
Proof. exact arch_offset. Qed.
Example C83_straight_case : isLinear [(0, 0); (1, 0); (4, 0)] = Ok true /\ first_leg [(0, 0); (1, 0); (4, 0)] <> (0, 0).
Proof. split; [exact level_linear|]. unfold first_leg, vsub; cbn [nth fst snd]. intros X; injection X; lra. Qed.

(** ** C84 *)
Theorem C84_linear (p : list pt) : (2 <= length p)%nat -> let p0 := nth 0 p (0, 0) in let pn := nth (length p - 1) p (0, 0) in
  exists l, @isLinear R RNum RExact p = Ok l /\
    (p0 <> pn -> (l = true <-> forall q, In q p -> Rabs (vcross (vsub pn p0) (vsub q p0)) <= 1 / 10000 * vdist p0 pn)) /\
    (p0 = pn -> (l = true <-> forall q, In q p -> Rabs (snd q - snd p0) <= 1 / 10000)).
Proof. exact (linear_exact p). Qed.
Print Assumptions C84_linear.
Theorem C84_clockwise (p : list pt) : (2 <= length p)%nat -> let u := vsub (nth (length p - 1) p (0, 0)) (nth 0 p (0, 0)) in let w := first_leg p in
  exists c, isClockwise p = Ok c /\ (c = true <-> 0 < vcross u w \/ (vcross u w = 0 /\ vdot u w < 0)).
Proof. exact (clockwise_ok round15 p). Qed.
Print Assumptions C84_clockwise.
Example C84_case : Rabs (vcross (vsub (4, 3) (0, 0)) (vsub (2, 3 / 2) (0, 0))) <= 1 / 10000 * vdist (0, 0) (4, 3) /\ 0 < vcross (vsub (4, 3) (0, 0)) (vsub (2, 3) (0, 0)).
Proof.
  unfold vcross, vsub, vdist, dist2; cbn [fst snd]. split; [|lra]. replace ((4 - 0) * (3 / 2 - 0) - (3 - 0) * (2 - 0)) with 0 by lra. rewrite Rabs_R0.
  match goal with |- context [sqrt ?x] => pose proof (sqrt_pos x) end. lra.
Qed.

(** ** C85 *)
(** In exact arithmetic only a vanishing tangent makes simple or reduce raise. *)
Theorem C85_exact_partial (b : bezier R) (fuel : nat) : (length (cps b) = 3 \/ length (cps b) = 4)%nat -> (102 <= fuel)%nat ->
  (forall t, 0 <= t <= 1 -> ~ is_deriv (curve (cps b)) t (0, 0)) -> (exists s, simple b = Ok s) /\ (exists l, reduce fuel b = Ok l).
Proof. exact (regular_ok round15 b fuel). Qed.
Print Assumptions C85_exact_partial.
(** With floats it fails, whatever the C library computes for the transcendental functions: the normals of a straight
    curve along the diagonal have the scalar product 1.0000000000000002, outside the domain of math.acos. *)
Theorem C85_float_refuted sn cs ac at2 hy pw pi r15 : let tr := FTrig sn cs ac at2 hy pw pi r15 in let f := bofZ in
  @simple b64 FNum tr (mkBez [(f 0%Z, f 0%Z); (f 3%Z, f 3%Z); (f 6%Z, f 6%Z)] (f 0%Z) (f 1%Z)) = Err ValueError /\
  @reduce b64 FNum tr 102 (mkBez [(f 0%Z, f 0%Z); (f 1%Z, f 1%Z); (f 2%Z, f 2%Z)] (f 0%Z) (f 1%Z)) = Err ValueError.
Proof. split; vm_compute; reflexivity. Qed.
Print Assumptions C85_float_refuted.
Example C85_case : forall t d, is_deriv (curve [(0, 0); (3, 3); (6, 6)]) t d -> d = (6, 6).
Proof. exact diagonal_deriv. Qed.

(** ** C100 *)
(** Full claim: for a curve of any order at least 1, _derivative is the derivative and scale moves every control point.  Proved for orders 2 and 3 by C46 and C81.
    For higher orders _derivative evaluates the first three derivative points as a quadratic. *)
Theorem C100_derivative_used_partial (b : bezier R) (t : R) : (5 <= length (cps b))%nat -> let q := fun i => nth i (cps b) (0, 0) in
  derivative b t = Ok (vscale (INR (length (cps b) - 1)) (curve [vsub (q 1%nat) (q 0%nat); vsub (q 2%nat) (q 1%nat); vsub (q 3%nat) (q 2%nat)] t)).
Proof. exact (high_derivative b t). Qed.
Print Assumptions C100_derivative_used_partial.
(** So it is not the derivative of the curve: the curve (4t, t^4) has the derivative (4,4) at 1. *)
Theorem C100_derivative_refuted : exists (b : bezier R) t d, length (cps b) = 5%nat /\ is_deriv (curve (cps b)) t d /\ derivative b t <> Ok d.
Proof. exact quartic_wrong. Qed.
Print Assumptions C100_derivative_refuted.
(** On a line it raises. *)
Theorem C100_line_refuted (b : bezier R) (t : R) : length (cps b) = 2%nat -> derivative b t = Err IndexError.
Proof. exact (line_derivative b t). Qed.
Print Assumptions C100_line_refuted.
(** scale puts every control point from the fourth up to the last but one at the origin, whatever the curve. *)
Theorem C100_scale_collapses_refuted (b c : bezier R) (d : R) (f : R -> R) : (5 <= length (cps b))%nat -> (scaleNum b d = Ok c \/ scaleFn b f = Ok c) ->
  length (cps c) = length (cps b) /\ forall i, (3 <= i < length (cps b) - 1)%nat -> nth_error (cps c) i = Some (0, 0).
Proof. intros L [E|E]; [exact (scale_number_high round15 b c d L E)|exact (scale_function_high round15 b c f L E)]. Qed.
Print Assumptions C100_scale_collapses_refuted.
Example C100_case : exists c, scaleNum (mkBez [(0, 0); (0, 3); (7 / 4, 3); (3, 3); (4, 3)] 0 1) 5 = Ok c /\ cps c = [(-5, 0); (-4, 6); (-5 / 4, 7); (0, 0); (4, 8)].
Proof. exact (hook_scaled round15). Qed.
Example C100_curve_case t : curve [(0, 0); (1, 0); (2, 0); (3, 0); (4, 1)] t = (4 * t, t ^ 4).
Proof. exact (quartic_curve t). Qed.
