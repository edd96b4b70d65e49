(** Property C128: [Bezier.length] (Bezier.py 408-422) and the true length of the curve, the integral of
    its speed ([arc_length]). *)
From Coq Require Import List ZArith Bool Reals Lra Lia Psatz.
From Coquelicot Require Import Coquelicot.
From Verif Require Import Py Inst SpecGeom SpecBezier SpecCurve SpecArc MTransform MBezUtil MBezier MBezierObj ProofBezier ProofLength ProofArc3.
Import ListNotations.
Local Open Scope R_scope.
#[local] Existing Instance RPy.

(** ** C128 *)
(** If a polynomial of degree at most 47 in [2 t - 1] follows the speed within [e], the computed length is
    within about [2 e] of the true one. *)
Theorem C128_length_where_the_speed_is_nearly_polynomial (b : bezier R) (l : R) (q : list R) (e : R) :
  (length (cps b) = 3 \/ length (cps b) = 4)%nat -> quadrature b = Ok l -> (length q <= 48)%nat ->
  (forall t, 0 <= t <= 1 -> Rabs (true_speed (cps b) t - poly q (2 * t - 1)) <= e) ->
  Rabs (l - arc_length (cps b)) <= e * (2 + / IZR (10 ^ 36)) + / IZR (10 ^ 39) * coef_sum q.
Proof. exact (speed_poly b l q e). Qed.
Print Assumptions C128_length_where_the_speed_is_nearly_polynomial.
(** Curves whose speed stays between [m] and [M]. *)
Theorem C128_length_of_a_quadratic (b : bezier R) (l m M : R) : length (cps b) = 3%nat -> quadrature b = Ok l ->
  (forall t, 0 <= t <= 1 -> m <= true_speed (cps b) t <= M) -> 0 <= m -> 0 < M ->
  Rabs (l - arc_length (cps b)) <= M * (250 / 1000 * ((M ^ 2 - m ^ 2) / (M ^ 2 + m ^ 2)) ^ 24 + / IZR (10 ^ 19)).
Proof. exact (steady_quadratic b l m M). Qed.
Print Assumptions C128_length_of_a_quadratic.
Theorem C128_length_of_a_cubic (b : bezier R) (l m M : R) : length (cps b) = 4%nat -> quadrature b = Ok l ->
  (forall t, 0 <= t <= 1 -> m <= true_speed (cps b) t <= M) -> 0 <= m -> 0 < M ->
  Rabs (l - arc_length (cps b)) <= M * (400 / 1000 * ((M ^ 2 - m ^ 2) / (M ^ 2 + m ^ 2)) ^ 12 + / IZR (10 ^ 24)).
Proof. exact (steady_cubic b l m M). Qed.
Print Assumptions C128_length_of_a_cubic.
(** Every curve: no further from the true length than the control polygon exceeds the chord. *)
Theorem C128_length_of_any_curve (b : bezier R) (l : R) (p0 pn : pt) : (length (cps b) = 3 \/ length (cps b) = 4)%nat -> quadrature b = Ok l ->
  hd_error (cps b) = Some p0 -> last (cps b) (0, 0) = pn ->
  Rabs (l - arc_length (cps b)) <= polygon_length (cps b) - vdist p0 pn + polygon_length (cps b) * / IZR (10 ^ 36).
Proof. exact (length_arc_gap b l p0 pn). Qed.
Print Assumptions C128_length_of_any_curve.
Theorem C128_true_length_between_chord_and_polygon (p : list pt) (p0 pn : pt) : (length p = 3 \/ length p = 4)%nat ->
  hd_error p = Some p0 -> last p (0, 0) = pn -> vdist p0 pn <= arc_length p <= polygon_length p.
Proof. exact (arc_between p p0 pn). Qed.
Print Assumptions C128_true_length_between_chord_and_polygon.
(** Splitting divides the true length. *)
Theorem C128_halves_of_a_split (b : bezier R) (t : R) : (length (cps b) = 3 \/ length (cps b) = 4)%nat -> 0 <= t <= 1 ->
  exists l r h, split1 b t = Ok (l, r, h) /\ arc_length (cps l) = part_length (cps b) 0 t /\ arc_length (cps r) = part_length (cps b) t 1 /\
    arc_length (cps l) + arc_length (cps r) = arc_length (cps b).
Proof. exact (split_arcs b t). Qed.
Print Assumptions C128_halves_of_a_split.
Theorem C128_piece_of_a_split (b : bezier R) (t1 t2 : R) : (length (cps b) = 3 \/ length (cps b) = 4)%nat -> t2 <> 0 -> (t1 <> 1 \/ t2 = 1) -> t1 <= t2 ->
  exists c, split2 b t1 t2 = Ok (SCurve c) /\ arc_length (cps c) = part_length (cps b) t1 t2.
Proof. exact (split2_arc b t1 t2). Qed.
Print Assumptions C128_piece_of_a_split.

(** A parabola with speed between 2 and 3: nine digits. *)
Definition parabola : bezier R := mkBez [(0, 0); (1, 0); (2, 1)] 0 1.
Lemma parabola_speed t : true_speed (cps parabola) t = 2 * sqrt (1 + t ^ 2).
Proof.
  rewrite true_speed_norm by (left; reflexivity). unfold parabola, norm, speed_at, vdot, vadd, vscale, vsub. cbn [cps fst snd].
  replace (_ + _) with (2 ^ 2 * (1 + t ^ 2)) by ring. rewrite sqrt_mult_alt by nra. now rewrite sqrt_pow2 by lra.
Qed.
Example C128_case_parabola : (forall t, 0 <= t <= 1 -> 2 <= true_speed (cps parabola) t <= 3) /\
  exists l, quadrature parabola = Ok l /\ Rabs (l - arc_length (cps parabola)) <= / IZR (10 ^ 9).
Proof.
  assert (B : forall t, 0 <= t <= 1 -> 2 <= true_speed (cps parabola) t <= 3).
  { intros t T. rewrite parabola_speed. split.
    - assert (1 <= sqrt (1 + t ^ 2)); [|lra]. rewrite <- sqrt_1 at 1. apply sqrt_le_1_alt. nra.
    - assert (sqrt (1 + t ^ 2) <= 3 / 2); [|lra]. rewrite <- (sqrt_pow2 (3 / 2)) by lra. apply sqrt_le_1_alt. nra. }
  split; [exact B|]. destruct (length_nonneg round15 parabola (or_introl eq_refl)) as (l & E & _). exists l. split; [exact E|].
  eapply Rle_trans; [exact (C128_length_of_a_quadratic parabola l 2 3 eq_refl E B ltac:(lra) ltac:(lra))|].
  replace ((3 ^ 2 - 2 ^ 2) / (3 ^ 2 + 2 ^ 2)) with (5 / 13) by field.
  replace ((5 / 13) ^ 24) with (IZR (5 ^ 24) / IZR (13 ^ 24)) by (unfold Rdiv; rewrite Rpow_mult_distr, pow_inv by lra; change 24%nat with (Z.to_nat 24); rewrite <- !(pow_IZR _ 24); reflexivity).
  assert (/ IZR (10 ^ 19) <= / IZR (10 ^ 11)) by (apply Rinv_le_contravar; [apply IZR_lt; reflexivity | apply IZR_le; vm_compute; discriminate]).
  assert (IZR (5 ^ 24) / IZR (13 ^ 24) <= / IZR (2 * 10 ^ 9)).
  { assert (0 < IZR (13 ^ 24)) by (apply IZR_lt; reflexivity). assert (0 < IZR (2 * 10 ^ 9)) by (apply IZR_lt; reflexivity).
    apply Rmult_le_reg_r with (IZR (13 ^ 24)); [assumption|]. unfold Rdiv. rewrite Rmult_assoc, Rinv_l, Rmult_1_r by lra. apply Rmult_le_reg_l with (IZR (2 * 10 ^ 9)); [assumption|].
    rewrite <- Rmult_assoc, Rinv_r, Rmult_1_l by lra. rewrite <- mult_IZR. apply IZR_le. vm_compute. discriminate. }
  replace (/ IZR (10 ^ 9)) with (2 * / IZR (2 * 10 ^ 9)) by (rewrite mult_IZR; field; apply not_0_IZR; discriminate).
  assert (100 * / IZR (10 ^ 11) = 2 * / IZR (2 * 10 ^ 9)). { change (10 ^ 11)%Z with (50 * (2 * 10 ^ 9))%Z. rewrite (mult_IZR 50). field. apply not_0_IZR. discriminate. }
  assert (0 < / IZR (10 ^ 11)) by (apply Rinv_0_lt_compat, IZR_lt; reflexivity). lra.
Qed.
(** A straight curve whose speed doubles: exact up to the digits of the table. *)
Definition ramp : bezier R := mkBez [(0, 0); (1, 0); (3, 0)] 0 1.
Example C128_case_ramp : arc_length (cps ramp) = 3 /\
  exists l, quadrature ramp = Ok l /\ Rabs (l - 3) <= / IZR (10 ^ 39) * 4.
Proof.
  assert (L : (length (cps ramp) = 3 \/ length (cps ramp) = 4)%nat) by (left; reflexivity).
  assert (D : forall a, vdist (a, 0) (a + 1, 0) = 1 /\ vdist (a, 0) (a + 2, 0) = 2 /\ vdist (a, 0) (a + 3, 0) = 3).
  { intros a. unfold vdist, dist2. cbn [fst snd]. split; [|split].
    - replace ((a - (a + 1)) ^ 2 + (0 - 0) ^ 2) with (1 ^ 2) by ring. apply sqrt_pow2. lra.
    - replace ((a - (a + 2)) ^ 2 + (0 - 0) ^ 2) with (2 ^ 2) by ring. apply sqrt_pow2. lra.
    - replace ((a - (a + 3)) ^ 2 + (0 - 0) ^ 2) with (3 ^ 2) by ring. apply sqrt_pow2. lra. }
  assert (A : arc_length (cps ramp) = 3).
  { destruct (C128_true_length_between_chord_and_polygon (cps ramp) (0, 0) (3, 0) L eq_refl eq_refl) as (U & V). cbn [cps ramp polygon_length] in V.
    destruct (D 0) as (D1 & _ & D3). destruct (D 1) as (_ & D2 & _). replace (0 + 1) with 1 in D1 by ring. replace (0 + 3) with 3 in D3 by ring. replace (1 + 2) with 3 in D2 by ring.
    rewrite D3 in U. rewrite D1, D2 in V. cbn [cps ramp] in *. lra. }
  split; [exact A|]. destruct (length_nonneg round15 ramp L) as (l & E & _). exists l. split; [exact E|].
  pose proof (C128_length_where_the_speed_is_nearly_polynomial ramp l [3; 1] 0 L E ltac:(cbn; lia)) as G. rewrite A in G.
  replace (coef_sum [3; 1]) with 4 in G by (cbn [coef_sum]; rewrite !Rabs_pos_eq by lra; ring). eapply Rle_trans; [apply G|].
  - intros t T. rewrite true_speed_norm by exact L. unfold ramp, norm, speed_at, vdot, vadd, vscale, vsub. cbn [cps fst snd poly].
    match goal with |- Rabs (sqrt ?x - _) <= _ => replace x with ((2 + 2 * t) ^ 2) by ring end. rewrite sqrt_pow2 by lra. replace (_ - _) with 0 by ring. rewrite Rabs_R0. lra.
  - apply Req_le. ring.
Qed.
