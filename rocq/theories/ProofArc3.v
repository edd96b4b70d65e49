(** Proofs: [Bezier.length] and the true length. *)
From Coq Require Import List ZArith Bool Reals Lra Lia Psatz.
From Coquelicot Require Import Coquelicot.
From Verif Require Import Py Inst SpecGeom SpecBezier SpecCurve SpecArc MTransform MBezUtil MBezier MTables MBezierObj ProofBezier ProofBezier2 ProofCurve ProofLength ProofArc ProofArc2.
Import ListNotations.
Local Open Scope R_scope.
#[local] Existing Instance RPy.

Lemma Ok_inv {A} (x y : A) : Ok x = Ok y -> x = y.
Proof. congruence. Qed.

Definition cubic_or_less (p : list pt) : Prop := (length p = 3 \/ length p = 4)%nat.

(** ** The speed *)
Lemma curve_speed p t : cubic_or_less p -> is_deriv (curve p) t (speed_at p t).
Proof.
  intros L. destruct (derivative_ok (mkBez p 0 1) t L) as (d & E & D). rewrite (derivative_formula (mkBez p 0 1) t L) in E. apply Ok_inv in E. subst d. exact D.
Qed.
Lemma speed_unique p t d : cubic_or_less p -> is_deriv (curve p) t d -> speed_at p t = d.
Proof.
  intros L (X & Y). destruct (curve_speed p t L) as (X' & Y'). destruct (speed_at p t) as [a c], d as [a' c']. cbn [fst snd] in *.
  f_equal; eapply uniqueness_limite; eassumption.
Qed.
Lemma true_speed_norm p t : cubic_or_less p -> true_speed p t = norm (speed_at p t).
Proof.
  intros L. destruct (curve_speed p t L) as (X & Y). apply is_derive_Reals in X, Y. unfold true_speed, norm, vdot.
  rewrite (is_derive_unique _ _ _ X), (is_derive_unique _ _ _ Y). f_equal. ring.
Qed.
Lemma dot_continuous p w t : cubic_or_less p -> continuous (fun u => vdot (speed_at p u) w) t.
Proof.
  intros L. apply (@ex_derive_continuous R_AbsRing R_NormedModule).
  destruct p as [|p0 [|p1 [|p2 [|p3 [|p4 r]]]]]; try (destruct L as [L|L]; cbn [length] in L; lia); unfold speed_at, vdot, vadd, vscale, vsub; cbn [fst snd]; auto_derive; trivial.
Qed.
Lemma sq_continuous p t : cubic_or_less p -> continuous (fun u => vdot (speed_at p u) (speed_at p u)) t.
Proof.
  intros L. apply (@ex_derive_continuous R_AbsRing R_NormedModule).
  destruct p as [|p0 [|p1 [|p2 [|p3 [|p4 r]]]]]; try (destruct L as [L|L]; cbn [length] in L; lia); unfold speed_at, vdot, vadd, vscale, vsub; cbn [fst snd]; auto_derive; trivial.
Qed.
Lemma norm_continuous p t : cubic_or_less p -> continuous (fun u => norm (speed_at p u)) t.
Proof.
  intros L. unfold norm. apply (continuous_comp (fun u => vdot (speed_at p u) (speed_at p u)) sqrt); [now apply sq_continuous|].
  apply continuity_pt_filterlim, continuity_pt_sqrt, dot_pos.
Qed.
Lemma speed_int p a z : cubic_or_less p -> ex_RInt (fun u => norm (speed_at p u)) a z.
Proof. intros L. apply (@ex_RInt_continuous R_CompleteNormedModule). intros t _. now apply norm_continuous. Qed.
Lemma part_norm p a z : cubic_or_less p -> part_length p a z = RInt (fun u => norm (speed_at p u)) a z.
Proof. intros L. unfold part_length. apply RInt_ext. intros t _. now apply true_speed_norm. Qed.

(** ** Between the chord and the control polygon *)
Lemma travelled p w a z : cubic_or_less p -> is_RInt (fun u => vdot (speed_at p u) w) a z (vdot (curve p z) w - vdot (curve p a) w).
Proof.
  intros L. apply (is_RInt_derive (fun u => vdot (curve p u) w) (fun u => vdot (speed_at p u) w)).
  - intros t _. destruct (curve_speed p t L) as (X & Y). apply is_derive_Reals in X, Y. unfold vdot.
    apply (@is_derive_plus R_AbsRing R_NormedModule (fun u => fst (curve p u) * fst w) (fun u => snd (curve p u) * snd w));
      [exact (@is_derive_scal_l R_AbsRing R_NormedModule (fun u => fst (curve p u)) t _ (fst w) X) | exact (@is_derive_scal_l R_AbsRing R_NormedModule (fun u => snd (curve p u)) t _ (snd w) Y)].
  - intros t _. now apply dot_continuous.
Qed.
Lemma chord_le_part p a z : cubic_or_less p -> a <= z -> vdist (curve p a) (curve p z) <= part_length p a z.
Proof.
  intros L AZ. rewrite part_norm by exact L. rewrite <- norm_vdist. set (w := vsub (curve p z) (curve p a)).
  destruct (Req_dec (norm w) 0) as [Z|Z].
  - rewrite Z. apply RInt_ge_0; [exact AZ | now apply speed_int|]. intros t _. apply norm_pos.
  - assert (N : 0 < norm w) by (pose proof (norm_pos w); lra). apply Rmult_le_reg_r with (norm w); [exact N|].
    pose proof (travelled p w a z L) as T. pose proof (is_RInt_unique _ _ _ _ T) as U.
    assert (NW : @eq R (norm w * norm w) (RInt (fun u => vdot (speed_at p u) w) a z)) by (rewrite U, norm_sq; unfold w, vdot, vsub; cbn [fst snd]; ring).
    rewrite NW.
    assert (E : @eq R (RInt (fun u => norm (speed_at p u)) a z * norm w) (RInt (fun u => norm w * norm (speed_at p u)) a z)).
    { rewrite Rmult_comm. symmetry. exact (RInt_scal (fun u => norm (speed_at p u)) a z (norm w) (speed_int p a z L)). }
    rewrite E. apply RInt_le; [exact AZ | eexists; exact T | exact (@ex_RInt_scal R_NormedModule (fun u => norm (speed_at p u)) a z (norm w) (speed_int p a z L))|].
    intros t _. rewrite Rmult_comm. apply dot_le.
Qed.
Lemma arc_le_polygon p : cubic_or_less p -> arc_length p <= polygon_length p.
Proof.
  intros L. unfold arc_length. rewrite part_norm by exact L.
  destruct p as [|p0 [|p1 [|p2 [|p3 [|p4 r]]]]]; try (destruct L as [L|L]; cbn [length] in L; lia); cbn [polygon_length].
  - set (d0 := vdist p0 p1). set (d1 := vdist p1 p2).
    assert (I : is_RInt (fun t => 2 * d0 * (1 - t) + 2 * d1 * t) 0 1 (d0 + (d1 + 0))).
    { replace (d0 + (d1 + 0)) with (minus (d0 * (2 * 1 - 1 ^ 2) + d1 * 1 ^ 2) (d0 * (2 * 0 - 0 ^ 2) + d1 * 0 ^ 2)) by (unfold minus, plus, opp; cbn; ring).
      apply (is_RInt_derive (fun t => d0 * (2 * t - t ^ 2) + d1 * t ^ 2) (fun t => 2 * d0 * (1 - t) + 2 * d1 * t)).
      - intros t _. auto_derive; [trivial | ring].
      - intros t _. apply (@ex_derive_continuous R_AbsRing R_NormedModule). auto_derive. trivial. }
    rewrite <- (is_RInt_unique _ _ _ _ I). apply RInt_le; [lra | apply speed_int, L | eexists; exact I|].
    intros t T. eapply Rle_trans; [apply norm_add|]. rewrite !norm_scale, !norm_vdist. fold d0 d1. rewrite !Rabs_right by lra. lra.
  - set (d0 := vdist p0 p1). set (d1 := vdist p1 p2). set (d2 := vdist p2 p3).
    assert (I : is_RInt (fun t => 3 * d0 * ((1 - t) * (1 - t)) + 3 * d1 * ((1 - t) * t * 2) + 3 * d2 * (t * t)) 0 1 (d0 + (d1 + (d2 + 0)))).
    { replace (d0 + (d1 + (d2 + 0))) with (minus (d0 * (3 * 1 - 3 * 1 ^ 2 + 1 ^ 3) + d1 * (3 * 1 ^ 2 - 2 * 1 ^ 3) + d2 * 1 ^ 3) (d0 * (3 * 0 - 3 * 0 ^ 2 + 0 ^ 3) + d1 * (3 * 0 ^ 2 - 2 * 0 ^ 3) + d2 * 0 ^ 3)) by (unfold minus, plus, opp; cbn; ring).
      apply (is_RInt_derive (fun t => d0 * (3 * t - 3 * t ^ 2 + t ^ 3) + d1 * (3 * t ^ 2 - 2 * t ^ 3) + d2 * t ^ 3)
        (fun t => 3 * d0 * ((1 - t) * (1 - t)) + 3 * d1 * ((1 - t) * t * 2) + 3 * d2 * (t * t))).
      - intros t _. auto_derive; [trivial | ring].
      - intros t _. apply (@ex_derive_continuous R_AbsRing R_NormedModule). auto_derive. trivial. }
    rewrite <- (is_RInt_unique _ _ _ _ I). apply RInt_le; [lra | apply speed_int, L | eexists; exact I|].
    intros t T. eapply Rle_trans; [apply norm_add|]. eapply Rle_trans; [apply Rplus_le_compat_r, norm_add|].
    rewrite !norm_scale, !norm_vdist. fold d0 d1 d2. rewrite !Rabs_right by nra. lra.
Qed.

(** ** Parts *)
Lemma part_of p q a z : cubic_or_less p -> cubic_or_less q -> (forall s, curve q s = curve p (a + (z - a) * s)) -> a <= z -> arc_length q = part_length p a z.
Proof.
  intros P Q E AZ. unfold arc_length. rewrite !part_norm by assumption.
  assert (V : forall s, speed_at q s = vscale (z - a) (speed_at p ((z - a) * s + a))).
  { intros s. apply speed_unique; [exact Q|]. destruct (curve_speed p ((z - a) * s + a) P) as (X & Y). apply is_derive_Reals in X, Y.
    split; cbn [vscale fst snd]; apply is_derive_Reals.
    - apply is_derive_ext with (fun u => fst (curve p ((z - a) * u + a))); [intros u; rewrite E; f_equal; f_equal; ring|].
      apply (is_derive_comp (fun u => fst (curve p u)) (fun u => (z - a) * u + a)); [exact X | auto_derive; [trivial | ring]].
    - apply is_derive_ext with (fun u => snd (curve p ((z - a) * u + a))); [intros u; rewrite E; f_equal; f_equal; ring|].
      apply (is_derive_comp (fun u => snd (curve p u)) (fun u => (z - a) * u + a)); [exact Y | auto_derive; [trivial | ring]]. }
  transitivity (RInt (fun s => (z - a) * norm (speed_at p ((z - a) * s + a))) 0 1).
  { apply RInt_ext. intros s _. rewrite V, norm_scale, Rabs_pos_eq by lra. reflexivity. }
  pose proof (RInt_comp_lin (fun u => norm (speed_at p u)) (z - a) a 0 1) as C. etransitivity; [apply C; apply speed_int, P|]. f_equal; ring.
Qed.
Lemma part_chasles p a c z : cubic_or_less p -> part_length p a c + part_length p c z = part_length p a z.
Proof. intros P. rewrite !part_norm by exact P. exact (RInt_Chasles _ a c z (speed_int p a c P) (speed_int p c z P)). Qed.

(** ** The a priori bound *)
Lemma length_value (b : bezier R) l : cubic_or_less (cps b) -> quadrature b = Ok l -> l = gl (fun t => norm (speed_at (cps b) t)).
Proof. intros L E. assert (Q : quadrature b = Ok (gl (fun t => norm (speed_at (cps b) t)))) by exact (quadrature_gl round15 b L). rewrite Q in E. symmetry. now apply Ok_inv in E. Qed.
Theorem speed_poly (b : bezier R) l q e : cubic_or_less (cps b) -> quadrature b = Ok l -> (length q <= 48)%nat ->
  (forall t, 0 <= t <= 1 -> Rabs (true_speed (cps b) t - poly q (2 * t - 1)) <= e) ->
  Rabs (l - arc_length (cps b)) <= e * (2 + ProofLength.tiny) + deg47 * coef_sum q.
Proof.
  intros L E D K. rewrite (length_value b l L E). unfold arc_length. rewrite part_norm by exact L.
  apply near_polynomial; [apply speed_int, L | exact D|]. intros t T. rewrite <- true_speed_norm by exact L. now apply K.
Qed.

Definition abs_poly (K : nat) (Y : Z) : Z := zpoly (map Z.abs (root_poly K)) Y.
Lemma abs_ev l Y : poly (map Rabs (map IZR l)) (IZR Y) = IZR (zpoly (map Z.abs l) Y).
Proof. induction l as [|a l IH]; [reflexivity|]. cbn [map poly zpoly]. rewrite IH, plus_IZR, mult_IZR, abs_IZR. reflexivity. Qed.
Lemma root_len K : length (root_poly K) = S K.
Proof. unfold root_poly, tail_of. cbn [length]. rewrite map_length. f_equal. generalize 1%Z, (4 ^ Z.of_nat K / 2)%Z. induction K as [|K IH]; intros k u; [reflexivity|]. cbn [cofs length]. now rewrite IH. Qed.

Lemma steady (b : bezier R) l q m M K d Y : cubic_or_less (cps b) -> quadrature b = Ok l ->
  (1 <= K)%nat -> root_ok K = true -> length q = S d -> (K * d + 1 <= 48)%nat ->
  (forall t, vdot (speed_at (cps b) t) (speed_at (cps b) t) = poly q (2 * t - 1)) ->
  (forall t, 0 <= t <= 1 -> m <= true_speed (cps b) t <= M) -> 0 <= m -> 0 < M -> coef_sum q <= (IZR Y - 1) / 2 * M ^ 2 -> 
  let N := IZR (4 ^ Z.of_nat K) in
  Rabs (l - arc_length (cps b)) <= M * (zev (root_poly K) 1 / N * ((M ^ 2 - m ^ 2) / (M ^ 2 + m ^ 2)) ^ S K * (2 + ProofLength.tiny) + deg47 * (IZR (abs_poly K Y) / N)).
Proof.
  intros L E K1 OK Q D P B m0 M0 C N. set (rho := (M ^ 2 - m ^ 2) / (M ^ 2 + m ^ 2)).
  assert (N0 : 0 < N) by (apply IZR_lt, Z.pow_pos_nonneg; lia).
  assert (mM : m <= M) by (specialize (B 0 ltac:(lra)); lra).
  set (c := (M ^ 2 + m ^ 2) / 2). assert (c0 : 0 < c) by (unfold c; nra). assert (cM : c <= M ^ 2) by (unfold c; nra). assert (cm : M ^ 2 / 2 <= c) by (unfold c; nra).
  assert (R0 : 0 < sqrt c) by now apply sqrt_lt_R0.
  assert (RM : sqrt c <= M) by (rewrite <- (sqrt_pow2 M) by lra; now apply sqrt_le_1_alt).
  set (y := padd [1] (map (Rmult (- / c)) q)).
  assert (Yv : forall t, poly y (2 * t - 1) = 1 - vdot (speed_at (cps b) t) (speed_at (cps b) t) / c).
  { intros t. unfold y. rewrite poly_add, poly_scale, <- P. cbn [poly]. field. lra. }
  assert (T1 : 0 <= zev (root_poly K) 1 / N).
  { apply Rmult_le_pos; [|apply Rlt_le, Rinv_0_lt_compat; exact N0]. change 1 with (IZR 1). rewrite zev_int. apply IZR_le.
    unfold root_ok in OK. apply andb_true_iff in OK as (OK & _). apply andb_true_iff in OK as (_ & OK). apply Z.ltb_lt in OK. lia. }
  assert (H : forall t, 0 <= t <= 1 -> Rabs (poly y (2 * t - 1)) <= rho /\ true_speed (cps b) t = sqrt c * sqrt (1 - poly y (2 * t - 1))).
  { intros t T. pose proof (B t T) as Bt. rewrite true_speed_norm in * by exact L. pose proof (norm_sq (speed_at (cps b) t)) as S. rewrite !Yv, <- S. set (n := norm (speed_at (cps b) t)) in *. split.
    - assert (U : m ^ 2 <= n * n <= M ^ 2) by (split; nra). unfold rho. replace (M ^ 2 + m ^ 2) with (2 * c) by (unfold c; field).
      assert (V : (M ^ 2 - m ^ 2) / (2 * c) = (M ^ 2 - c) / c) by (unfold c; field; nra). rewrite V. replace (1 - n * n / c) with ((c - n * n) / c) by (field; lra).
      unfold Rdiv. rewrite Rabs_mult, (Rabs_pos_eq (/ c)) by (apply Rlt_le, Rinv_0_lt_compat; exact c0). apply Rmult_le_compat_r; [apply Rlt_le, Rinv_0_lt_compat; exact c0|].
      apply Rabs_le. split; [lra|]. assert (M ^ 2 - c = c - m ^ 2) by (unfold c; field). lra.
    - rewrite <- sqrt_mult_alt by lra. replace (c * (1 - (1 - n * n / c))) with (n * n) by (field; lra). symmetry. apply sqrt_square. unfold n. apply norm_pos. }
  assert (R1 : 0 <= rho <= 1).
  { split; [eapply Rle_trans; [apply Rabs_pos | apply (H 0); lra]|]. unfold rho. apply Rmult_le_reg_r with (M ^ 2 + m ^ 2); [nra|]. unfold Rdiv. rewrite Rmult_assoc, Rinv_l by nra. nra. }
  set (a := map (Rmult (sqrt c / N)) (pcomp (map IZR (root_poly K)) y)).
  assert (Ly : length y = S d). { unfold y. rewrite len_add, map_length, Q. cbn [length]. lia. }
  assert (La : (length a <= 48)%nat).
  { unfold a. rewrite map_length. pose proof (len_comp d (map IZR (root_poly K)) y Ly) as G. rewrite map_length, root_len in G. specialize (G ltac:(discriminate)). lia. }
  assert (Sa : coef_sum a <= M * (IZR (abs_poly K Y) / N)).
  { unfold a. rewrite sum_scale. rewrite Rabs_pos_eq by (apply Rmult_le_pos; [lra | apply Rlt_le, Rinv_0_lt_compat; exact N0]).
    assert (Sy : coef_sum y <= IZR Y).
    { unfold y. eapply Rle_trans; [apply sum_add|]. rewrite sum_scale. cbn [coef_sum]. rewrite Rabs_R1, Rabs_Ropp, Rabs_pos_eq by (apply Rlt_le, Rinv_0_lt_compat; exact c0).
      assert (G : / c * coef_sum q <= IZR Y - 1); [|lra]. apply Rmult_le_reg_l with c; [exact c0|]. rewrite <- Rmult_assoc, Rinv_r by lra.
      assert (0 <= IZR Y - 1). { pose proof (sum_pos q). assert (0 < M ^ 2) by nra. nra. } nra. }
    pose proof (sum_comp (map IZR (root_poly K)) y (IZR Y) Sy) as G. rewrite abs_ev in G. fold (abs_poly K Y) in G. pose proof (sum_pos (pcomp (map IZR (root_poly K)) y)) as G0.
    unfold Rdiv. rewrite Rmult_assoc. apply Rmult_le_compat; [lra | | exact RM | ].
    - apply Rmult_le_pos; [apply Rlt_le, Rinv_0_lt_compat; exact N0 | exact G0].
    - rewrite Rmult_comm. apply Rmult_le_compat_r; [apply Rlt_le, Rinv_0_lt_compat; exact N0 | exact G]. }
  assert (A : forall t, 0 <= t <= 1 -> Rabs (true_speed (cps b) t - poly a (2 * t - 1)) <= M * (zev (root_poly K) 1 / N * rho ^ S K)).
  { intros t T. destruct (H t T) as (Y1 & ->). unfold a. rewrite poly_scale, poly_comp. set (x := poly y (2 * t - 1)) in *.
    pose proof (root_near K x K1 OK ltac:(lra)) as G. cbv zeta in G. fold N in G. change (poly (map IZR (root_poly K)) x) with (zev (root_poly K) x).
    replace (sqrt c * sqrt (1 - x) - sqrt c / N * zev (root_poly K) x) with (sqrt c * (sqrt (1 - x) - zev (root_poly K) x / N)) by (field; lra).
    rewrite Rabs_mult, (Rabs_pos_eq (sqrt c)) by lra. apply Rmult_le_compat; [lra | apply Rabs_pos | exact RM|]. eapply Rle_trans; [exact G|].
    apply Rmult_le_compat_l; [exact T1|]. apply pow_incr. split; [apply Rabs_pos | exact Y1]. }
  eapply Rle_trans; [exact (speed_poly b l a _ L E La A)|].
  assert (deg47 * coef_sum a <= deg47 * (M * (IZR (abs_poly K Y) / N))). { apply Rmult_le_compat_l; [|exact Sa]. unfold deg47. apply Rlt_le, Rinv_0_lt_compat, IZR_lt. reflexivity. }
  lra.
Qed.

Lemma norm_half v w M : norm v <= M -> norm w <= M -> norm (vscale (1 / 2) (vadd v w)) <= M.
Proof. intros V W. rewrite norm_scale, Rabs_pos_eq by lra. pose proof (norm_add v w). lra. Qed.
Lemma norm_half' v w M : norm v <= M -> norm w <= M -> norm (vscale (1 / 2) (vsub v w)) <= M.
Proof.
  intros V W. replace (vsub v w) with (vadd v (vscale (-1) w)) by (unfold vadd, vsub, vscale; cbn [fst snd]; f_equal; ring). apply norm_half; [exact V|].
  rewrite norm_scale. replace (Rabs (-1)) with 1 by (rewrite Rabs_left; lra). lra.
Qed.
Lemma dot_size v w A B : norm v <= A -> norm w <= B -> Rabs (vdot v w) <= A * B.
Proof. intros V W. eapply Rle_trans; [apply dot_abs|]. pose proof (norm_pos v). pose proof (norm_pos w). apply Rmult_le_compat; assumption. Qed.

Lemma tiny_small : ProofLength.tiny <= 1 / 1000.
Proof. unfold ProofLength.tiny. apply Rmult_le_reg_l with (IZR (10 ^ 36)); [apply IZR_lt; reflexivity|]. rewrite Rinv_r by (apply not_0_IZR; discriminate). unfold Rdiv. rewrite Rmult_1_l.
  apply Rmult_le_reg_r with 1000; [lra|]. rewrite Rmult_assoc, Rinv_l by lra. rewrite <- !mult_IZR. apply IZR_le. vm_compute. discriminate. Qed.
Lemma finish M r n K Y T P : root_ok K = true -> 0 <= M -> 0 <= r -> n = S K ->
  (2001 * zpoly (root_poly K) 1 * 10 ^ 3 <= T * 1000 * 4 ^ Z.of_nat K)%Z ->
  (abs_poly K Y * 10 ^ P <= 4 ^ Z.of_nat K * 10 ^ 39)%Z -> (0 <= P)%Z ->
  M * (zev (root_poly K) 1 / IZR (4 ^ Z.of_nat K) * r ^ S K * (2 + ProofLength.tiny) + deg47 * (IZR (abs_poly K Y) / IZR (4 ^ Z.of_nat K)))
   <= M * (IZR T / 1000 * r ^ n + / IZR (10 ^ P)).
Proof.
  intros OK M0 r0 -> HT HP P0. apply Rmult_le_compat_l; [exact M0|]. 
  assert (N0 : 0 < IZR (4 ^ Z.of_nat K)) by (apply IZR_lt, Z.pow_pos_nonneg; lia). set (N := IZR (4 ^ Z.of_nat K)) in *.
  assert (T0 : 0 <= zev (root_poly K) 1). { change 1 with (IZR 1). rewrite zev_int. apply IZR_le.
    unfold root_ok in OK. apply andb_true_iff in OK as (OK & _). apply andb_true_iff in OK as (_ & OK). apply Z.ltb_lt in OK. lia. }
  apply Rplus_le_compat.
  - rewrite Rmult_assoc, (Rmult_comm (r ^ S K)), <- Rmult_assoc. apply Rmult_le_compat_r; [now apply pow_le|]. pose proof tiny_small as TS.
    apply Rle_trans with (zev (root_poly K) 1 / N * (2 + 1 / 1000)).
    + apply Rmult_le_compat_l; [apply Rmult_le_pos; [exact T0 | apply Rlt_le, Rinv_0_lt_compat; exact N0] | lra].
    + apply Rmult_le_reg_r with N; [exact N0|]. replace (zev (root_poly K) 1 / N * (2 + 1 / 1000) * N) with (zev (root_poly K) 1 * (2001 / 1000)) by (field; lra).
      change 1 with (IZR 1). rewrite zev_int. apply IZR_le in HT. rewrite !mult_IZR in HT. change (IZR (10 ^ 3)) with 1000 in HT. fold N in HT. lra.
  - unfold deg47. assert (0 < IZR (10 ^ 39)) by (apply IZR_lt; reflexivity). assert (0 < IZR (10 ^ P)) by (apply IZR_lt, Z.pow_pos_nonneg; lia).
    apply IZR_le in HP. rewrite !mult_IZR in HP. fold N in HP. set (G := IZR (10 ^ 39)) in *. set (H' := IZR (10 ^ P)) in *. set (A := IZR (abs_poly K Y)) in *. clearbody G H' A N.
    apply Rmult_le_reg_r with (N * G * H'); [repeat apply Rmult_lt_0_compat; assumption|]. replace (/ G * (A / N) * (N * G * H')) with (A * H') by (field; lra). replace (/ H' * (N * G * H')) with (N * G) by (field; lra). exact HP.
Qed.

Theorem steady_quadratic (b : bezier R) l m M : length (cps b) = 3%nat -> quadrature b = Ok l ->
  (forall t, 0 <= t <= 1 -> m <= true_speed (cps b) t <= M) -> 0 <= m -> 0 < M ->
  Rabs (l - arc_length (cps b)) <= M * (IZR 250 / 1000 * ((M ^ 2 - m ^ 2) / (M ^ 2 + m ^ 2)) ^ 24 + / IZR (10 ^ 19)).
Proof.
  intros L E B m0 M0. assert (L' : cubic_or_less (cps b)) by now left.
  assert (r0 : 0 <= (M ^ 2 - m ^ 2) / (M ^ 2 + m ^ 2)). { pose proof (B 0 ltac:(lra)). apply Rmult_le_pos; [nra | apply Rlt_le, Rinv_0_lt_compat; nra]. }
  assert (V0 : norm (speed_at (cps b) 0) <= M) by (rewrite <- true_speed_norm by exact L'; apply B; lra).
  assert (V1 : norm (speed_at (cps b) 1) <= M) by (rewrite <- true_speed_norm by exact L'; apply B; lra).
  set (v0 := speed_at (cps b) 0) in *. set (v1 := speed_at (cps b) 1) in *.
  set (e0 := vscale (1 / 2) (vadd v1 v0)). set (e1 := vscale (1 / 2) (vsub v1 v0)).
  assert (E0 : norm e0 <= M) by now apply norm_half. assert (E1 : norm e1 <= M) by now apply norm_half'.
  eapply Rle_trans; [apply (steady b l [vdot e0 e0; 2 * vdot e0 e1; vdot e1 e1] m M 23 2 9 L' E)|]; try assumption.
  - lia.
  - exact ok23.
  - reflexivity.
  - lia.
  - intros t. unfold e0, e1, v0, v1. destruct (cps b) as [|p0 [|p1 [|p2 [|p3 r]]]]; try (cbn [length] in L; lia). unfold speed_at, vdot, vadd, vsub, vscale. cbn [fst snd poly]. field.
  - cbn [coef_sum]. rewrite Rabs_mult, (Rabs_pos_eq 2) by lra. pose proof (dot_size _ _ _ _ E0 E0). pose proof (dot_size _ _ _ _ E0 E1). pose proof (dot_size _ _ _ _ E1 E1). lra.
  - apply (finish M _ 24 23 9 250 19); [exact ok23 | lra | exact r0 | reflexivity | vm_compute; discriminate | vm_compute; discriminate | lia].
Qed.
Theorem steady_cubic (b : bezier R) l m M : length (cps b) = 4%nat -> quadrature b = Ok l ->
  (forall t, 0 <= t <= 1 -> m <= true_speed (cps b) t <= M) -> 0 <= m -> 0 < M ->
  Rabs (l - arc_length (cps b)) <= M * (IZR 400 / 1000 * ((M ^ 2 - m ^ 2) / (M ^ 2 + m ^ 2)) ^ 12 + / IZR (10 ^ 24)).
Proof.
  intros L E B m0 M0. assert (L' : cubic_or_less (cps b)) by now right.
  assert (r0 : 0 <= (M ^ 2 - m ^ 2) / (M ^ 2 + m ^ 2)). { pose proof (B 0 ltac:(lra)). apply Rmult_le_pos; [nra | apply Rlt_le, Rinv_0_lt_compat; nra]. }
  assert (V0 : norm (speed_at (cps b) 0) <= M) by (rewrite <- true_speed_norm by exact L'; apply B; lra).
  assert (V1 : norm (speed_at (cps b) 1) <= M) by (rewrite <- true_speed_norm by exact L'; apply B; lra).
  assert (E0 : norm (speed_at (cps b) (1 / 2)) <= M) by (rewrite <- true_speed_norm by exact L'; apply B; lra).
  set (v0 := speed_at (cps b) 0) in *. set (v1 := speed_at (cps b) 1) in *. set (e0 := speed_at (cps b) (1 / 2)) in *.
  set (e1 := vscale (1 / 2) (vsub v1 v0)). set (e2 := vadd (vscale (1 / 2) (vadd v1 v0)) (vscale (-1) e0)).
  assert (E1 : norm e1 <= M) by now apply norm_half'.
  assert (E2 : norm e2 <= 2 * M).
  { unfold e2. eapply Rle_trans; [apply norm_add|]. pose proof (norm_half v1 v0 M V1 V0). rewrite (norm_scale (-1)). replace (Rabs (-1)) with 1 by (rewrite Rabs_left; lra). lra. }
  eapply Rle_trans; [apply (steady b l [vdot e0 e0; 2 * vdot e0 e1; 2 * vdot e0 e2 + vdot e1 e1; 2 * vdot e1 e2; vdot e2 e2] m M 11 4 33 L' E)|]; try assumption.
  - lia.
  - exact ok11.
  - reflexivity.
  - lia.
  - intros t. unfold e2, e1, e0, v0, v1. destruct (cps b) as [|p0 [|p1 [|p2 [|p3 [|p4 r]]]]]; try (cbn [length] in L; lia). unfold speed_at, vdot, vadd, vsub, vscale. cbn [fst snd poly]. field.
  - cbn [coef_sum]. pose proof (Rabs_triang (2 * vdot e0 e2) (vdot e1 e1)) as TR. rewrite !Rabs_mult, (Rabs_pos_eq 2) in * by lra.
    pose proof (dot_size _ _ _ _ E0 E0). pose proof (dot_size _ _ _ _ E0 E1). pose proof (dot_size _ _ _ _ E1 E1). pose proof (dot_size _ _ _ _ E0 E2). pose proof (dot_size _ _ _ _ E1 E2). pose proof (dot_size _ _ _ _ E2 E2). lra.
  - apply (finish M _ 12 11 33 400 24); [exact ok11 | lra | exact r0 | reflexivity | vm_compute; discriminate | vm_compute; discriminate | lia].
Qed.

Lemma get_same p q (f : R -> R) s : cubic_or_less (cps p) -> cubic_or_less (cps q) -> get q s = get p (f s) -> curve (cps q) s = curve (cps p) (f s).
Proof.
  intros P Q E. rewrite (get_ok q), (get_ok p) in E by (destruct P as [P|P], Q as [Q|Q]; lia). now apply Ok_inv in E.
Qed.
Lemma same_order (p q : bezier R) : cubic_or_less (cps p) -> order q = order p -> cubic_or_less (cps q).
Proof. unfold order, cubic_or_less. intros [P|P] E; rewrite P in E; [left|right]; lia. Qed.
Theorem split_arcs (b : bezier R) t : cubic_or_less (cps b) -> 0 <= t <= 1 ->
  exists l r h, split1 b t = Ok (l, r, h) /\ arc_length (cps l) = part_length (cps b) 0 t /\ arc_length (cps r) = part_length (cps b) t 1 /\
    arc_length (cps l) + arc_length (cps r) = arc_length (cps b).
Proof.
  intros L T. destruct (split_get b t L) as (l & r & E & Ol & Or & Gl & Gr & _). exists l, r, (hull b t). split; [exact E|].
  pose proof (same_order b l L Ol) as Ll. pose proof (same_order b r L Or) as Lr.
  assert (Al : arc_length (cps l) = part_length (cps b) 0 t). { apply part_of; [exact L | exact Ll | | lra]. intros s. apply (get_same b l (fun s => 0 + (t - 0) * s) s L Ll). cbv beta. rewrite Gl. f_equal. ring. }
  assert (Ar : arc_length (cps r) = part_length (cps b) t 1). { apply part_of; [exact L | exact Lr | | lra]. intros s. apply (get_same b r (fun s => t + (1 - t) * s) s L Lr). apply Gr. }
  split; [exact Al|]. split; [exact Ar|]. rewrite Al, Ar. apply part_chasles, L.
Qed.
Theorem split2_arc (b : bezier R) t1 t2 : cubic_or_less (cps b) -> t2 <> 0 -> (t1 <> 1 \/ t2 = 1) -> t1 <= t2 ->
  exists c, split2 b t1 t2 = Ok (SCurve c) /\ arc_length (cps c) = part_length (cps b) t1 t2.
Proof.
  intros L T0 T1 T. destruct (split2_get b t1 t2 L T0 T1) as (c & E & O & G). exists c. split; [exact E|]. pose proof (same_order b c L O) as Lc.
  apply part_of; [exact L | exact Lc | | exact T]. intros s. apply (get_same b c (fun s => t1 + (t2 - t1) * s) s L Lc). cbv beta. rewrite G. f_equal. ring.
Qed.
Theorem arc_between p p0 pn : cubic_or_less p -> hd_error p = Some p0 -> last p (0, 0) = pn ->
  vdist p0 pn <= arc_length p <= polygon_length p.
Proof.
  intros L H Z. split; [|now apply arc_le_polygon]. pose proof (chord_le_part p 0 1 L ltac:(lra)) as C. unfold arc_length.
  replace p0 with (curve p 0); [replace pn with (curve p 1); [exact C|]|]; destruct p as [|q0 [|q1 [|q2 [|q3 [|q4 r]]]]]; try (destruct L as [L|L]; cbn [length] in L; lia);
    cbn [hd_error last] in *; rewrite ?curve3, ?curve4.
  all: try (injection H as <-). all: try subst pn. all: destruct q0, q1, q2; try destruct q3; cbn [fst snd]; f_equal; ring.
Qed.
Theorem length_arc_gap (b : bezier R) l p0 pn : cubic_or_less (cps b) -> quadrature b = Ok l -> hd_error (cps b) = Some p0 -> last (cps b) (0, 0) = pn ->
  Rabs (l - arc_length (cps b)) <= polygon_length (cps b) - vdist p0 pn + polygon_length (cps b) * / IZR (10 ^ 36).
Proof.
  intros L E H Z. destruct (arc_between (cps b) p0 pn L H Z) as (A & B).
  pose proof (length_polygon round15 b l L E) as U. pose proof (length_chord round15 b l p0 pn L E H Z) as V.
  unfold ProofLength.tiny in U, V. set (k := / IZR (10 ^ 36)) in *. clearbody k. apply Rabs_le. split; lra.
Qed.
