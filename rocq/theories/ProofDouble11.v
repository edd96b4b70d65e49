(** Alignment in double precision. *)
From Coq Require Import List ZArith Bool Reals Lra Lia Psatz.
From Flocq Require Import Core BinarySingleNaN Relative.
From Verif Require Import Py Inst InstFloat SpecGeom SpecDouble SpecDouble3 MTransform MPathUtil MBezier
  ProofDouble ProofDouble2 ProofDouble3 ProofDouble8 ProofDouble9 ProofDouble10.
Import ListNotations.
Local Open Scope R_scope.
#[local] Existing Instance InstFloat.prec_gt_0.
#[local] Existing Instance InstFloat.prec_lt_emax.

(** ** Degrees *)
Definition rad_deg : b64 := @B754_finite prec emax false 8063664102031864 (-47) eq_refl.
Lemma rad_deg_eq : nquot (bofZ 180) math_pi = rad_deg.
Proof. apply B2SF_inj. vm_compute. reflexivity. Qed.
Lemma rad_deg_val : fin rad_deg /\ Rabs (val rad_deg * PI / 180 - 1) <= 6 / 10 * ulp1 /\ 57 <= val rad_deg <= 573 / 10.
Proof.
  split; [reflexivity|]. unfold rad_deg. rewrite val_lit. pose proof PI_close as P. rewrite ulp_num.
  assert (E : bpow radix2 (-47) = / 140737488355328) by reflexivity. rewrite E. split; [apply Rabs_le; lra | lra].
Qed.
Lemma ulp_tiny : tiny <= / 100 * ulp1.
Proof. pose proof tiny_60. rewrite ulp_num. lra. Qed.
Lemma degrees_err sn cs ac at2 hy pw r15 (x : b64) : fin x -> Rabs (val x) <= 33 / 10 -> let d := @degrees _ _ (FTrig sn cs ac at2 hy pw math_pi r15) x in
  fin d /\ Rabs (val d) <= 190 /\ Rabs (val d * PI / 180 - val x) <= 6 * ulp1.
Proof.
  intros F L d. unfold d, degrees. cbn [tpi FTrig]. change (nofZ 180) with (bofZ 180). rewrite rad_deg_eq.
  destruct rad_deg_val as (Fr & Er & Br). pose proof (fl_err (val x * val rad_deg)) as E.
  assert (P : Rabs (val x * val rad_deg) <= 33 / 10 * (573 / 10)) by (apply abs_prod; [exact L | apply Rabs_le; lra]).
  pose proof (fl_bound2 _ _ P) as Q. destruct (mult_fl x rad_deg F Fr) as [Fm Vm].
  { assert (1024 <= top). { unfold top. replace 1024 with (bpow radix2 10) by reflexivity. apply bpow_le. unfold emax. lia. } lra. }
  split; [exact Fm|]. rewrite Vm. split; [lra|].
  replace (fl (val x * val rad_deg) * PI / 180 - val x) with ((fl (val x * val rad_deg) - val x * val rad_deg) * (PI / 180) + val x * (val rad_deg * PI / 180 - 1)) by (field).
  eapply Rle_trans; [apply Rabs_triang|].
  pose proof ulp1_pos as U. pose proof ulp_tiny as T. pose proof PI_close as PC.
  pose proof (abs_prod (val x) (val rad_deg * PI / 180 - 1) _ _ L Er) as A.
  assert (E' : Rabs (fl (val x * val rad_deg) - val x * val rad_deg) <= ulp1 * (1891 / 10)).
  { apply Rle_trans with (1 := E). assert (ulp1 * Rabs (val x * val rad_deg) <= ulp1 * (33 / 10 * (573 / 10))) by (apply Rmult_le_compat_l; lra). lra. }
  assert (PB : Rabs (PI / 180) <= 1746 / 100000) by (apply Rabs_le; lra).
  pose proof (abs_prod _ _ _ _ E' PB) as B. lra.
Qed.

(** ** The direction of a vector of rounded differences *)
Lemma unit_err (x y e1 e2 : R) : 0 < x ^ 2 + y ^ 2 -> Rabs e1 <= ulp1 -> Rabs e2 <= ulp1 ->
  let x' := x * (1 + e1) in let y' := y * (1 + e2) in let h := sqrt (x ^ 2 + y ^ 2) in let h' := sqrt (x' ^ 2 + y' ^ 2) in
  0 < h /\ 0 < h' /\ Rabs (x' / h' - x / h) <= 3 * ulp1 /\ Rabs (y' / h' - y / h) <= 3 * ulp1 /\ Rabs (x / h) <= 1 /\ Rabs (y / h) <= 1.
Proof.
  intros P E1 E2 x' y' h h'. pose proof ulp1_pos as U. pose proof ulp1_small as Us. apply Rabs_le_inv in E1, E2.
  assert (Ph : 0 < h) by (apply sqrt_lt_R0; exact P).
  assert (Sh : h * h = x ^ 2 + y ^ 2) by (apply sqrt_sqrt; lra).
  assert (Q1 : (1 - ulp1) * (1 - ulp1) <= (1 + e1) * (1 + e1) <= (1 + ulp1) * (1 + ulp1)) by (split; apply Rmult_le_compat; lra).
  assert (Q2 : (1 - ulp1) * (1 - ulp1) <= (1 + e2) * (1 + e2) <= (1 + ulp1) * (1 + ulp1)) by (split; apply Rmult_le_compat; lra).
  assert (Px : 0 <= x ^ 2) by apply pow2_ge_0. assert (Py : 0 <= y ^ 2) by apply pow2_ge_0.
  assert (Lo : ((1 - ulp1) * h) * ((1 - ulp1) * h) <= x' ^ 2 + y' ^ 2).
  { replace (((1 - ulp1) * h) * ((1 - ulp1) * h)) with ((1 - ulp1) * (1 - ulp1) * (x ^ 2 + y ^ 2)) by (rewrite <- Sh; ring).
    replace (x' ^ 2 + y' ^ 2) with ((1 + e1) * (1 + e1) * x ^ 2 + (1 + e2) * (1 + e2) * y ^ 2) by (unfold x', y'; ring).
    rewrite Rmult_plus_distr_l. apply Rplus_le_compat; apply Rmult_le_compat_r; lra. }
  assert (Hi : x' ^ 2 + y' ^ 2 <= ((1 + ulp1) * h) * ((1 + ulp1) * h)).
  { replace (((1 + ulp1) * h) * ((1 + ulp1) * h)) with ((1 + ulp1) * (1 + ulp1) * (x ^ 2 + y ^ 2)) by (rewrite <- Sh; ring).
    replace (x' ^ 2 + y' ^ 2) with ((1 + e1) * (1 + e1) * x ^ 2 + (1 + e2) * (1 + e2) * y ^ 2) by (unfold x', y'; ring).
    rewrite (Rmult_plus_distr_l ((1 + ulp1) * (1 + ulp1))). apply Rplus_le_compat; apply Rmult_le_compat_r; lra. }
  assert (Bl : (1 - ulp1) * h <= h').
  { unfold h'. rewrite <- (sqrt_square ((1 - ulp1) * h)) by (apply Rmult_le_pos; lra). apply sqrt_le_1_alt. exact Lo. }
  assert (Bh : h' <= (1 + ulp1) * h).
  { unfold h'. rewrite <- (sqrt_square ((1 + ulp1) * h)) by (apply Rmult_le_pos; lra). apply sqrt_le_1_alt. exact Hi. }
  assert (Ph' : 0 < h') by (apply Rlt_le_trans with (2 := Bl); apply Rmult_lt_0_compat; lra).
  assert (unit : forall z, z ^ 2 <= h * h -> Rabs (z / h) <= 1).
  { intros z Z. assert (Rabs z <= h). { rewrite <- (Rabs_pos_eq h) by lra. apply Rsqr_le_abs_0. unfold Rsqr. lra. }
    unfold Rdiv. rewrite Rabs_mult, (Rabs_pos_eq (/ h)) by (left; apply Rinv_0_lt_compat; exact Ph).
    apply Rmult_le_reg_r with h; [exact Ph|]. rewrite Rmult_assoc, Rinv_l by lra. lra. }
  assert (G : forall z e, Rabs (z / h) <= 1 -> -ulp1 <= e <= ulp1 -> Rabs (z * (1 + e) / h' - z / h) <= 3 * ulp1).
  { intros z e Z E. replace (z * (1 + e) / h' - z / h) with (z / h * (((1 + e) * h - h') / h')) by (field; lra).
    assert (A : Rabs (((1 + e) * h - h') / h') <= 3 * ulp1).
    { unfold Rdiv. rewrite Rabs_mult, (Rabs_pos_eq (/ h')) by (left; apply Rinv_0_lt_compat; exact Ph').
      apply Rmult_le_reg_r with h'; [exact Ph'|]. rewrite Rmult_assoc, Rinv_l, Rmult_1_r by lra.
      apply Rle_trans with (2 * ulp1 * h).
      - apply Rabs_le. assert (e * h <= ulp1 * h) by (apply Rmult_le_compat_r; lra). assert (- ulp1 * h <= e * h) by (apply Rmult_le_compat_r; lra). lra.
      - apply Rle_trans with (3 * ulp1 * ((1 - ulp1) * h)); [|apply Rmult_le_compat_l; lra].
        assert (0 <= ulp1 * h) by (apply Rmult_le_pos; lra). assert (ulp1 * (ulp1 * h) <= / 1000000 * (ulp1 * h)) by (apply Rmult_le_compat_r; lra). lra. }
    pose proof (abs_prod _ _ _ _ Z A). lra. }
  assert (Ux : Rabs (x / h) <= 1) by (apply unit; lra). assert (Uy : Rabs (y / h) <= 1) by (apply unit; lra).
  repeat split; auto; apply G; auto; lra.
Qed.

(** ** Moving a point to the origin and turning *)
Lemma move_matrix (ct b c cx cy : b64) (M : R) : fin ct -> fin b -> fin c -> fin cx -> fin cy ->
  Rabs (val ct) <= 2 -> Rabs (val b) <= 2 -> Rabs (val c) <= 2 -> Rabs (val cx) <= M -> Rabs (val cy) <= M -> M <= 2 ^ 990 ->
  exists a' b' p' c' d' q' m' n' s',
    concatenateMatrices [_translateMatrix (cx, cy) (bofZ 0, bofZ 0); turned ct b c] =
      Ok [[a'; b'; p']; [c'; d'; q']; [m'; n'; s']] /\ Forall fin [a'; b'; p'; c'; d'; q'; m'; n'; s'] /\
    val a' = val ct /\ val b' = val b /\ val p' = 0 /\ val c' = val c /\ val d' = val ct /\ val q' = 0 /\
    val m' = fl (fl (- val cx * val ct) + fl (- val cy * val c)) /\
    val n' = fl (fl (- val cx * val b) + fl (- val cy * val ct)) /\ val s' = 1.
Proof.
  intros Fct Fb Fc Fcx Fcy Lct Lb Lc Lcx Lcy LM.
  destruct (zero_sub cx Fcx) as [Ft1 Vt1]. destruct (zero_sub cy Fcy) as [Ft2 Vt2].
  destruct (move_turn ct b c (nsub (bofZ 0) cx) (nsub (bofZ 0) cy) M) as (a1 & b1 & p1 & c1 & d1 & q1 & m1 & n1 & s1 & EP & FP & Va1 & Vb1 & Vp1 & Vc1 & Vd1 & Vq1 & Vm1 & Vn1 & Vs1); auto;
    try (rewrite ?Vt1, ?Vt2, Rabs_Ropp; lra).
  { apply Rle_trans with (1 := LM), Rle_pow; [lra | lia]. }
  exists a1, b1, p1, c1, d1, q1, m1, n1, s1. rewrite Vt1, Vt2 in Vm1, Vn1.
  split; [|split; [exact FP | repeat split; congruence]].
  unfold concatenateMatrices, _translateMatrix, turned. change (nofZ 0 : b64) with (bofZ 0). change (nofZ 1 : b64) with (bofZ 1). unfold _matrix. cbn [foldM]. rewrite EP. reflexivity.
Qed.

(** The moved point itself lands exactly on the origin: the two sums are the same sums with opposite signs. *)
Lemma cancel (x y a c : R) : fl (fl (fl (x * a) + fl (y * c)) + fl (1 * fl (fl (- x * a) + fl (- y * c)))) = 0.
Proof.
  rewrite !Ropp_mult_distr_l_reverse, !fl_opp. replace (- fl (x * a) + - fl (y * c)) with (- (fl (x * a) + fl (y * c))) by ring.
  rewrite fl_opp, Rmult_1_l, fl_opp, fl_fl, Rplus_opp_r. apply fl0.
Qed.

Section Align.
  Context (sn cs ac : b64 -> b64) (at2 hy pw : b64 -> b64 -> b64) (r15 : b64 -> b64) (e e2 : R).
  #[local] Instance tra : TrigOps b64 := FTrig sn cs ac at2 hy pw math_pi r15.
  Hypothesis Hs : within e sn sin.
  Hypothesis Hc : within e cs cos.
  Hypothesis Ha : angle_within e2 at2.
  Hypothesis Hr : rounds15 r15.
  Hypothesis Le : e + e2 <= / 16.

  Lemma e_pos : 0 <= e.
  Proof. destruct (Hs (bofZ 0)) as [_ K]; [apply lit01|]. pose proof (Rabs_pos (val (sn (bofZ 0)) - sin (val (bofZ 0)))). lra. Qed.

  Lemma sub_double (u v : b64) (M : R) : fin u -> fin v -> Rabs (val u) <= M -> Rabs (val v) <= M -> M <= 2 ^ 990 ->
    fin (nsub u v) /\ exists d, Rabs d <= ulp1 /\ val (nsub u v) = (val u - val v) * (1 + d).
  Proof.
    intros Fu Fv Lu Lv LM. destruct (fl_sub_rel u v) as (d & Ld & Ed).
    destruct (minus_fl u v Fu Fv) as [F V]; [|split; [exact F | exists d; rewrite V; auto]].
    assert (B : Rabs (val u - val v) <= 2 * M). { pose proof (Rabs_triang (val u) (- val v)) as T. rewrite Rabs_Ropp in T. unfold Rminus. lra. }
    apply fl_bound2 in B. assert (4 * 2 ^ 990 + 1 <= top).
    { unfold top. apply Rle_trans with (2 ^ 3 * 2 ^ 990); [assert (1 <= 2 ^ 990) by (apply pow_R1_Rle; lra); lra|]. rewrite <- pow_add, two_pow. apply bpow_le. unfold emax. cbn. lia. }
    assert (0 <= M) by (pose proof (Rabs_pos (val u)); lra). lra.
  Qed.

  Lemma vdist_h (s f : pt) : vdist s f = sqrt (fst (vsub f s) ^ 2 + snd (vsub f s) ^ 2).
  Proof. unfold vdist, dist2, vsub. cbn [fst snd]. f_equal. ring. Qed.

  Theorem align_matrix (seg : segment b64) (s f : point b64) (M : R) : endPoints seg = Ok (s, f) -> sized M s -> sized M f -> M <= 2 ^ 990 -> vpt s <> vpt f ->
    let E := e + e2 + 21 * ulp1 in
    exists ct b c, (let* a := rawSlopeAngle seg in let* s0 := idx seg 0 in moveAndRotate s0 (bofZ 0, bofZ 0) (nopp a)) =
      concatenateMatrices [_translateMatrix s (bofZ 0, bofZ 0); turned ct b c] /\ fin ct /\ fin b /\ fin c /\ val c = - val b /\
      let h := sqrt (fst (vsub (vpt f) (vpt s)) ^ 2 + snd (vsub (vpt f) (vpt s)) ^ 2) in
      0 < h /\ Rabs (val ct - fst (vsub (vpt f) (vpt s)) / h) <= E /\ Rabs (val c - snd (vsub (vpt f) (vpt s)) / h) <= E /\
      Rabs (fst (vsub (vpt f) (vpt s)) / h) <= 1 /\ Rabs (snd (vsub (vpt f) (vpt s)) / h) <= 1.
  Proof.
    intros EE (Fsx & Fsy & Lsx & Lsy) (Ffx & Ffy & Lfx & Lfy) LM N E.
    assert (I0 : idx seg 0 = Ok s). { unfold endPoints in EE. destruct (idx seg 0) as [p0|]; [|discriminate]. cbn [bind] in EE. destruct (idx_last seg); [|discriminate]. cbn [bind] in EE. congruence. }
    unfold rawSlopeAngle, getDeltas. rewrite EE, I0. cbn [bind].
    destruct s as [sx sy], f as [fx fy]. unfold vpt, vsub in *. cbn [fst snd] in *.
    destruct (sub_double fx sx M) as (Fdx & e1 & L1 & Vdx); auto. destruct (sub_double fy sy M) as (Fdy & e3 & L3 & Vdy); auto.
    set (x := val fx - val sx) in *. set (y := val fy - val sy) in *. pose proof ulp1_small as Us. pose proof ulp1_pos as U.
    assert (P : 0 < x ^ 2 + y ^ 2).
    { destruct (Req_dec x 0) as [X|X]; [destruct (Req_dec y 0) as [Y|Y]|].
      - exfalso. apply N. unfold x, y in X, Y. f_equal; lra.
      - pose proof (pow2_ge_0 x). pose proof (pow_lt (Rabs y) 2 (Rabs_pos_lt y Y)). rewrite pow2_abs in H0. lra.
      - pose proof (pow2_ge_0 y). pose proof (pow_lt (Rabs x) 2 (Rabs_pos_lt x X)). rewrite pow2_abs in H0. lra. }
    destruct (unit_err x y e1 e3 P L1 L3) as (Ph & Ph' & Ex & Ey & Ux & Uy). apply Rabs_le_inv in L1, L3.
    set (h := sqrt (x ^ 2 + y ^ 2)) in *. rewrite <- Vdx, <- Vdy in Ph', Ex, Ey.
    destruct (Ha (nsub fy sy) (nsub fx sx)) as (Ft & th & Bth & Eth & Cth & Sth); auto.
    { intros K. apply pair_equal_spec in K as [K1 K2]. rewrite K1, K2 in Ph'. replace (0 ^ 2 + 0 ^ 2) with 0 in Ph' by ring. rewrite sqrt_0 in Ph'. lra. }
    set (h' := sqrt (val (nsub fx sx) ^ 2 + val (nsub fy sy) ^ 2)) in *.
    assert (C1 : cos th = val (nsub fx sx) / h') by (rewrite Cth; field; lra). assert (S1 : sin th = val (nsub fy sy) / h') by (rewrite Sth; field; lra).
    cbn [tatan2 tra FTrig]. set (A := at2 (nsub fy sy) (nsub fx sx)) in *.
    pose proof e_pos as e0. pose proof PI_close as PC.
    assert (LA : Rabs (val A) <= 33 / 10). { pose proof (Rabs_triang (val A - th) th) as T. replace (val A - th + th) with (val A) in T by ring. assert (Rabs th <= PI) by (apply Rabs_le; lra). lra. }
    destruct (degrees_err sn cs ac at2 hy pw r15 A Ft LA) as (Fd & Ld & Ed). fold tra in Fd, Ld, Ed.
    set (d := degrees A) in *.
    assert (Fo : fin (nopp d)) by (unfold fin; cbn [nopp FNum]; rewrite is_finite_Bopp; exact Fd).
    assert (Vo : val (nopp d) = - val d) by apply B2R_Bopp.
    assert (LE : e + 6 * ulp1 + Rabs (val (nopp d)) * ulp1 / 32 <= e + 12 * ulp1).
    { rewrite Vo, Rabs_Ropp. assert (Rabs (val d) * ulp1 <= 190 * ulp1) by (apply Rmult_le_compat_r; lra). lra. }
    assert (p2 : 0 <= e2) by (pose proof (Rabs_pos (val A - th)); lra).
    destruct (rot_matrix sn cs ac at2 hy pw r15 e Hs Hc Hr (nopp d) true Fo) as (ct & b & c & ER & Fct & Fb & Fc & Vc & Ect & Eb).
    { lra. } { rewrite Vo, Rabs_Ropp. apply Rle_trans with (2 ^ 8); [lra | apply Rle_pow; [lra | lia]]. } { lra. }
    change (@_rotationMatrix _ _ tra (nopp d) true = turned ct b c) in ER. rewrite Vo in Ect, Eb.
    assert (K : Rabs (- val d * PI / 180 - - th) <= e2 + 6 * ulp1).
    { replace (- val d * PI / 180 - - th) with (- ((val d * PI / 180 - val A) + (val A - th))) by field. rewrite Rabs_Ropp. eapply Rle_trans; [apply Rabs_triang|]. lra. }
    exists ct, b, c. split.
    { unfold moveAndRotate, mkTransform. change (@_rotationMatrix _ _ tra (nopp (degrees A)) true) with (@_rotationMatrix _ _ tra (nopp d) true). rewrite ER. reflexivity. }
    repeat (split; [assumption|]). pose proof (cos_lip (- val d * PI / 180) (- th)) as Kc. pose proof (sin_lip (- val d * PI / 180) (- th)) as Ks.
    rewrite cos_neg, C1 in Kc. rewrite sin_neg, S1 in Ks. rewrite Vo in LE.
    split; [|split; [|split; assumption]].
    - pose proof (Rabs_triang (val ct - cos (- val d * PI / 180)) (cos (- val d * PI / 180) - val (nsub fx sx) / h')) as T1.
      pose proof (Rabs_triang (val ct - val (nsub fx sx) / h') (val (nsub fx sx) / h' - x / h)) as T2.
      replace (val ct - cos (- val d * PI / 180) + (cos (- val d * PI / 180) - val (nsub fx sx) / h')) with (val ct - val (nsub fx sx) / h') in T1 by ring.
      replace (val ct - val (nsub fx sx) / h' + (val (nsub fx sx) / h' - x / h)) with (val ct - x / h) in T2 by ring. unfold E. lra.
    - rewrite Vc.
      pose proof (Rabs_triang (val b - sin (- val d * PI / 180)) (sin (- val d * PI / 180) - - (val (nsub fy sy) / h'))) as T1.
      pose proof (Rabs_triang (- (val b - - (val (nsub fy sy) / h'))) (val (nsub fy sy) / h' - y / h)) as T2. rewrite Rabs_Ropp in T2.
      replace (val b - sin (- val d * PI / 180) + (sin (- val d * PI / 180) - - (val (nsub fy sy) / h'))) with (val b - - (val (nsub fy sy) / h')) in T1 by ring.
      replace (- (val b - - (val (nsub fy sy) / h')) + (val (nsub fy sy) / h' - y / h)) with (- val b - y / h) in T2 by ring. unfold E. lra.
  Qed.

  Theorem align_accuracy (pts seg : segment b64) (s f : point b64) (M : R) : endPoints seg = Ok (s, f) -> sized M s -> sized M f -> M <= 2 ^ 990 -> vpt s <> vpt f ->
    Forall (sized M) pts -> let E := e + e2 + 21 * ulp1 in
    exists l, alignPoints pts seg = Ok l /\
      Forall2 (fun p q => let v := vsub (vpt p) (vpt s) in
        off (E * (Rabs (fst v) + Rabs (snd v)) + 31 * ulp1 * M + 14 * tiny) q (along_and_across (vpt s) (vpt f) (vpt p)) /\ (vpt p = vpt s -> vpt q = (0, 0))) pts l.
  Proof.
    intros EE Ss Sf LM N Sp E. destruct (align_matrix seg s f M EE Ss Sf LM N) as (ct & b & c & EM & Fct & Fb & Fc & Vc & Ph & Ect & Ec & Ux & Uy). fold E in Ect, Ec.
    pose proof e_pos as e0. pose proof ulp1_pos as U. pose proof ulp1_small as Us. pose proof ulp_num as UN.
    assert (LE : E <= / 8) by (unfold E; rewrite UN in *; lra).
    set (h := sqrt _) in *. set (D := vsub (vpt f) (vpt s)) in *.
    assert (Lct : Rabs (val ct) <= 2). { pose proof (Rabs_triang (val ct - fst D / h) (fst D / h)) as T. replace (val ct - fst D / h + fst D / h) with (val ct) in T by ring. lra. }
    assert (Lc : Rabs (val c) <= 2). { pose proof (Rabs_triang (val c - snd D / h) (snd D / h)) as T. replace (val c - snd D / h + snd D / h) with (val c) in T by ring. lra. }
    assert (Vb : val b = - val c) by lra. assert (Lb : Rabs (val b) <= 2) by (rewrite Vb, Rabs_Ropp; exact Lc).
    assert (Eb : Rabs (val b - - (snd D / h)) <= E) by (rewrite Vb; replace (- val c - - (snd D / h)) with (- (val c - snd D / h)) by ring; now rewrite Rabs_Ropp).
    assert (Uy' : Rabs (- (snd D / h)) <= 1) by (rewrite Rabs_Ropp; exact Uy).
    destruct s as [sx sy]. destruct Ss as (Fsx & Fsy & Lsx & Lsy). cbn [fst snd] in *.
    destruct (move_matrix ct b c sx sy M) as (a2 & b2 & p2 & c2 & d2 & q2 & m2 & n2 & s2 & EP2 & FP2 & Va2 & Vb2 & Vp2 & Vc2 & Vd2 & Vq2 & Vm2 & Vn2 & Vs2); auto.
    rewrite EP2 in EM.
    assert (EA : alignPoints pts seg = applyToSegment [[a2; b2; p2]; [c2; d2; q2]; [m2; n2; s2]] pts).
    { unfold alignPoints. destruct (rawSlopeAngle seg) as [a|]; [|discriminate EM]. cbn [bind] in *. destruct (idx seg 0) as [s0|]; [|discriminate EM]. cbn [bind] in *. change (nofZ 0 : b64) with (bofZ 0). rewrite EM. reflexivity. }
    rewrite EA. clear EA EM EP2. unfold applyToSegment.
    assert (M0 : 0 <= M) by (pose proof (Rabs_pos (val sx)); lra).
    assert (LM2 : 10 * M + 10 <= 2 ^ 1000).
    { apply Rle_trans with (2 ^ 10 * 2 ^ 990); [assert (1 <= 2 ^ 990) by (apply pow_R1_Rle; lra); lra | rewrite <- pow_add; apply Rle_refl]. }
    assert (each : forall p, sized M p -> exists q, applyToPoint [[a2; b2; p2]; [c2; d2; q2]; [m2; n2; s2]] p = Ok q /\
      off (E * (Rabs (fst (vsub (vpt p) (vpt (sx, sy)))) + Rabs (snd (vsub (vpt p) (vpt (sx, sy))))) + 31 * ulp1 * M + 14 * tiny) q (along_and_across (vpt (sx, sy)) (vpt f) (vpt p)) /\
      (vpt p = vpt (sx, sy) -> vpt q = (0, 0))).
    { intros [x y] (Fx & Fy & Lx & Ly). cbn [fst snd] in *.
      assert (R0 : Rabs 0 <= M) by (rewrite Rabs_R0; exact M0).
      destruct (turn_error (val sx) (val sy) 0 (val x) (val y) (val ct) (val c) (fst D / h) (snd D / h) E M 0) as (_ & B1 & _); auto.
      destruct (turn_error (val sx) (val sy) 0 (val x) (val y) (val b) (val ct) (- (snd D / h)) (fst D / h) E M 0) as (_ & B2 & _); auto.
      rewrite Rplus_0_r, fl_fl, <- Vm2 in B1. rewrite Rplus_0_r, fl_fl, <- Vn2 in B2.
      destruct (affine_accuracy a2 b2 c2 d2 m2 n2 p2 q2 s2 x y) as (r & Er & Fr1 & Fr2 & E1 & E2).
      { repeat match goal with H : Forall _ (_ :: _) |- _ => inversion H; clear H; subst end. repeat apply Forall_cons; auto. }
      1-3: assumption.
      { rewrite Va2, Vc2. apply Rle_trans with (1 := B1). apply Rle_trans with (2 ^ 1000); [lra | apply Rle_pow; [lra | lia]]. }
      { rewrite Vb2, Vd2. apply Rle_trans with (1 := B2). apply Rle_trans with (2 ^ 1000); [lra | apply Rle_pow; [lra | lia]]. }
      exists r. split; [exact Er|]. split.
      - destruct (turn_error (val sx) (val sy) 0 (val x) (val y) (val ct) (val c) (fst D / h) (snd D / h) E M (val (fst r))) as (_ & _ & K1); auto.
        destruct (turn_error (val sx) (val sy) 0 (val x) (val y) (val b) (val ct) (- (snd D / h)) (fst D / h) E M (val (snd r))) as (_ & _ & K2); auto.
        rewrite Rplus_0_r, fl_fl, <- Vm2, Rplus_0_l in K1. rewrite Rplus_0_r, fl_fl, <- Vn2, Rplus_0_l in K2.
        rewrite Va2, Vc2 in E1. rewrite Vb2, Vd2 in E2. specialize (K1 E1). specialize (K2 E2).
        unfold off, along_and_across. rewrite vdist_h. fold D. fold h. unfold vpt, vsub, vdot, vcross in *. cbn [fst snd] in *. split; [exact Fr1|]. split; [exact Fr2|].
        split.
        + replace ((fst D * (val x - val sx) + snd D * (val y - val sy)) / h) with (fst D / h * (val x - val sx) + snd D / h * (val y - val sy)) by (field; lra). exact K1.
        + replace ((fst D * (val y - val sy) - snd D * (val x - val sx)) / h) with (- (snd D / h) * (val x - val sx) + fst D / h * (val y - val sy)) by (field; lra). exact K2.
      - intros V. unfold vpt in V. cbn [fst snd] in V. injection V as Vx Vy. rewrite apply_dot3 in Er.
        repeat match goal with H : Forall _ (_ :: _) |- _ => inversion H; clear H; subst end. destruct lit01 as (F0 & V0 & F1 & V1).
        destruct (affine_w x y p2 q2 s2) as [Fw Vw]; auto.
        assert (T0 : forall S, S <= 6 * M + 1 -> 2 * S <= top). { intros S LS. assert (2 * 2 ^ 1000 <= top). { unfold top. rewrite two_pow. change 2 with (bpow radix2 1) at 1. rewrite <- bpow_plus. apply bpow_le. unfold emax. lia. } lra. }
        destruct (dot3_fl x a2 y c2 (bofZ 1) m2) as [G1 W1]; auto; [rewrite V1, Rabs_R1, Rmult_1_l, Va2, Vc2; apply T0; exact B1|].
        destruct (dot3_fl x b2 y d2 (bofZ 1) n2) as [G2 W2]; auto; [rewrite V1, Rabs_R1, Rmult_1_l, Vb2, Vd2; apply T0; exact B2|].
        rewrite V1, Va2, Vc2, Vm2, Vx, Vy, cancel in W1. rewrite V1, Vb2, Vd2, Vn2, Vx, Vy, cancel in W2.
        destruct (ProofDouble2.div_one _ _ G1 Fw Vw) as (r1 & Er1 & _ & X1). destruct (ProofDouble2.div_one _ _ G2 Fw Vw) as (r2 & Er2 & _ & X2).
        rewrite Er1 in Er. cbn [bind] in Er. rewrite Er2 in Er. cbn [bind] in Er. apply Ok_inj in Er. subst r. unfold vpt. cbn [fst snd]. congruence. }
    clear - each Sp. induction Sp as [|p l Sp1 Sp2 IH]; [exists []; split; [reflexivity | constructor]|].
    destruct (each p Sp1) as (q & Eq & K). destruct IH as (l' & El & Fl). exists (q :: l'). split; [cbn [mapM]; rewrite Eq; cbn [bind]; rewrite El; reflexivity | constructor; [exact K | exact Fl]].
  Qed.

  (** ** The test for a straight line (Bezier._linear) *)
  Lemma abs_val (x : b64) : fin x -> fin (nabs x) /\ val (nabs x) = Rabs (val x).
  Proof. intros F. cbn [nabs FNum]. split; [unfold fin; now rewrite is_finite_Babs | apply B2R_Babs]. Qed.
  Lemma lit_10000 : fin (nlit 1 10000 : b64) /\ Rabs (val (nlit 1 10000 : b64) - / 10000) <= / 1000000000000.
  Proof.
    assert (E : (nlit 1 10000 : b64) = @B754_finite prec emax false 7378697629483821 (-66) eq_refl) by (apply B2SF_inj; vm_compute; reflexivity).
    rewrite E. split; [reflexivity|]. rewrite val_lit. assert (P : bpow radix2 (-66) = / 73786976294838206464) by reflexivity. rewrite P. apply Rabs_le. lra.
  Qed.
  Theorem linear_test (p : list (point b64)) (a z : point b64) (M : R) : endPoints p = Ok (a, z) -> Forall (sized M) p -> M <= 65536 -> e + e2 <= 8 * ulp1 -> vpt a <> vpt z ->
    exists r, isLinear p = Ok r /\
      ((forall q, In q p -> line_dist (vpt a) (vpt z) (vpt q) <= / 10000 - 2 * / 1000000000) -> r = true) /\
      ((exists q, In q p /\ line_dist (vpt a) (vpt z) (vpt q) >= / 10000 + 2 * / 1000000000) -> r = false).
  Proof.
    intros EE Sp LM L8 N.
    assert (I : idx p 0 = Ok a /\ idx_last p = Ok z).
    { unfold endPoints in EE. destruct (idx p 0) as [p0|]; [|discriminate]. cbn [bind] in EE. destruct (idx_last p); [|discriminate]. cbn [bind] in EE. apply Ok_inj, pair_equal_spec in EE as [-> ->]. auto. }
    destruct I as [I0 I1]. unfold isLinear. rewrite I0. cbn [bind]. rewrite I1. cbn [bind].
    assert (S0 : sized M a). { rewrite Forall_forall in Sp. apply Sp. destruct p as [|w p]; [discriminate|]. change (Ok w = Ok a) in I0. apply Ok_inj in I0. subst w. now left. }
    assert (S1 : sized M z). { rewrite Forall_forall in Sp. apply Sp. clear - I1. unfold idx_last in I1. destruct (last_error p) as [w|] eqn:R; [|discriminate]. apply Ok_inj in I1. subst w. revert R. induction p as [|u [|v p] IH]; intros R; [discriminate | left; change (Some u = Some z) in R; congruence | right; apply IH; exact R]. }
    destruct (align_accuracy p [a; z] a z M eq_refl S0 S1) as (l & El & Fl); auto.
    { apply Rle_trans with (2 ^ 16); [lra | apply Rle_pow; [lra | lia]]. }
    rewrite El. cbn [bind]. eexists. split; [reflexivity|].
    assert (H : forall q w, In (q, w) (combine p l) -> sized M q /\ fin (snd w) /\ Rabs (Rabs (val (snd w)) - line_dist (vpt a) (vpt z) (vpt q)) <= 15 / 10 * / 1000000000).
    { intros q w K. assert (Sq : sized M q) by (rewrite Forall_forall in Sp; apply Sp; exact (in_combine_l _ _ _ _ K)).
      assert (O : (let v := vsub (vpt q) (vpt a) in off ((e + e2 + 21 * ulp1) * (Rabs (fst v) + Rabs (snd v)) + 31 * ulp1 * M + 14 * tiny) w (along_and_across (vpt a) (vpt z) (vpt q)))).
      { clear - Fl K. induction Fl; [destruct K|]. destruct K as [K|K]; [apply pair_equal_spec in K as [-> ->]; apply H | now apply IHFl]. }
      destruct O as (_ & F2 & _ & E2). split; [exact Sq|]. split; [exact F2|].
      assert (B : (e + e2 + 21 * ulp1) * (Rabs (fst (vsub (vpt q) (vpt a))) + Rabs (snd (vsub (vpt q) (vpt a)))) + 31 * ulp1 * M + 14 * tiny <= 15 / 10 * / 1000000000).
      { destruct S0 as (_ & _ & A1 & A2), Sq as (_ & _ & Q1 & Q2).
        assert (V : Rabs (fst (vsub (vpt q) (vpt a))) + Rabs (snd (vsub (vpt q) (vpt a))) <= 4 * M).
        { unfold vsub, vpt. cbn [fst snd]. pose proof (Rabs_triang (val (fst q)) (- val (fst a))) as T1. pose proof (Rabs_triang (val (snd q)) (- val (snd a))) as T2. rewrite Rabs_Ropp in T1, T2. unfold Rminus. lra. }
        assert (M0 : 0 <= M) by (pose proof (Rabs_pos (val (fst a))); lra).
        pose proof (Rabs_pos (fst (vsub (vpt q) (vpt a)))). pose proof (Rabs_pos (snd (vsub (vpt q) (vpt a)))).
        pose proof ulp1_pos as U. pose proof ulp_tiny as T.
        assert ((e + e2 + 21 * ulp1) * (Rabs (fst (vsub (vpt q) (vpt a))) + Rabs (snd (vsub (vpt q) (vpt a)))) <= (29 * ulp1) * (4 * 65536)).
        { apply Rle_trans with (29 * ulp1 * (Rabs (fst (vsub (vpt q) (vpt a))) + Rabs (snd (vsub (vpt q) (vpt a))))); [apply Rmult_le_compat_r; lra | apply Rmult_le_compat_l; lra]. }
        assert (31 * ulp1 * M <= 31 * ulp1 * 65536) by (apply Rmult_le_compat_l; lra). rewrite ulp_num in *. lra. }
      unfold along_and_across in E2. cbn [snd] in E2. unfold line_dist.
      assert (Ph : 0 < vdist (vpt a) (vpt z)).
      { destruct (align_matrix [a; z] a z M eq_refl S0 S1) as (_ & _ & _ & _ & _ & _ & _ & _ & Ph & _); auto. { apply Rle_trans with (2 ^ 16); [lra | apply Rle_pow; [lra | lia]]. } rewrite vdist_h. exact Ph. }
      replace (Rabs (vcross (vsub (vpt z) (vpt a)) (vsub (vpt q) (vpt a))) / vdist (vpt a) (vpt z)) with (Rabs (vcross (vsub (vpt z) (vpt a)) (vsub (vpt q) (vpt a)) / vdist (vpt a) (vpt z))).
      2: { unfold Rdiv. rewrite Rabs_mult, (Rabs_pos_eq (/ vdist (vpt a) (vpt z))); [reflexivity | left; apply Rinv_0_lt_compat; exact Ph]. }
      eapply Rle_trans; [apply Rabs_triang_inv2|]. lra. }
    assert (LL : length p = length l) by (clear - Fl; induction Fl; cbn; congruence).
    destruct lit_10000 as [F4 V4]. apply Rabs_le_inv in V4. split.
    - intros A. assert (K : filter (fun x => nlit 1 10000 <? nabs (snd x))%num l = []).
      { assert (B : forall w, In w l -> (nlit 1 10000 <? nabs (snd w))%num = false).
        { intros w W. apply In_nth_error in W as [i W]. destruct (nth_error p i) as [q|] eqn:Q; [|apply nth_error_None in Q; assert (i < length l)%nat by (apply nth_error_Some; congruence); lia].
          assert (C : In (q, w) (combine p l)). { clear - Q W. revert p l Q W. induction i; intros [|u p] [|v l] Q W; try discriminate; cbn in *; [left; congruence | right; eauto]. }
          destruct (H q w C) as (_ & Fw & Ew). destruct (abs_val (snd w) Fw) as [Fa Va]. apply ltb_val_false; auto. rewrite Va.
          specialize (A q (in_combine_l _ _ _ _ C)). apply Rabs_le_inv in Ew. lra. }
        clear - B. induction l as [|w l IH]; [reflexivity|]. cbn [filter]. rewrite (B w) by now left. apply IH. intros; apply B; now right. }
      rewrite K. reflexivity.
    - intros (q & Q & D). apply In_nth_error in Q as [i Q]. destruct (nth_error l i) as [w|] eqn:W; [|apply nth_error_None in W; assert (i < length p)%nat by (apply nth_error_Some; congruence); lia].
      assert (C : In (q, w) (combine p l)). { clear - Q W. revert p l Q W. induction i; intros [|u p] [|v l] Q W; try discriminate; cbn in *; [left; congruence | right; eauto]. }
      destruct (H q w C) as (_ & Fw & Ew). destruct (abs_val (snd w) Fw) as [Fa Va]. apply Rabs_le_inv in Ew.
      assert (G : (nlit 1 10000 <? nabs (snd w))%num = true) by (apply ltb_val; auto; rewrite Va; lra).
      assert (IF : In w (filter (fun x => nlit 1 10000 <? nabs (snd x))%num l)) by (apply filter_In; split; [exact (in_combine_r _ _ _ _ C) | exact G]).
      destruct (filter _ l); [destruct IF | reflexivity].
  Qed.
End Align.
Theorem linear_double sn cs ac at2 hy pw r15 (e e2 : R) : within e sn sin -> within e cs cos -> angle_within e2 at2 -> rounds15 r15 -> e + e2 <= 8 * ulp1 ->
  forall (p : list (point b64)) (a z : point b64) (M : R), endPoints p = Ok (a, z) -> Forall (sized M) p -> M <= 65536 -> vpt a <> vpt z ->
  exists r, @isLinear _ _ (FTrig sn cs ac at2 hy pw math_pi r15) p = Ok r /\
    ((forall q, In q p -> line_dist (vpt a) (vpt z) (vpt q) <= / 10000 - 2 * / 1000000000) -> r = true) /\
    ((exists q, In q p /\ line_dist (vpt a) (vpt z) (vpt q) >= / 10000 + 2 * / 1000000000) -> r = false).
Proof.
  intros Hs Hc Ha Hr L p a z M EE Sp LM N. apply (linear_test sn cs ac at2 hy pw r15 e e2 Hs Hc Ha Hr) with (M := M); auto. rewrite ulp_num in L. lra.
Qed.
