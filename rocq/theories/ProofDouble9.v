(** Rotations in double precision. *)
From Coq Require Import List ZArith Bool Reals Lra Lia Psatz Machin.
From Flocq Require Import Core BinarySingleNaN Relative.
From Verif Require Import Py Inst InstFloat SpecGeom SpecDouble SpecDouble3 MTransform MPathUtil
  ProofDouble ProofDouble2.
Import ListNotations.
Local Open Scope R_scope.
#[local] Existing Instance InstFloat.prec_gt_0.
#[local] Existing Instance InstFloat.prec_lt_emax.

(** ** pi *)
Lemma PI_close : 314159265358979323 / 100000000000000000 < PI < 314159265358979324 / 100000000000000000.
Proof.
  pose proof (PI_2_3_7_ineq 9) as [A B].
  cbn [sum_f_R0 Nat.mul Nat.add] in A, B. unfold tg_alt, PI_2_3_7_tg, Ratan_seq in A, B. cbn [Nat.mul Nat.add] in A, B.
  rewrite !INR_IZR_INZ in A, B. cbn in A, B. split; lra.
Qed.
Lemma val_lit (s : bool) (m : positive) (e : Z) H : val (@B754_finite prec emax s m e H) = (if s then - IZR (Zpos m) else IZR (Zpos m)) * bpow radix2 e.
Proof. unfold val, B2R, F2R. cbn [Fnum Fexp]. destruct s; reflexivity. Qed.
Definition deg_rad : b64 := @B754_finite prec emax false 5030569068109113 (-58) eq_refl.
Lemma deg_rad_eq : nquot math_pi (bofZ 180) = deg_rad.
Proof. apply B2SF_inj. vm_compute. reflexivity. Qed.
Lemma deg_rad_val : fin deg_rad /\ Rabs (val deg_rad - PI / 180) <= / 100 * ulp1 /\ 0 < val deg_rad <= 1746 / 100000.
Proof.
  split; [reflexivity|]. unfold deg_rad. rewrite val_lit. pose proof PI_close as P.
  assert (E : bpow radix2 (-58) = / 288230376151711744) by reflexivity. rewrite E.
  assert (U : ulp1 = / 9007199254740992) by (rewrite ulp1_bpow; reflexivity). rewrite U.
  split; [apply Rabs_le|]; lra.
Qed.

(** ** Every real has a nearest double *)
Lemma fl_double (r : R) : Rabs (fl r) < top -> exists x : b64, fin x /\ val x = fl r.
Proof.
  intros L. set (g := fl r) in *.
  assert (G : generic_format radix2 (SpecFloat.fexp prec emax) g) by (apply generic_format_round; [apply fexp_correct; reflexivity | apply valid_rnd_round_mode]).
  exists (binary_normalize prec emax InstFloat.prec_gt_0 InstFloat.prec_lt_emax mode_NE (Ztrunc (scaled_mantissa radix2 (SpecFloat.fexp prec emax) g)) (cexp radix2 (SpecFloat.fexp prec emax) g) false).
  pose proof (binary_normalize_correct prec emax InstFloat.prec_gt_0 InstFloat.prec_lt_emax mode_NE (Ztrunc (scaled_mantissa radix2 (SpecFloat.fexp prec emax) g)) (cexp radix2 (SpecFloat.fexp prec emax) g) false) as C.
  cbv zeta in C.
  assert (E : F2R (Float radix2 (Ztrunc (scaled_mantissa radix2 (SpecFloat.fexp prec emax) g)) (cexp radix2 (SpecFloat.fexp prec emax) g)) = g) by (symmetry; exact G).
  rewrite E in C. assert (E2 : round radix2 (SpecFloat.fexp prec emax) (round_mode mode_NE) g = g) by (apply round_generic; [apply valid_rnd_round_mode | exact G]).
  rewrite E2 in C. rewrite Rlt_bool_true in C by exact L. destruct C as (C1 & C2 & _). split; [exact C2 | exact C1].
Qed.
Lemma nearest_err (r : R) (x : b64) : nearest_double r x -> Rabs r <= 16 -> fin x /\ Rabs (val x - r) <= ulp1 * Rabs r + tiny.
Proof.
  intros [F N] L. split; [exact F|]. pose proof (fl_err r) as E.
  destruct (fl_double r) as (y & Fy & Vy).
  { pose proof (Rabs_triang (fl r - r) r) as T. replace (fl r - r + r) with (fl r) in T by ring.
    pose proof ulp1_small. pose proof tiny_small. pose proof ulp1_pos.
    assert (ulp1 * Rabs r <= / 1000000 * 16) by (pose proof (Rabs_pos r); apply Rmult_le_compat; lra).
    assert (64 <= top). { unfold top. replace 64 with (bpow radix2 6) by reflexivity. apply bpow_le. unfold emax. lia. } lra. }
  specialize (N y Fy). rewrite Vy in N. lra.
Qed.
Lemma nearest_exact (r : R) (x y : b64) : nearest_double r x -> fin y -> val y = r -> val x = r.
Proof. intros [F N] Fy V. specialize (N y Fy). rewrite V, Rminus_eq_0, Rabs_R0 in N. pose proof (Rabs_pos (val x - r)). assert (A : Rabs (val x - r) = 0) by lra. destruct (Req_dec (val x - r) 0) as [|K]; [lra | apply Rabs_no_R0 in K; contradiction]. Qed.

(** ** Sine and cosine do not stretch *)
Lemma sin_le (x : R) : Rabs (sin x) <= Rabs x.
Proof.
  assert (P : forall x, 0 <= x -> Rabs (sin x) <= x).
  { intros y Y. destruct (Rle_lt_dec y 1) as [L|L].
    - destruct (Req_dec y 0) as [->|N]; [rewrite sin_0, Rabs_R0; lra|].
      assert (0 < sin y) by (apply sin_gt_0; pose proof PI_close; lra). pose proof (sin_lt_x y ltac:(lra)). rewrite Rabs_pos_eq; lra.
    - apply Rle_trans with 1; [|lra]. apply Rabs_le. pose proof (SIN_bound y). lra. }
  destruct (Rle_lt_dec 0 x) as [K|K]; [rewrite (Rabs_pos_eq x) by auto; auto|].
  rewrite (Rabs_left x) by auto. rewrite <- Rabs_Ropp, <- sin_neg. apply P. lra.
Qed.
Lemma half_sin (a b : R) : Rabs (2 * sin ((a - b) / 2)) <= Rabs (a - b).
Proof.
  rewrite Rabs_mult, (Rabs_pos_eq 2) by lra. pose proof (sin_le ((a - b) / 2)) as S. unfold Rdiv in *. rewrite (Rabs_mult (a - b)) in S.
  rewrite (Rabs_pos_eq (/ 2)) in S by lra. lra.
Qed.
Lemma sin_lip (a b : R) : Rabs (sin a - sin b) <= Rabs (a - b).
Proof.
  rewrite form4. rewrite (Rmult_comm (2 * cos _)), <- Rmult_assoc, (Rmult_comm (sin _) 2).
  rewrite Rabs_mult. pose proof (half_sin a b). assert (Rabs (cos ((a + b) / 2)) <= 1) by (apply Rabs_le; pose proof (COS_bound ((a + b) / 2)); lra).
  rewrite <- (Rmult_1_r (Rabs (a - b))). apply Rmult_le_compat; auto using Rabs_pos.
Qed.
Lemma cos_lip (a b : R) : Rabs (cos a - cos b) <= Rabs (a - b).
Proof.
  rewrite form2. replace (-2 * sin ((a - b) / 2) * sin ((a + b) / 2)) with (- (2 * sin ((a - b) / 2) * sin ((a + b) / 2))) by ring.
  rewrite Rabs_Ropp, Rabs_mult. pose proof (half_sin a b). assert (Rabs (sin ((a + b) / 2)) <= 1) by (apply Rabs_le; pose proof (SIN_bound ((a + b) / 2)); lra).
  rewrite <- (Rmult_1_r (Rabs (a - b))). apply Rmult_le_compat; auto using Rabs_pos.
Qed.

Lemma ulp_num : ulp1 = / 9007199254740992. Proof. rewrite ulp1_bpow. reflexivity. Qed.
Lemma pow15 : 10 ^ 15 = 1000000000000000. Proof. lra. Qed.

(** Rounding to 15 places. *)
Lemma round15_err r15 (x : b64) : rounds15 r15 -> fin x -> Rabs (val x) <= 9 / 8 -> fin (r15 x) /\ Rabs (val (r15 x) - val x) <= 6 * ulp1 - / 8 * ulp1.
Proof.
  intros R15 F L. destruct (R15 x F) as (k & K & N). rewrite pow15 in *. set (q := IZR k / 1000000000000000) in *.
  assert (A : Rabs (q - val x) <= / 2000000000000000).
  { unfold q. replace (IZR k / 1000000000000000 - val x) with (- (val x * 1000000000000000 - IZR k) * / 1000000000000000) by field.
    rewrite Rabs_mult, Rabs_Ropp, (Rabs_pos_eq (/ _)) by lra. lra. }
  assert (Q : Rabs q <= 10 / 8). { pose proof (Rabs_triang (q - val x) (val x)) as T. replace (q - val x + val x) with q in T by ring. lra. }
  destruct (nearest_err q _ N) as [Fr Er]; [lra|]. split; [exact Fr|].
  pose proof (Rabs_triang (val (r15 x) - q) (q - val x)) as T. replace (val (r15 x) - q + (q - val x)) with (val (r15 x) - val x) in T by ring.
  pose proof tiny_small as Ts. pose proof ulp1_pos.
  assert (ulp1 * Rabs q <= ulp1 * (10 / 8)) by (apply Rmult_le_compat_l; lra).
  assert (U := ulp_num). lra.
Qed.

(** Radians. *)
Lemma radians_err sn cs ac at2 hy pw r15 (d : b64) : fin d -> Rabs (val d) <= 2 ^ 1000 ->
  fin (@radians _ _ (FTrig sn cs ac at2 hy pw math_pi r15) d) /\
  Rabs (val (@radians _ _ (FTrig sn cs ac at2 hy pw math_pi r15) d) - val d * PI / 180) <= Rabs (val d) * ulp1 / 32 + tiny.
Proof.
  intros F L. unfold radians. cbn [tpi FTrig]. change (nofZ 180) with (bofZ 180). rewrite deg_rad_eq.
  destruct deg_rad_val as (Fr & Er & Br). pose proof (fl_err (val d * val deg_rad)) as E.
  assert (P : Rabs (val d * val deg_rad) <= Rabs (val d) * (1746 / 100000)).
  { rewrite Rabs_mult, (Rabs_pos_eq (val deg_rad)) by lra. apply Rmult_le_compat_l; [apply Rabs_pos | lra]. }
  pose proof ulp1_pos as U. pose proof ulp1_small as Us. pose proof tiny_small as Ts. pose proof (Rabs_pos (val d)) as Pd.
  assert (E1 : ulp1 * Rabs (val d * val deg_rad) <= ulp1 * (Rabs (val d) * (1746 / 100000))) by (apply Rmult_le_compat_l; lra).
  destruct (mult_fl d deg_rad F Fr) as [Fm Vm].
  { pose proof (Rabs_triang (fl (val d * val deg_rad) - val d * val deg_rad) (val d * val deg_rad)) as T.
    replace (fl (val d * val deg_rad) - val d * val deg_rad + val d * val deg_rad) with (fl (val d * val deg_rad)) in T by ring.
    assert (ulp1 * (Rabs (val d) * (1746 / 100000)) <= / 1000000 * (Rabs (val d) * (1746 / 100000))) by (apply Rmult_le_compat_r; lra).
    assert (B : 2 * 2 ^ 1000 <= top). { unfold top. rewrite two_pow. change 2 with (bpow radix2 1) at 1. rewrite <- bpow_plus. apply bpow_le. unfold emax. lia. }
    assert (1 <= 2 ^ 1000) by (apply pow_R1_Rle; lra). lra. }
  split; [exact Fm|]. rewrite Vm.
  assert (E2 : Rabs (val d * val deg_rad - val d * PI / 180) <= Rabs (val d) * (/ 100 * ulp1)).
  { replace (val d * val deg_rad - val d * PI / 180) with (val d * (val deg_rad - PI / 180)) by (unfold Rdiv; ring).
    rewrite Rabs_mult. apply Rmult_le_compat_l; lra. }
  pose proof (Rabs_triang (fl (val d * val deg_rad) - val d * val deg_rad) (val d * val deg_rad - val d * PI / 180)) as T.
  replace (fl (val d * val deg_rad) - val d * val deg_rad + (val d * val deg_rad - val d * PI / 180)) with (fl (val d * val deg_rad) - val d * PI / 180) in T by ring.
  assert (0 <= Rabs (val d) * ulp1) by (apply Rmult_le_pos; lra). lra.
Qed.

(** Sine and cosine of degrees. *)
Lemma trig_err r15 (f : b64 -> b64) (g : R -> R) (e th th' : R) (x : b64) : rounds15 r15 -> within e f g ->
  (forall a b, Rabs (g a - g b) <= Rabs (a - b)) -> (forall a, Rabs (g a) <= 1) -> e <= / 8 -> fin x -> val x = th' ->
  fin (r15 (f x)) /\ Rabs (val (r15 (f x)) - g th) <= e + (6 * ulp1 - / 8 * ulp1) + Rabs (th' - th).
Proof.
  intros R15 W Lip B1 Le F V. destruct (W x F) as [Ff Ef]. rewrite V in Ef.
  destruct (round15_err r15 (f x) R15 Ff) as [Fr Er].
  { pose proof (Rabs_triang (val (f x) - g th') (g th')) as T. replace (val (f x) - g th' + g th') with (val (f x)) in T by ring.
    specialize (B1 th'). lra. }
  split; [exact Fr|]. specialize (Lip th' th).
  pose proof (Rabs_triang (val (r15 (f x)) - val (f x)) (val (f x) - g th)) as T1.
  pose proof (Rabs_triang (val (f x) - g th') (g th' - g th)) as T2.
  replace (val (r15 (f x)) - val (f x) + (val (f x) - g th)) with (val (r15 (f x)) - g th) in T1 by ring.
  replace (val (f x) - g th' + (g th' - g th)) with (val (f x) - g th) in T2 by ring. lra.
Qed.

(** ** Matrices *)
Lemma fl0 : fl 0 = 0. Proof. apply round_0; apply valid_rnd_round_mode. Qed.
Lemma fl_fl (x : R) : fl (fl x) = fl x.
Proof. apply round_generic; [apply valid_rnd_round_mode | apply generic_format_round; [apply fexp_correct; reflexivity | apply valid_rnd_round_mode]]. Qed.
Lemma fl_opp (x : R) : fl (- x) = - fl x.
Proof. unfold fl. cbn [round_mode]. apply round_NE_opp. Qed.
Lemma fl_grow (x : R) : Rabs (fl x) <= (1 + ulp1) * Rabs x + tiny.
Proof. pose proof (fl_err x). pose proof (Rabs_triang (fl x - x) x) as T. replace (fl x - x + x) with (fl x) in T by ring. lra. Qed.
Lemma dot3_fl x a y c o m : fin x -> fin a -> fin y -> fin c -> fin o -> fin m ->
  2 * (Rabs (val x) * Rabs (val a) + Rabs (val y) * Rabs (val c) + Rabs (val o) * Rabs (val m)) <= top ->
  fin (dot3 x a y c o m) /\ val (dot3 x a y c o m) = fl (fl (fl (val x * val a) + fl (val y * val c)) + fl (val o * val m)).
Proof.
  intros Fx Fa Fy Fc Fo Fm. rewrite <- !Rabs_mult. set (p := val x * val a). set (q := val y * val c). set (r := val o * val m). intros L.
  pose proof ulp1_small as Us. pose proof ulp1_pos as U. pose proof tiny_small as Ts. pose proof tiny_pos as Tp. pose proof top_big as Tb.
  pose proof (Rabs_pos p). pose proof (Rabs_pos q). pose proof (Rabs_pos r).
  assert (G : forall z b, Rabs z <= b -> Rabs (fl z) <= 1000001 / 1000000 * b + / 1000000).
  { intros z b Z. pose proof (fl_grow z). pose proof (Rabs_pos z).
    assert ((1 + ulp1) * Rabs z <= 1000001 / 1000000 * b) by (apply Rmult_le_compat; lra). lra. }
  pose proof (G p _ (Rle_refl _)) as Gp. pose proof (G q _ (Rle_refl _)) as Gq. pose proof (G r _ (Rle_refl _)) as Gr.
  destruct (mult_fl x a Fx Fa) as [F1 V1]; [fold p; lra|]. destruct (mult_fl y c Fy Fc) as [F2 V2]; [fold q; lra|]. destruct (mult_fl o m Fo Fm) as [F3 V3]; [fold r; lra|].
  fold p in V1. fold q in V2. fold r in V3.
  assert (Gs : Rabs (fl p + fl q) <= 1000001 / 1000000 * (Rabs p + Rabs q) + / 500000) by (pose proof (Rabs_triang (fl p) (fl q)); lra).
  pose proof (G _ _ Gs) as Gs'.
  destruct (plus_fl _ _ F1 F2) as [F4 V4]; [rewrite V1, V2; lra|]. rewrite V1, V2 in V4.
  assert (Gt : Rabs (fl (fl p + fl q) + fl r) <= 1000003 / 1000000 * (Rabs p + Rabs q + Rabs r) + / 100000) by (pose proof (Rabs_triang (fl (fl p + fl q)) (fl r)); lra).
  pose proof (G _ _ Gt) as Gt'.
  destruct (plus_fl _ _ F4 F3) as [F5 V5]; [rewrite V4, V3; lra|]. rewrite V4, V3 in V5. unfold dot3. split; [exact F5 | exact V5].
Qed.

Lemma mat_row (r1 r2 r3 : b64) (m : list (list b64)) : multiplyRowByMatrix [r1; r2; r3] m =
  match m with
  | [[a; b; p]; [c; d; q]; [e; f; s]] => Ok [dot3 r1 a r2 c r3 e; dot3 r1 b r2 d r3 f; dot3 r1 p r2 q r3 s]
  | _ => Err ValueError
  end.
Proof.
  unfold multiplyRowByMatrix. cbn [unpack3 bind].
  destruct m as [|[|? [|? [|? [|? ?]]]] [|[|? [|? [|? [|? ?]]]] [|[|? [|? [|? [|? ?]]]] [|? ?]]]]; reflexivity.
Qed.
(** A rotation matrix: [b] and [c] are opposite. *)
Lemma lit01 : fin (bofZ 0) /\ val (bofZ 0) = 0 /\ fin (bofZ 1) /\ val (bofZ 1) = 1.
Proof. destruct (val_int 0 ltac:(lia)), (val_int 1 ltac:(lia)). auto. Qed.
Lemma big_bound (M : R) : M <= 2 ^ 1000 -> 1000 * M + 1000 <= top.
Proof.
  intros L. apply Rle_trans with (1000 * 2 ^ 1000 + 1000); [lra|]. unfold top. apply Rle_trans with (2 ^ 11 * 2 ^ 1000).
  - assert (1 <= 2 ^ 1000) by (apply pow_R1_Rle; lra). lra.
  - rewrite <- pow_add, two_pow. apply bpow_le. unfold emax. cbn. lia.
Qed.
Ltac flsimp V0 V1 E1 H := repeat progress rewrite ?V0, ?V1, ?Rabs_R0, ?Rabs_R1, ?Rmult_0_l, ?Rmult_0_r, ?Rmult_1_l, ?Rmult_1_r, ?fl0, ?E1, ?fl_val, ?Rplus_0_l, ?Rplus_0_r, ?fl_fl in H.
Lemma move_turn (ct b c tx ty : b64) (M : R) : fin ct -> fin b -> fin c -> fin tx -> fin ty ->
  Rabs (val ct) <= 2 -> Rabs (val b) <= 2 -> Rabs (val c) <= 2 -> Rabs (val tx) <= M -> Rabs (val ty) <= M -> M <= 2 ^ 1000 ->
  exists a' b' p' c' d' q' m' n' s',
    multiplyMatrixByMatrix [[bofZ 1; bofZ 0; bofZ 0]; [bofZ 0; bofZ 1; bofZ 0]; [tx; ty; bofZ 1]] [[ct; b; bofZ 0]; [c; ct; bofZ 0]; [bofZ 0; bofZ 0; bofZ 1]] =
      Ok [[a'; b'; p']; [c'; d'; q']; [m'; n'; s']] /\ Forall fin [a'; b'; p'; c'; d'; q'; m'; n'; s'] /\
    val a' = val ct /\ val b' = val b /\ val p' = 0 /\ val c' = val c /\ val d' = val ct /\ val q' = 0 /\
    val m' = fl (fl (val tx * val ct) + fl (val ty * val c)) /\ val n' = fl (fl (val tx * val b) + fl (val ty * val ct)) /\ val s' = 1.
Proof.
  intros Fct Fb Fc Ftx Fty Lct Lb Lc Ltx Lty LM. destruct lit01 as (F0 & V0 & F1 & V1).
  pose proof (big_bound M LM) as Bt. assert (0 <= M) by (pose proof (Rabs_pos (val tx)); lra).
  assert (E1 : fl 1 = 1) by (rewrite <- V1; apply fl_val).
  do 9 eexists. split.
  { unfold multiplyMatrixByMatrix. cbn [mapM bind]. rewrite !mat_row. cbn [bind]. reflexivity. }
  assert (P : forall u v k, Rabs (val u) <= M -> Rabs (val v) <= k -> 0 <= k -> Rabs (val u) * Rabs (val v) <= M * k).
  { intros u v k Lu Lv K. apply Rmult_le_compat; auto using Rabs_pos. }
  pose proof (P tx ct 2 Ltx Lct ltac:(lra)). pose proof (P tx b 2 Ltx Lb ltac:(lra)). pose proof (P ty ct 2 Lty Lct ltac:(lra)). pose proof (P ty c 2 Lty Lc ltac:(lra)).
  pose proof (dot3_fl (bofZ 1) ct (bofZ 0) c (bofZ 0) (bofZ 0)) as D1. pose proof (dot3_fl (bofZ 1) b (bofZ 0) ct (bofZ 0) (bofZ 0)) as D2.
  pose proof (dot3_fl (bofZ 1) (bofZ 0) (bofZ 0) (bofZ 0) (bofZ 0) (bofZ 1)) as D3.
  pose proof (dot3_fl (bofZ 0) ct (bofZ 1) c (bofZ 0) (bofZ 0)) as D4. pose proof (dot3_fl (bofZ 0) b (bofZ 1) ct (bofZ 0) (bofZ 0)) as D5.
  pose proof (dot3_fl (bofZ 0) (bofZ 0) (bofZ 1) (bofZ 0) (bofZ 0) (bofZ 1)) as D6.
  pose proof (dot3_fl tx ct ty c (bofZ 1) (bofZ 0)) as D7. pose proof (dot3_fl tx b ty ct (bofZ 1) (bofZ 0)) as D8.
  pose proof (dot3_fl tx (bofZ 0) ty (bofZ 0) (bofZ 1) (bofZ 1)) as D9.
  flsimp V0 V1 E1 D1. flsimp V0 V1 E1 D2. flsimp V0 V1 E1 D3. flsimp V0 V1 E1 D4. flsimp V0 V1 E1 D5. flsimp V0 V1 E1 D6. flsimp V0 V1 E1 D7. flsimp V0 V1 E1 D8. flsimp V0 V1 E1 D9.
  destruct D1 as [G1 W1]; auto; [lra|]. destruct D2 as [G2 W2]; auto; [lra|]. destruct D3 as [G3 W3]; auto; [lra|].
  destruct D4 as [G4 W4]; auto; [lra|]. destruct D5 as [G5 W5]; auto; [lra|]. destruct D6 as [G6 W6]; auto; [lra|].
  destruct D7 as [G7 W7]; auto; [lra|]. destruct D8 as [G8 W8]; auto; [lra|]. destruct D9 as [G9 W9]; auto; [lra|].
  split; [repeat apply Forall_cons; auto|]. repeat (split; [assumption|]). assumption.
Qed.
Lemma turn_move (a b p c d q m n s tx ty : b64) (M : R) : Forall fin [a; b; p; c; d; q; m; n; s; tx; ty] ->
  val p = 0 -> val q = 0 -> val s = 1 -> Forall (fun x => Rabs (val x) <= M) [a; b; c; d; m; n; tx; ty] -> M <= 2 ^ 1000 ->
  exists a' b' p' c' d' q' m' n' s',
    multiplyMatrixByMatrix [[a; b; p]; [c; d; q]; [m; n; s]] [[bofZ 1; bofZ 0; bofZ 0]; [bofZ 0; bofZ 1; bofZ 0]; [tx; ty; bofZ 1]] =
      Ok [[a'; b'; p']; [c'; d'; q']; [m'; n'; s']] /\ Forall fin [a'; b'; p'; c'; d'; q'; m'; n'; s'] /\
    val a' = val a /\ val b' = val b /\ val p' = 0 /\ val c' = val c /\ val d' = val d /\ val q' = 0 /\
    val m' = fl (val m + val tx) /\ val n' = fl (val n + val ty) /\ val s' = 1.
Proof.
  intros F Vp Vq Vs L LM.
  repeat match goal with H : Forall _ (_ :: _) |- _ => inversion H; clear H; subst end.
  destruct lit01 as (F0 & V0 & F1 & V1). pose proof (big_bound M LM) as Bt. assert (0 <= M) by (pose proof (Rabs_pos (val tx)); lra).
  assert (E1 : fl 1 = 1) by (rewrite <- V1; apply fl_val).
  do 9 eexists. split.
  { unfold multiplyMatrixByMatrix. cbn [mapM bind]. rewrite !mat_row. cbn [bind]. reflexivity. }
  pose proof (dot3_fl a (bofZ 1) b (bofZ 0) p tx) as D1. pose proof (dot3_fl a (bofZ 0) b (bofZ 1) p ty) as D2. pose proof (dot3_fl a (bofZ 0) b (bofZ 0) p (bofZ 1)) as D3.
  pose proof (dot3_fl c (bofZ 1) d (bofZ 0) q tx) as D4. pose proof (dot3_fl c (bofZ 0) d (bofZ 1) q ty) as D5. pose proof (dot3_fl c (bofZ 0) d (bofZ 0) q (bofZ 1)) as D6.
  pose proof (dot3_fl m (bofZ 1) n (bofZ 0) s tx) as D7. pose proof (dot3_fl m (bofZ 0) n (bofZ 1) s ty) as D8. pose proof (dot3_fl m (bofZ 0) n (bofZ 0) s (bofZ 1)) as D9.
  rewrite ?Vp in D1, D2, D3. rewrite ?Vq in D4, D5, D6. rewrite ?Vs in D7, D8, D9.
  flsimp V0 V1 E1 D1. flsimp V0 V1 E1 D2. flsimp V0 V1 E1 D3. flsimp V0 V1 E1 D4. flsimp V0 V1 E1 D5. flsimp V0 V1 E1 D6. flsimp V0 V1 E1 D7. flsimp V0 V1 E1 D8. flsimp V0 V1 E1 D9.
  destruct D1 as [G1 W1]; auto; [lra|]. destruct D2 as [G2 W2]; auto; [lra|]. destruct D3 as [G3 W3]; auto; [lra|].
  destruct D4 as [G4 W4]; auto; [lra|]. destruct D5 as [G5 W5]; auto; [lra|]. destruct D6 as [G6 W6]; auto; [lra|].
  destruct D7 as [G7 W7]; auto; [lra|]. destruct D8 as [G8 W8]; auto; [lra|]. destruct D9 as [G9 W9]; auto; [lra|].
  split; [repeat apply Forall_cons; auto|]. repeat (split; [assumption|]). assumption.
Qed.

(** ** Rotation about a point *)
Lemma abs_prod (a b A B : R) : Rabs a <= A -> Rabs b <= B -> Rabs (a * b) <= A * B.
Proof. intros. rewrite Rabs_mult. apply Rmult_le_compat; auto using Rabs_pos. Qed.
Lemma turn_error (cx cy c0 x y p q P Q E M r : R) : Rabs cx <= M -> Rabs cy <= M -> Rabs c0 <= M -> Rabs x <= M -> Rabs y <= M ->
  Rabs (p - P) <= E -> Rabs (q - Q) <= E -> E <= / 8 -> Rabs P <= 1 -> Rabs Q <= 1 ->
  let m1 := fl (fl (- cx * p) + fl (- cy * q)) in let m := fl (m1 + c0) in
  let S := Rabs x * Rabs p + Rabs y * Rabs q + Rabs m in
  Rabs m1 <= 3 * M + 1 /\ S <= 6 * M + 1 /\
  (Rabs (r - (x * p + y * q + m)) <= 4 * ulp1 * S + 8 * tiny ->
   Rabs (r - (c0 + (P * (x - cx) + Q * (y - cy)))) <= E * (Rabs (x - cx) + Rabs (y - cy)) + 31 * ulp1 * M + 14 * tiny).
Proof.
  intros Lcx Lcy Lc0 Lx Ly Ep Eq LE LP LQ m1 m S.
  pose proof ulp1_small as Us. pose proof ulp1_pos as U. pose proof tiny_small as Ts. pose proof tiny_pos as Tp.
  assert (M0 : 0 <= M) by (pose proof (Rabs_pos cx); lra).
  assert (Lp : Rabs p <= 9 / 8). { pose proof (Rabs_triang (p - P) P) as T. replace (p - P + P) with p in T by ring. lra. }
  assert (Lq : Rabs q <= 9 / 8). { pose proof (Rabs_triang (q - Q) Q) as T. replace (q - Q + Q) with q in T by ring. lra. }
  set (a := - cx * p) in *. set (b := - cy * q) in *.
  assert (La : Rabs a <= 9 / 8 * M). { pose proof (abs_prod (- cx) p M (9 / 8)) as T. rewrite Rabs_Ropp in T. fold a in T. specialize (T Lcx Lp). lra. }
  assert (Lb : Rabs b <= 9 / 8 * M). { pose proof (abs_prod (- cy) q M (9 / 8)) as T. rewrite Rabs_Ropp in T. fold b in T. specialize (T Lcy Lq). lra. }
  pose proof (fl_err a) as Ea. pose proof (fl_err b) as Eb. pose proof (fl_err (fl a + fl b)) as E1. fold m1 in E1. pose proof (fl_err (m1 + c0)) as E2. fold m in E2.
  assert (Um : ulp1 * M <= / 1000000 * M) by (apply Rmult_le_compat_r; lra). assert (0 <= ulp1 * M) by (apply Rmult_le_pos; lra).
  assert (Ut : ulp1 * tiny <= / 1000000 * tiny) by (apply Rmult_le_compat_r; lra).
  assert (Ea' : Rabs (fl a - a) <= 9 / 8 * (ulp1 * M) + tiny) by (assert (ulp1 * Rabs a <= ulp1 * (9 / 8 * M)) by (apply Rmult_le_compat_l; lra); lra).
  assert (Eb' : Rabs (fl b - b) <= 9 / 8 * (ulp1 * M) + tiny) by (assert (ulp1 * Rabs b <= ulp1 * (9 / 8 * M)) by (apply Rmult_le_compat_l; lra); lra).
  assert (Z1 : Rabs (fl a + fl b - (a + b)) <= 9 / 4 * (ulp1 * M) + 2 * tiny).
  { pose proof (Rabs_triang (fl a - a) (fl b - b)) as T. replace (fl a - a + (fl b - b)) with (fl a + fl b - (a + b)) in T by ring. lra. }
  assert (Z2 : Rabs (fl a + fl b) <= 226 / 100 * M + 2 * tiny).
  { pose proof (Rabs_triang (fl a + fl b - (a + b)) (a + b)) as T. replace (fl a + fl b - (a + b) + (a + b)) with (fl a + fl b) in T by ring.
    pose proof (Rabs_triang a b). lra. }
  assert (Z3 : ulp1 * Rabs (fl a + fl b) <= 226 / 100 * (ulp1 * M) + 2 * (/ 1000000 * tiny)).
  { assert (ulp1 * Rabs (fl a + fl b) <= ulp1 * (226 / 100 * M + 2 * tiny)) by (apply Rmult_le_compat_l; lra). lra. }
  assert (Z4 : Rabs (m1 - (a + b)) <= 452 / 100 * (ulp1 * M) + 4 * tiny).
  { pose proof (Rabs_triang (m1 - (fl a + fl b)) (fl a + fl b - (a + b))) as T. replace (m1 - (fl a + fl b) + (fl a + fl b - (a + b))) with (m1 - (a + b)) in T by ring. lra. }
  assert (Z5 : Rabs m1 <= 227 / 100 * M + 4 * tiny).
  { pose proof (Rabs_triang (m1 - (a + b)) (a + b)) as T. replace (m1 - (a + b) + (a + b)) with m1 in T by ring. pose proof (Rabs_triang a b). lra. }
  assert (Z6 : Rabs (m1 + c0) <= 327 / 100 * M + 4 * tiny) by (pose proof (Rabs_triang m1 c0); lra).
  assert (Z7 : ulp1 * Rabs (m1 + c0) <= 327 / 100 * (ulp1 * M) + 4 * (/ 1000000 * tiny)).
  { assert (ulp1 * Rabs (m1 + c0) <= ulp1 * (327 / 100 * M + 4 * tiny)) by (apply Rmult_le_compat_l; lra). lra. }
  assert (Z8 : Rabs (m - (a + b + c0)) <= 78 / 10 * (ulp1 * M) + 55 / 10 * tiny).
  { pose proof (Rabs_triang (m - (m1 + c0)) (m1 - (a + b))) as T. replace (m - (m1 + c0) + (m1 - (a + b))) with (m - (a + b + c0)) in T by ring. lra. }
  assert (Z9 : Rabs m <= 328 / 100 * M + 6 * tiny).
  { pose proof (Rabs_triang (m - (m1 + c0)) (m1 + c0)) as T. replace (m - (m1 + c0) + (m1 + c0)) with m in T by ring. lra. }
  assert (LS : S <= 555 / 100 * M + 6 * tiny).
  { unfold S. pose proof (Rmult_le_compat _ _ _ _ (Rabs_pos x) (Rabs_pos p) Lx Lp). pose proof (Rmult_le_compat _ _ _ _ (Rabs_pos y) (Rabs_pos q) Ly Lq). lra. }
  split; [lra|]. split; [lra|]. intros ER.
  assert (US : ulp1 * S <= 555 / 100 * (ulp1 * M) + 6 * (/ 1000000 * tiny)).
  { assert (ulp1 * S <= ulp1 * (555 / 100 * M + 6 * tiny)) by (apply Rmult_le_compat_l; lra). lra. }
  set (vx := x - cx). set (vy := y - cy).
  assert (D : r - (c0 + (P * vx + Q * vy)) = (r - (x * p + y * q + m)) + ((m - (a + b + c0)) + ((p - P) * vx + (q - Q) * vy))) by (unfold a, b, vx, vy; ring).
  rewrite D. eapply Rle_trans; [apply Rabs_triang|]. pose proof (Rabs_triang (m - (a + b + c0)) ((p - P) * vx + (q - Q) * vy)) as T1.
  pose proof (Rabs_triang ((p - P) * vx) ((q - Q) * vy)) as T2.
  pose proof (abs_prod (p - P) vx E (Rabs vx) Ep (Rle_refl _)). pose proof (abs_prod (q - Q) vy E (Rabs vy) Eq (Rle_refl _)). lra.
Qed.

Lemma zero_sub (u : b64) : fin u -> fin (nsub (bofZ 0) u) /\ val (nsub (bofZ 0) u) = - val u.
Proof.
  intros Fu. destruct lit01 as (F0 & V0 & _). assert (K : val (bofZ 0) - val u = - val u) by (rewrite V0; ring).
  destruct (minus_fl (bofZ 0) u F0 Fu) as [A B]; [rewrite K, fl_opp, fl_val, Rabs_Ropp; apply val_top|]. split; [exact A|]. now rewrite B, K, fl_opp, fl_val.
Qed.
Lemma sub_zero (u : b64) : fin u -> fin (nsub u (bofZ 0)) /\ val (nsub u (bofZ 0)) = val u.
Proof.
  intros Fu. destruct lit01 as (F0 & V0 & _). assert (K : val u - val (bofZ 0) = val u) by (rewrite V0; ring).
  destruct (minus_fl u (bofZ 0) Fu F0) as [A B]; [rewrite K, fl_val; apply val_top|]. split; [exact A|]. now rewrite B, K, fl_val.
Qed.
Lemma fl_bound2 (z b : R) : Rabs z <= b -> Rabs (fl z) <= 1000001 / 1000000 * b + / 1000000.
Proof.
  intros Z. pose proof (fl_grow z). pose proof (Rabs_pos z). pose proof ulp1_small. pose proof ulp1_pos. pose proof tiny_small. pose proof tiny_pos.
  assert ((1 + ulp1) * Rabs z <= 1000001 / 1000000 * b) by (apply Rmult_le_compat; lra). lra.
Qed.
Lemma m1_bound (cx cy p q M : R) : Rabs cx <= M -> Rabs cy <= M -> Rabs p <= 2 -> Rabs q <= 2 -> Rabs (fl (fl (- cx * p) + fl (- cy * q))) <= 5 * M + 1.
Proof.
  intros Lx Ly Lp Lq. assert (0 <= M) by (pose proof (Rabs_pos cx); lra).
  pose proof (abs_prod (- cx) p M 2 ltac:(rewrite Rabs_Ropp; lra) Lp) as A. pose proof (abs_prod (- cy) q M 2 ltac:(rewrite Rabs_Ropp; lra) Lq) as B.
  apply fl_bound2 in A, B. pose proof (Rabs_triang (fl (- cx * p)) (fl (- cy * q))) as T.
  assert (C : Rabs (fl (- cx * p) + fl (- cy * q)) <= 41 / 10 * M + / 1000) by lra. apply fl_bound2 in C. lra.
Qed.
Definition turned (ct b c : b64) : list (list b64) := [[ct; b; bofZ 0]; [c; ct; bofZ 0]; [bofZ 0; bofZ 0; bofZ 1]].
Lemma about_matrix (ct b c cx cy : b64) (M : R) : fin ct -> fin b -> fin c -> fin cx -> fin cy ->
  Rabs (val ct) <= 2 -> Rabs (val b) <= 2 -> Rabs (val c) <= 2 -> Rabs (val cx) <= M -> Rabs (val cy) <= M -> M <= 2 ^ 990 ->
  exists a' b' p' c' d' q' m' n' s',
    concatenateMatrices [_translateMatrix (cx, cy) origin; turned ct b c; _translateMatrix origin (cx, cy)] =
      Ok [[a'; b'; p']; [c'; d'; q']; [m'; n'; s']] /\ Forall fin [a'; b'; p'; c'; d'; q'; m'; n'; s'] /\
    val a' = val ct /\ val b' = val b /\ val p' = 0 /\ val c' = val c /\ val d' = val ct /\ val q' = 0 /\
    val m' = fl (fl (fl (- val cx * val ct) + fl (- val cy * val c)) + val cx) /\
    val n' = fl (fl (fl (- val cx * val b) + fl (- val cy * val ct)) + val cy) /\ val s' = 1.
Proof.
  intros Fct Fb Fc Fcx Fcy Lct Lb Lc Lcx Lcy LM.
  assert (M0 : 0 <= M) by (pose proof (Rabs_pos (val cx)); lra).
  assert (LM2 : 10 * M + 10 <= 2 ^ 1000).
  { apply Rle_trans with (2 ^ 10 * 2 ^ 990); [assert (1 <= 2 ^ 990) by (apply pow_R1_Rle; lra); lra | rewrite <- pow_add; apply Rle_refl]. }
  unfold concatenateMatrices, origin, _translateMatrix. change (nofZ 0 : b64) with (bofZ 0). change (nofZ 1 : b64) with (bofZ 1). unfold _matrix.
  destruct (zero_sub cx Fcx) as [Ft1 Vt1]. destruct (zero_sub cy Fcy) as [Ft2 Vt2]. destruct (sub_zero cx Fcx) as [Ft3 Vt3]. destruct (sub_zero cy Fcy) as [Ft4 Vt4].
  destruct (move_turn ct b c (nsub (bofZ 0) cx) (nsub (bofZ 0) cy) (10 * M + 10)) as (a1 & b1 & p1 & c1 & d1 & q1 & m1 & n1 & s1 & EP & FP & Va1 & Vb1 & Vp1 & Vc1 & Vd1 & Vq1 & Vm1 & Vn1 & Vs1); auto;
    try (rewrite ?Vt1, ?Vt2, Rabs_Ropp; lra).
  unfold turned. cbn [foldM]. rewrite EP. cbn [bind]. rewrite Vt1, Vt2 in Vm1, Vn1.
  pose proof (m1_bound (val cx) (val cy) (val ct) (val c) M Lcx Lcy Lct Lc) as Bm. pose proof (m1_bound (val cx) (val cy) (val b) (val ct) M Lcx Lcy Lb Lct) as Bn.
  rewrite <- Vm1 in Bm. rewrite <- Vn1 in Bn.
  repeat match goal with H : Forall _ (_ :: _) |- _ => inversion H; clear H; subst end.
  destruct (turn_move a1 b1 p1 c1 d1 q1 m1 n1 s1 (nsub cx (bofZ 0)) (nsub cy (bofZ 0)) (10 * M + 10)) as (a2 & b2 & p2 & c2 & d2 & q2 & m2 & n2 & s2 & EP2 & FP2 & Va2 & Vb2 & Vp2 & Vc2 & Vd2 & Vq2 & Vm2 & Vn2 & Vs2); auto 20.
  { repeat apply Forall_cons; rewrite ?Va1, ?Vb1, ?Vc1, ?Vd1, ?Vt3, ?Vt4; try apply Forall_nil; lra. }
  rewrite EP2. cbn [bind]. exists a2, b2, p2, c2, d2, q2, m2, n2, s2. rewrite Vt3 in Vm2. rewrite Vt4 in Vn2.
  split; [reflexivity|]. split; [exact FP2|]. rewrite <- Vm1, <- Vn1. repeat split; congruence.
Qed.

Section Turn.
  Context (sn cs ac : b64 -> b64) (at2 hy pw : b64 -> b64 -> b64) (r15 : b64 -> b64) (e : R).
  #[local] Instance tr : TrigOps b64 := FTrig sn cs ac at2 hy pw math_pi r15.
  Hypothesis Hs : within e sn sin.
  Hypothesis Hc : within e cs cos.
  Hypothesis Hr : rounds15 r15.

  Lemma tf_err (d : b64) : fin d -> Rabs (val d) <= 2 ^ 1000 -> e <= / 8 -> let E := e + 6 * ulp1 + Rabs (val d) * ulp1 / 32 in
    fin (tf_sin d) /\ fin (tf_cos d) /\ Rabs (val (tf_sin d) - sin (val d * PI / 180)) <= E /\ Rabs (val (tf_cos d) - cos (val d * PI / 180)) <= E.
  Proof.
    intros F L Le E. destruct (radians_err sn cs ac at2 hy pw r15 d F L) as [Fr Er]. fold tr in Fr, Er.
    pose proof tiny_small. pose proof ulp1_pos.
    destruct (trig_err r15 sn sin e (val d * PI / 180) (val (radians d)) (radians d) Hr Hs sin_lip) as [F1 E1]; auto; [intros a; apply Rabs_le; pose proof (SIN_bound a); lra|].
    destruct (trig_err r15 cs cos e (val d * PI / 180) (val (radians d)) (radians d) Hr Hc cos_lip) as [F2 E2]; auto; [intros a; apply Rabs_le; pose proof (COS_bound a); lra|].
    unfold tf_sin, tf_cos. cbn [tround15 tsin tcos tr FTrig] in *. unfold E. repeat split; auto; lra.
  Qed.

  Lemma rot_matrix (d : b64) (ccw : bool) : fin d -> let E := e + 6 * ulp1 + Rabs (val d) * ulp1 / 32 in E <= / 8 -> Rabs (val d) <= 2 ^ 1000 -> e <= / 8 ->
    exists ct b c, _rotationMatrix d ccw = [[ct; b; bofZ 0]; [c; ct; bofZ 0]; [bofZ 0; bofZ 0; bofZ 1]] /\ fin ct /\ fin b /\ fin c /\ val c = - val b /\
      let th := if ccw then val d * PI / 180 else - (val d * PI / 180) in Rabs (val ct - cos th) <= E /\ Rabs (val b - sin th) <= E.
  Proof.
    intros F E LE L Le. destruct (tf_err d F L Le) as (Fs & Fc & Es & Ec). fold E in Es, Ec. unfold _rotationMatrix, _matrix.
    assert (O : fin (nopp (tf_sin d)) /\ val (nopp (tf_sin d)) = - val (tf_sin d)).
    { split; [unfold fin; cbn [nopp FNum]; rewrite is_finite_Bopp; exact Fs | apply B2R_Bopp]. }
    destruct O as [Fo Vo]. destruct ccw.
    - exists (tf_cos d), (tf_sin d), (nopp (tf_sin d)). repeat split; auto.
    - exists (tf_cos d), (nopp (tf_sin d)), (tf_sin d). repeat split; auto; [rewrite Vo; ring | rewrite cos_neg; exact Ec|].
      rewrite Vo, sin_neg. replace (- val (tf_sin d) - - sin (val d * PI / 180)) with (- (val (tf_sin d) - sin (val d * PI / 180))) by ring. now rewrite Rabs_Ropp.
  Qed.

  Theorem turn_accuracy (p c : point b64) (d : b64) (ccw : bool) (M : R) : let E := e + 6 * ulp1 + Rabs (val d) * ulp1 / 32 in
    fin d -> E <= / 8 -> sized M p -> sized M c -> M <= 2 ^ 990 ->
    exists q, rotatePointAbout p c d ccw = Ok q /\
      let v := vsub (vpt p) (vpt c) in
      off (E * (Rabs (fst v) + Rabs (snd v)) + 31 * ulp1 * M + 14 * tiny) q
          (vadd (vpt c) (rot (if ccw then val d * PI / 180 else - (val d * PI / 180)) v)).
  Proof.
    intros E F LE (Fx & Fy & Lx & Ly) (Fcx & Fcy & Lcx & Lcy) LM. destruct p as [x y], c as [cx cy]. unfold vpt. cbn [fst snd] in *.
    assert (e0 : 0 <= e). { destruct (Hs _ F) as [_ K]. pose proof (Rabs_pos (val (sn d) - sin (val d))). lra. }
    pose proof ulp1_pos as U. pose proof (Rabs_pos (val d)) as Pd. assert (0 <= Rabs (val d) * ulp1) by (apply Rmult_le_pos; lra).
    assert (Ld : Rabs (val d) <= 2 ^ 1000).
    { assert (K : Rabs (val d) <= 4 * 9007199254740992).
      { unfold E in LE. rewrite ulp_num in *. lra. }
      apply Rle_trans with (2 ^ 60); [lra | apply Rle_pow; [lra | lia]]. }
    destruct (rot_matrix d ccw F LE Ld) as (ct & b & c & ER & Fct & Fb & Fc & Vc & Ect & Eb); [unfold E in LE; lra|]. fold E in Ect, Eb.
    set (th := if ccw then val d * PI / 180 else - (val d * PI / 180)) in *.
    assert (Bc : Rabs (cos th) <= 1) by (apply Rabs_le; pose proof (COS_bound th); lra). assert (Bs : Rabs (sin th) <= 1) by (apply Rabs_le; pose proof (SIN_bound th); lra).
    assert (Bs' : Rabs (- sin th) <= 1) by (rewrite Rabs_Ropp; exact Bs).
    assert (M0 : 0 <= M) by (pose proof (Rabs_pos (val x)); lra).
    assert (LM2 : 10 * M + 10 <= 2 ^ 1000).
    { apply Rle_trans with (2 ^ 10 * 2 ^ 990); [assert (1 <= 2 ^ 990) by (apply pow_R1_Rle; lra); lra | rewrite <- pow_add; apply Rle_refl]. }
    assert (Lct : Rabs (val ct) <= 2). { pose proof (Rabs_triang (val ct - cos th) (cos th)) as T. replace (val ct - cos th + cos th) with (val ct) in T by ring. lra. }
    assert (Lb : Rabs (val b) <= 2). { pose proof (Rabs_triang (val b - sin th) (sin th)) as T. replace (val b - sin th + sin th) with (val b) in T by ring. lra. }
    assert (Lc : Rabs (val c) <= 2) by (rewrite Vc, Rabs_Ropp; exact Lb).
    assert (Ec : Rabs (val c - - sin th) <= E) by (rewrite Vc; replace (- val b - - sin th) with (- (val b - sin th)) by ring; now rewrite Rabs_Ropp).
    unfold rotatePointAbout, rotationAbout, mkTransform. rewrite ER.
    destruct (about_matrix ct b c cx cy M) as (a2 & b2 & p2 & c2 & d2 & q2 & m2 & n2 & s2 & EP2 & FP2 & Va2 & Vb2 & Vp2 & Vc2 & Vd2 & Vq2 & Vm2 & Vn2 & Vs2); auto.
    unfold turned in EP2. rewrite EP2. cbn [bind].
    destruct (affine_accuracy a2 b2 c2 d2 m2 n2 p2 q2 s2 x y) as (r & Er & Fr1 & Fr2 & E1 & E2).
    { repeat match goal with H : Forall _ (_ :: _) |- _ => inversion H; clear H; subst end. repeat apply Forall_cons; auto. }
    1-3: assumption.
    { rewrite Va2, Vc2, Vm2.
      destruct (turn_error (val cx) (val cy) (val cx) (val x) (val y) (val ct) (val c) (cos th) (- sin th) E M 0) as (_ & B2 & _); auto.
      apply Rle_trans with (1 := B2). apply Rle_trans with (2 ^ 1000); [lra | apply Rle_pow; [lra | lia]]. }
    { rewrite Vb2, Vd2, Vn2.
      destruct (turn_error (val cx) (val cy) (val cy) (val x) (val y) (val b) (val ct) (sin th) (cos th) E M 0) as (_ & B2 & _); auto.
      apply Rle_trans with (1 := B2). apply Rle_trans with (2 ^ 1000); [lra | apply Rle_pow; [lra | lia]]. }
    exists r. split; [exact Er|]. unfold off, vsub, vadd, rot. cbn [fst snd].
    rewrite Va2, Vc2, Vm2 in E1. rewrite Vb2, Vd2, Vn2 in E2.
    destruct (turn_error (val cx) (val cy) (val cx) (val x) (val y) (val ct) (val c) (cos th) (- sin th) E M (val (fst r))) as (_ & _ & K1); auto.
    destruct (turn_error (val cx) (val cy) (val cy) (val x) (val y) (val b) (val ct) (sin th) (cos th) E M (val (snd r))) as (_ & _ & K2); auto.
    specialize (K1 E1). specialize (K2 E2). split; [exact Fr1|]. split; [exact Fr2|]. split; [|exact K2].
    replace (cos th * (val x - val cx) - sin th * (val y - val cy)) with (cos th * (val x - val cx) + - sin th * (val y - val cy)) by ring. exact K1.
  Qed.
End Turn.

(** ** Quarter turns *)
(** The double nearest to a quarter turn's angle. *)
Lemma quarter_radians (k : Z) : (-6 <= k <= 6)%Z -> Rabs (fl (IZR (90 * k) * val deg_rad) - IZR k * (PI / 2)) <= 34 / 10 * ulp1.
Proof.
  intros K. pose proof PI_close as P. pose proof ulp_num as U.
  assert (H : forall z, (Z.abs z <= 6)%Z -> fl (IZR (90 * z) * val deg_rad) = val (nmul (bofZ (90 * z)) deg_rad)).
  { intros z Z. destruct (val_int (90 * z) ltac:(lia)) as [F V]. destruct deg_rad_val as (Fd & _ & Bd). destruct (mult_fl (bofZ (90 * z)) deg_rad F Fd) as [_ W]; [|rewrite V in W; auto].
    rewrite V. pose proof (fl_bound2 (IZR (90 * z) * val deg_rad) 540) as T.
    assert (Rabs (IZR (90 * z) * val deg_rad) <= 540).
    { rewrite Rabs_mult, (Rabs_pos_eq (val deg_rad)) by lra. assert (Rabs (IZR (90 * z)) <= 540) by (rewrite <- abs_IZR; apply IZR_le; lia). pose proof (Rabs_pos (IZR (90 * z))). nra. }
    assert (1024 <= top). { unfold top. replace 1024 with (bpow radix2 10) by reflexivity. apply bpow_le. unfold emax. lia. } specialize (T H). lra. }
  rewrite H by lia. rewrite U.
  assert (C : k = (-6)%Z \/ k = (-5)%Z \/ k = (-4)%Z \/ k = (-3)%Z \/ k = (-2)%Z \/ k = (-1)%Z \/ k = 0%Z \/ k = 1%Z \/ k = 2%Z \/ k = 3%Z \/ k = 4%Z \/ k = 5%Z \/ k = 6%Z) by lia.
  repeat destruct C as [->|C]; try subst k;
    match goal with |- Rabs (val ?x - _) <= _ => let y := eval vm_compute in (B2SF x) in
      match y with
      | SpecFloat.S754_finite ?s ?m ?e => replace (val x) with (val (@B754_finite prec emax s m e eq_refl)) by (f_equal; apply B2SF_inj; vm_compute; reflexivity); rewrite val_lit; cbn [bpow Z.pow_pos Pos.iter Z.mul radix_val radix2 Pos.mul]
      | SpecFloat.S754_zero ?s => replace (val x) with (val (@B754_zero prec emax s)) by (f_equal; apply B2SF_inj; vm_compute; reflexivity); change (val (@B754_zero prec emax s)) with 0
      end
    end; apply Rabs_le; lra.
Qed.
