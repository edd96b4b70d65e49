(** Proofs for C145: perspective, composition and exact moves in binary64. *)
From Coq Require Import List ZArith Bool Reals Lra Lia Psatz.
From Flocq Require Import Core BinarySingleNaN.
From Verif Require Import Py Inst InstFloat SpecGeom SpecMatrix SpecDouble SpecDouble3 SpecDouble7 SpecDouble8 MTransform ProofDouble ProofDouble2 ProofDouble9 ProofDouble15 ProofDouble20 ProofDouble22.
Import ListNotations.
Local Open Scope R_scope.

Lemma three_inv (m : list (list b64)) : matrix3 m -> exists a b p c d q x y s, m = [[a; b; p]; [c; d; q]; [x; y; s]] /\ List.Forall fin [a; b; p; c; d; q; x; y; s].
Proof.
  intros [[L F] H]. destruct m as [|r0 [|r1 [|r2 [|]]]]; try (simpl in L; lia).
  repeat match goal with K : List.Forall _ (_ :: _) |- _ => inversion K; clear K; subst end.
  destruct r0 as [|a [|b [|p [|]]]]; try (simpl in *; lia). destruct r1 as [|c [|d [|q [|]]]]; try (simpl in *; lia). destruct r2 as [|x [|y [|s [|]]]]; try (simpl in *; lia).
  repeat match goal with K : List.Forall _ (_ :: _) |- _ => inversion K; clear K; subst end.
  do 9 eexists. split; [reflexivity|]. repeat (constructor; [assumption|]). constructor.
Qed.
Ltac three3 H a b p c d q x y s := let K := fresh in
  destruct (three_inv _ H) as (a & b & p & c & d & q & x & y & s & -> & K);
  repeat match type of K with List.Forall _ (?h :: _) => let F := fresh "F" h in let K' := fresh in pose proof (Forall_inv K) as F; pose proof (Forall_inv_tail K) as K'; clear K; rename K' into K end; clear K.
Lemma one_val : fin (bofZ 1) /\ val (bofZ 1) = 1.
Proof. exact (val_int 1 ltac:(lia)). Qed.
Lemma zero_val : fin (bofZ 0) /\ val (bofZ 0) = 0.
Proof. exact (val_int 0 ltac:(lia)). Qed.
Lemma row_near (x y a c m : b64) : fin x -> fin y -> fin a -> fin c -> fin m ->
  let S := Rabs (val x) * Rabs (val a) + Rabs (val y) * Rabs (val c) + Rabs (val m) in S <= 2 ^ 1020 ->
  fin (dot3 x a y c (bofZ 1) m) /\ Rabs (val (dot3 x a y c (bofZ 1) m) - (val x * val a + val y * val c + val m)) <= 4 * ulp1 * S + 8 * tiny.
Proof.
  intros Fx Fy Fa Fc Fm S L. destruct one_val as [F1 V1]. assert (S0 : 0 <= S).
  { unfold S. pose proof (Rmult_le_pos _ _ (Rabs_pos (val x)) (Rabs_pos (val a))). pose proof (Rmult_le_pos _ _ (Rabs_pos (val y)) (Rabs_pos (val c))). pose proof (Rabs_pos (val m)). lra. }
  destruct (dot3_near x a y c (bofZ 1) m) as [F E]; auto; rewrite ?V1, ?Rabs_R1, ?Rmult_1_l in *; auto. pose proof (top_2_1020 _ L). unfold S in *. lra.
Qed.
Lemma ndiv_zero (x y : b64) : fin y -> val y = 0 -> ndiv x y = Err ZeroDivisionError.
Proof. intros F V. unfold ndiv. destruct zero_val as [F0 V0]. change (nofZ 0) with (bofZ 0). rewrite val_neqb by (auto; congruence). reflexivity. Qed.
Lemma ndiv_some (x y : b64) : fin y -> val y <> 0 -> ndiv x y = Ok (nquot x y).
Proof. intros F V. unfold ndiv. destruct zero_val as [F0 V0]. change (nofZ 0) with (bofZ 0). rewrite neqb_val by (auto; congruence). reflexivity. Qed.

(** ** Perspective *)
Lemma quot_near (X W x w Ex Ew : R) : Rabs (x - X) <= Ex -> Rabs (w - W) <= Ew -> 2 * Ew <= Rabs W -> 0 < Rabs W -> Rabs (x / w - X / W) <= 2 * (Ex + Rabs (X / W) * Ew) / Rabs W /\ w <> 0.
Proof.
  intros A B C P. assert (Pw : Rabs W / 2 <= Rabs w). { pose proof (Rabs_triang_inv W (W - w)) as T. replace (W - (W - w)) with w in T by ring. rewrite (Rabs_minus_sym W w) in T. lra. }
  assert (W0 : W <> 0) by (intros ->; rewrite Rabs_R0 in P; lra). assert (w0 : w <> 0) by (intros ->; rewrite Rabs_R0 in Pw; lra). split; [|exact w0].
  replace (x / w - X / W) with ((x - X - X / W * (w - W)) * / w) by (field; auto). rewrite Rabs_mult, Rabs_inv.
  assert (N : Rabs (x - X - X / W * (w - W)) <= Ex + Rabs (X / W) * Ew).
  { eapply Rle_trans; [apply Rabs_triang|]. rewrite Rabs_Ropp, Rabs_mult. apply Rplus_le_compat; [exact A|]. apply Rmult_le_compat_l; [apply Rabs_pos|exact B]. }
  assert (I : / Rabs w <= 2 / Rabs W).
  { replace (2 / Rabs W) with (/ (Rabs W / 2)) by (field; lra). apply Rinv_le_contravar; lra. }
  assert (N0 : 0 <= Ex + Rabs (X / W) * Ew) by (eapply Rle_trans; [apply Rabs_pos|exact N]).
  eapply Rle_trans; [apply Rmult_le_compat; [apply Rabs_pos|left; apply Rinv_0_lt_compat; lra|exact N|exact I]|]. right. field. lra.
Qed.
Lemma size_pos m j p : 0 <= size3 m j p.
Proof.
  unfold size3. pose proof (Rmult_le_pos _ _ (Rabs_pos (fst p)) (Rabs_pos (val (dentry m 0 j)))). pose proof (Rmult_le_pos _ _ (Rabs_pos (snd p)) (Rabs_pos (val (dentry m 1 j)))).
  pose proof (Rabs_pos (val (dentry m 2 j))). lra.
Qed.
Lemma coord_size m j p : Rabs (coord3 m j p) <= size3 m j p.
Proof.
  unfold coord3, size3. eapply Rle_trans; [apply Rabs_triang|]. apply Rplus_le_compat_r. eapply Rle_trans; [apply Rabs_triang|]. rewrite !Rabs_mult. lra.
Qed.
Lemma div_step (X W Ex Ew : R) (x w : b64) : fin x -> fin w -> Rabs (val x - X) <= Ex -> Rabs (val w - W) <= Ew -> 2 * Ew <= Rabs W -> 0 < Rabs W ->
  Rabs (X / W) <= 2 ^ 1000 -> Ex <= 2 ^ 1000 * Rabs W ->
  exists r, ndiv x w = Ok r /\ fin r /\ Rabs (val r - X / W) <= 3 * (Ex + Rabs (X / W) * Ew) / Rabs W + ulp1 * Rabs (X / W) + tiny.
Proof.
  intros Fx Fw A B C P Q1 Q2. destruct (quot_near X W (val x) (val w) Ex Ew A B C P) as [N w0].
  set (D := (Ex + Rabs (X / W) * Ew) / Rabs W) in *. replace (2 * (Ex + Rabs (X / W) * Ew) / Rabs W) with (2 * D) in N by (unfold D; field; lra).
  assert (D0 : 0 <= D) by (pose proof (Rabs_pos (val x / val w - X / W)); lra).
  assert (D1 : D <= 2 ^ 1000 + 2 ^ 1000).
  { unfold D. apply Rmult_le_reg_r with (Rabs W); [exact P|]. unfold Rdiv. rewrite Rmult_assoc, Rinv_l, Rmult_1_r by lra.
    assert (Ew0 : 0 <= Ew) by (pose proof (Rabs_pos (val w - W)); lra).
    assert (Rabs (X / W) * Ew <= 2 ^ 1000 * Rabs W) by (apply Rmult_le_compat; try apply Rabs_pos; lra). lra. }
  assert (S : Rabs (val x / val w) <= Rabs (X / W) + 2 * D).
  { replace (val x / val w) with (X / W + (val x / val w - X / W)) by ring. eapply Rle_trans; [apply Rabs_triang|]. lra. }
  assert (L : Rabs (fl (val x / val w)) < ProofDouble.top).
  { eapply Rle_lt_trans; [apply (fl_pow _ 1003); [lia|]|apply below_top; lia]. change (2 ^ 1003) with (2 * (2 * (2 * 2 ^ 1000))). lra. }
  destruct (div_fl x w Fx w0 L) as [F V]. exists (nquot x w). split; [apply ndiv_some; auto|]. split; [exact F|]. rewrite V.
  pose proof (fl_err (val x / val w)) as E. pose proof ulp1_pos. pose proof ulp1_small.
  assert (E' : ulp1 * Rabs (val x / val w) <= ulp1 * Rabs (X / W) + D).
  { eapply Rle_trans; [apply Rmult_le_compat_l; [lra|exact S]|]. assert (ulp1 * (2 * D) <= / 1000000 * (2 * D)) by (apply Rmult_le_compat_r; lra). lra. }
  replace (3 * (Ex + Rabs (X / W) * Ew) / Rabs W) with (3 * D) by (unfold D; field; lra).
  replace (fl (val x / val w) - X / W) with ((fl (val x / val w) - val x / val w) + (val x / val w - X / W)) by ring.
  eapply Rle_trans; [apply Rabs_triang|]. lra.
Qed.
Lemma slip_pos m j p : 8 * tiny <= slip3 m j p.
Proof. unfold slip3. pose proof ulp1_pos. pose proof (size_pos m j p). pose proof (Rmult_le_pos _ _ (Rlt_le _ _ ulp1_pos) (size_pos m j p)). lra. Qed.
Theorem perspective_near (m : list (list b64)) (p : point b64) : matrix3 m -> fin (fst p) -> fin (snd p) ->
  let w := coord3 m 2 (vpt p) in
  (forall j, (j < 3)%nat -> size3 m j (vpt p) <= 2 ^ 1000) -> 2 * slip3 m 2 (vpt p) <= Rabs w ->
  size3 m 0 (vpt p) <= 2 ^ 999 * Rabs w -> size3 m 1 (vpt p) <= 2 ^ 999 * Rabs w ->
  exists r, applyToPoint m p = Ok r /\ fin (fst r) /\ fin (snd r) /\
    (let z := coord3 m 0 (vpt p) / w in Rabs (val (fst r) - z) <= 3 * (slip3 m 0 (vpt p) + Rabs z * slip3 m 2 (vpt p)) / Rabs w + ulp1 * Rabs z + tiny) /\
    (let z := coord3 m 1 (vpt p) / w in Rabs (val (snd r) - z) <= 3 * (slip3 m 1 (vpt p) + Rabs z * slip3 m 2 (vpt p)) / Rabs w + ulp1 * Rabs z + tiny).
Proof.
  intros T F1 F2 w S C Q0 Q1. pose proof (S 0%nat ltac:(lia)) as S0. pose proof (S 1%nat ltac:(lia)) as S1. pose proof (S 2%nat ltac:(lia)) as S2. clear S.
  pose proof tiny_pos as Pt. pose proof (slip_pos m 2 (vpt p)) as P2. assert (P : 0 < Rabs w) by lra.
  assert (K0 : Rabs (coord3 m 0 (vpt p) / w) <= 2 ^ 1000 /\ Rabs (coord3 m 1 (vpt p) / w) <= 2 ^ 1000).
  { assert (K : forall X, Rabs X <= 2 ^ 999 * Rabs w -> Rabs (X / w) <= 2 ^ 1000).
    { intros X HX. unfold Rdiv. rewrite Rabs_mult, Rabs_inv. apply Rmult_le_reg_r with (Rabs w); [exact P|]. rewrite Rmult_assoc, Rinv_l, Rmult_1_r by lra.
      change (2 ^ 1000) with (2 * 2 ^ 999). pose proof (pow_lt 2 999 ltac:(lra)). pose proof (Rmult_lt_0_compat _ _ H P). lra. }
    split; apply K; (eapply Rle_trans; [apply coord_size|assumption]). }
  assert (KE : forall j, size3 m j (vpt p) <= 2 ^ 999 * Rabs w -> slip3 m j (vpt p) <= 2 ^ 1000 * Rabs w).
  { intros j H. unfold slip3. change (2 ^ 1000) with (2 * 2 ^ 999). pose proof ulp1_pos. pose proof ulp1_small. pose proof (size_pos m j (vpt p)) as Sj.
    assert (4 * ulp1 * size3 m j (vpt p) <= 1 * size3 m j (vpt p)) by (apply Rmult_le_compat_r; lra).
    assert (1 * Rabs w <= 2 ^ 999 * Rabs w) by (apply Rmult_le_compat_r; [lra|apply pow_R1_Rle; lra]). lra. }
  pose proof (KE 0%nat Q0) as E0. pose proof (KE 1%nat Q1) as E1. clear KE.
  assert (U : forall x, x <= 2 ^ 1000 -> x <= 2 ^ 1020) by (intros x H; eapply Rle_trans; [exact H|apply Rle_pow; [lra|lia]]).
  three3 T a b pp c d q mm n s. destruct p as [x y]. unfold vpt, coord3, size3, slip3, size3, dentry in *. cbn [fst snd nth] in *. rewrite apply_dot3.
  destruct (row_near x y a c mm F1 F2 Fa Fc Fmm (U _ S0)) as [G0 N0]. destruct (row_near x y b d n F1 F2 Fb Fd Fn (U _ S1)) as [G1 N1]. destruct (row_near x y pp q s F1 F2 Fpp Fq Fs (U _ S2)) as [G2 N2].
  destruct (div_step _ _ _ _ _ _ G0 G2 N0 N2 C P (proj1 K0) E0) as (r0 & -> & R0 & V0). destruct (div_step _ _ _ _ _ _ G1 G2 N1 N2 C P (proj2 K0) E1) as (r1 & -> & R1 & V1).
  cbn [bind]. exists (r0, r1). cbn [fst snd]. auto.
Qed.
Theorem perspective_raises (m : list (list b64)) (p : point b64) e : matrix3 m -> fin (fst p) -> fin (snd p) -> size3 m 2 (vpt p) <= 2 ^ 1000 ->
  applyToPoint m p = Err e -> e = ZeroDivisionError /\ Rabs (coord3 m 2 (vpt p)) <= slip3 m 2 (vpt p).
Proof.
  intros T F1 F2 S2 E. assert (U : forall x, x <= 2 ^ 1000 -> x <= 2 ^ 1020) by (intros x H; eapply Rle_trans; [exact H|apply Rle_pow; [lra|lia]]).
  three3 T a b pp c d q mm n s. destruct p as [x y]. unfold vpt, coord3, size3, slip3, size3, dentry in *. cbn [fst snd nth] in *. rewrite apply_dot3 in E.
  destruct (row_near x y pp q s F1 F2 Fpp Fq Fs (U _ S2)) as [G2 N2].
  destruct (Req_dec (val (dot3 x pp y q (bofZ 1) s)) 0) as [Z|Z].
  - rewrite (ndiv_zero _ _ G2 Z) in E. cbn [bind] in E. split; [congruence|]. rewrite Z in N2. rewrite <- Rabs_Ropp. eapply Rle_trans; [|exact N2]. right. f_equal. ring.
  - rewrite !(ndiv_some _ _ G2 Z) in E. cbn [bind] in E. discriminate.
Qed.
(** Whole numbers. *)
Lemma whole_quot (x w : b64) (X W : Z) : is_int x X -> is_int w W -> W <> 0%Z -> (Z.abs X < 2 ^ 53)%Z -> exists r, ndiv x w = Ok r /\ nearest_double (IZR X / IZR W) r.
Proof.
  intros [Fx Vx] [Fw Vw] N L. assert (W0 : val w <> 0) by (rewrite Vw; apply not_0_IZR; exact N).
  assert (S : Rabs (val x / val w) <= 2 ^ 53).
  { unfold Rdiv. rewrite Rabs_mult, Rabs_inv. assert (1 <= Rabs (val w)) by (rewrite Vw, <- abs_IZR; apply IZR_le; lia).
    assert (Rabs (val x) <= 2 ^ 53) by (rewrite Vx, <- abs_IZR; change (2 ^ 53) with (IZR 2 ^ 53); rewrite (pow_IZR 2 53); apply IZR_le; change (Z.of_nat 53) with 53%Z; lia).
    apply Rmult_le_reg_r with (Rabs (val w)); [lra|]. rewrite Rmult_assoc, Rinv_l, Rmult_1_r by lra. assert (2 ^ 53 * 1 <= 2 ^ 53 * Rabs (val w)) by (apply Rmult_le_compat_l; [apply pow_le; lra|lra]). lra. }
  destruct (div_fl x w Fx W0) as [F V]. { eapply Rle_lt_trans; [apply (fl_pow _ 53); [lia|exact S]|apply below_top; lia]. }
  exists (nquot x w). split; [apply ndiv_some; auto|]. rewrite Vx, Vw in V. apply fl_is_nearest; auto.
Qed.
Theorem perspective_whole (mx : list (list b64)) (pt : point b64) (a b p c d q m n s x y : Z) :
  int_matrix mx [[a; b; p]; [c; d; q]; [m; n; s]] -> int_pt pt (x, y) ->
  (Z.abs x * Z.abs a + Z.abs y * Z.abs c + Z.abs m < 2 ^ 53)%Z -> (Z.abs x * Z.abs b + Z.abs y * Z.abs d + Z.abs n < 2 ^ 53)%Z -> (Z.abs x * Z.abs p + Z.abs y * Z.abs q + Z.abs s < 2 ^ 53)%Z ->
  let W := (x * p + y * q + s)%Z in
  (W = 0%Z -> applyToPoint mx pt = Err ZeroDivisionError) /\
  (W <> 0%Z -> exists r, applyToPoint mx pt = Ok r /\ nearest_double (IZR (x * a + y * c + m) / IZR W) (fst r) /\ nearest_double (IZR (x * b + y * d + n) / IZR W) (snd r)).
Proof.
  unfold int_matrix, int_pt. intros H [X Y] L0 L1 L2. set (W := (x * p + y * q + s)%Z). destruct pt as [px py]; cbn [fst snd] in X, Y.
  repeat match goal with H : Forall2 _ _ (_ :: _) |- _ => inversion H; clear H; subst | H : Forall2 _ _ [] |- _ => inversion H; clear H; subst end.
  rewrite apply_dot3. pose proof (int_lit 1 ltac:(lia)) as O.
  match goal with |- context [ndiv (dot3 px ?u py ?v (bofZ 1) ?w) (dot3 px ?e py ?f (bofZ 1) ?g)] => assert (I0 : is_int (dot3 px u py v (bofZ 1) w) (x * a + y * c + 1 * m)%Z) by (apply dot3_int; auto; lia);
    assert (I2 : is_int (dot3 px e py f (bofZ 1) g) (x * p + y * q + 1 * s)%Z) by (apply dot3_int; auto; lia) end.
  match goal with |- context [let* ry := ndiv (dot3 px ?u py ?v (bofZ 1) ?w) _ in _] => assert (I1 : is_int (dot3 px u py v (bofZ 1) w) (x * b + y * d + 1 * n)%Z) by (apply dot3_int; auto; lia) end.
  rewrite Z.mul_1_l in I0, I1, I2. fold W in I2. split; intros N.
  - rewrite N in I2. destruct I2 as [G V]. rewrite (ndiv_zero _ _ G V). reflexivity.
  - assert (B0 : (Z.abs (x * a + y * c + m) < 2 ^ 53)%Z) by (rewrite <- !Z.abs_mul in L0; lia). assert (B1 : (Z.abs (x * b + y * d + n) < 2 ^ 53)%Z) by (rewrite <- !Z.abs_mul in L1; lia).
    destruct (whole_quot _ _ _ _ I0 I2 N B0) as (r0 & -> & R0). destruct (whole_quot _ _ _ _ I1 I2 N B1) as (r1 & -> & R1). cbn [bind]. exists (r0, r1). auto.
Qed.

(** ** Composition *)
Lemma times_le (a b A B : R) : Rabs a <= A -> Rabs b <= B -> Rabs a * Rabs b <= A * B.
Proof. intros H1 H2. apply Rmult_le_compat; auto using Rabs_pos. Qed.
Lemma sum3 (x y A B C M K : R) : 1 <= M -> Rabs x <= M -> Rabs y <= M -> Rabs A <= K -> Rabs B <= K -> Rabs C <= K ->
  Rabs x * Rabs A + Rabs y * Rabs B + Rabs C <= 3 * (M * K).
Proof.
  intros M1 X Y HA HB HC. pose proof (times_le _ _ _ _ X HA). pose proof (times_le _ _ _ _ Y HB). assert (1 * K <= M * K) by (apply Rmult_le_compat_r; [pose proof (Rabs_pos A); lra|exact M1]). lra.
Qed.
Lemma lin3 (x y A B C : R) : Rabs (x * A + y * B + C) <= Rabs x * Rabs A + Rabs y * Rabs B + Rabs C.
Proof. eapply Rle_trans; [apply Rabs_triang|]. apply Rplus_le_compat_r. eapply Rle_trans; [apply Rabs_triang|]. rewrite !Rabs_mult. lra. Qed.
Lemma last_col (u v w c1 c2 c3 : b64) : fin u -> fin v -> fin w -> fin c1 -> fin c2 -> fin c3 -> val c1 = 0 -> val c2 = 0 -> val c3 = 1 ->
  fin (dot3 u c1 v c2 w c3) /\ val (dot3 u c1 v c2 w c3) = val w.
Proof.
  intros Fu Fv Fw F1 F2 F3 V1 V2 V3. pose proof top_big as Tb. pose proof (val_top w) as Tw.
  assert (Z1 : forall a c, fin a -> fin c -> val c = 0 -> fin (nmul a c) /\ val (nmul a c) = 0).
  { intros a c Fa Fc V. destruct (mult_fl a c Fa Fc) as [F W]; rewrite V, Rmult_0_r, fl0 in *; [rewrite Rabs_R0; lra|auto]. }
  destruct (Z1 u c1 Fu F1 V1) as [G1 W1]. destruct (Z1 v c2 Fv F2 V2) as [G2 W2].
  destruct (plus_fl _ _ G1 G2) as [G3 W3]; rewrite W1, W2, Rplus_0_r, fl0 in *; [rewrite Rabs_R0; lra|].
  destruct (mult_fl w c3 Fw F3) as [G4 W4]; rewrite V3, Rmult_1_r, fl_val in *; [exact Tw|].
  unfold dot3. destruct (plus_fl _ _ G3 G4) as [G5 W5]; rewrite W3, W4, Rplus_0_l, fl_val in *; auto.
Qed.
Lemma prod_dot3 (a b p c d q m n s a' b' p' c' d' q' m' n' s' : b64) :
  multiplyMatrixByMatrix [[a; b; p]; [c; d; q]; [m; n; s]] [[a'; b'; p']; [c'; d'; q']; [m'; n'; s']] =
  Ok [[dot3 a a' b c' p m'; dot3 a b' b d' p n'; dot3 a p' b q' p s'];
      [dot3 c a' d c' q m'; dot3 c b' d d' q n'; dot3 c p' d q' q s'];
      [dot3 m a' n c' s m'; dot3 m b' n d' s n'; dot3 m p' n q' s s']].
Proof. reflexivity. Qed.
Section Compose.
  Context (K : R) (K1 : 1 <= K) (K2 : K <= 2 ^ 300).
  Lemma K_sq : 1 <= K * K /\ K * K <= 2 ^ 600.
  Proof.
    split; [assert (1 * 1 <= K * K) by (apply Rmult_le_compat; lra); lra|]. replace (2 ^ 600) with (2 ^ 300 * 2 ^ 300) by (rewrite <- pow_add; reflexivity). apply Rmult_le_compat; lra.
  Qed.
  Lemma dot3_K (x a y c o m : b64) : fin x -> fin a -> fin y -> fin c -> fin o -> fin m -> Rabs (val x) <= K -> Rabs (val a) <= K -> Rabs (val y) <= K -> Rabs (val c) <= K -> Rabs (val o) <= K -> Rabs (val m) <= K ->
    fin (dot3 x a y c o m) /\ Rabs (val (dot3 x a y c o m) - (val x * val a + val y * val c + val o * val m)) <= 13 * ulp1 * (K * K) /\
    Rabs (val x * val a + val y * val c + val o * val m) <= 3 * (K * K).
  Proof.
    intros Fx Fa Fy Fc Fo Fm X A Y C O M. pose proof (times_le _ _ _ _ X A). pose proof (times_le _ _ _ _ Y C). pose proof (times_le _ _ _ _ O M). destruct K_sq as [Q1 Q2].
    assert (T : 2 * (Rabs (val x) * Rabs (val a) + Rabs (val y) * Rabs (val c) + Rabs (val o) * Rabs (val m)) <= ProofDouble.top).
    { pose proof (below_top 603 ltac:(lia)) as B. change (2 ^ 603) with (2 * (2 * (2 * 2 ^ 600))) in B. lra. }
    destruct (dot3_near x a y c o m Fx Fa Fy Fc Fo Fm T) as [F E]. split; [exact F|]. split.
    - eapply Rle_trans; [exact E|]. pose proof ulp1_pos as Pu. pose proof tiny_small as St. pose proof tiny_pos as Pt.
      assert (4 * ulp1 * (Rabs (val x) * Rabs (val a) + Rabs (val y) * Rabs (val c) + Rabs (val o) * Rabs (val m)) <= 4 * ulp1 * (3 * (K * K))) by (apply Rmult_le_compat_l; lra).
      assert (ulp1 * 1 <= ulp1 * (K * K)) by (apply Rmult_le_compat_l; lra). lra.
    - eapply Rle_trans; [apply Rabs_triang|]. rewrite !Rabs_mult. pose proof (Rabs_triang (val x * val a) (val y * val c)) as Tr. rewrite !Rabs_mult in Tr. lra.
  Qed.
  Theorem compose_matrix (m1 m2 : list (list b64)) : affine_d m1 -> affine_d m2 -> msized K m1 -> msized K m2 ->
    exists r, multiplyMatrixByMatrix m1 m2 = Ok r /\ affine_d r /\
      forall i j, (i < 3)%nat -> (j < 3)%nat -> Rabs (val (dentry r i j) - prod_entry 3 (vmat m1) (vmat m2) i j) <= 13 * ulp1 * (K * K) /\ Rabs (prod_entry 3 (vmat m1) (vmat m2) i j) <= 3 * (K * K).
  Proof.
    intros (T1 & A1 & A2 & A3) (T2 & B1 & B2 & B3) S1 S2.
    three3 T1 a b p c d q m n s. three3 T2 a' b' p' c' d' q' m' n' s'. unfold dentry in A1, A2, A3, B1, B2, B3. cbn [nth] in *.
    unfold msized in *. repeat match goal with H : List.Forall _ (_ :: _) |- _ => inversion H; clear H; subst end.
    repeat match goal with H : fin ?x /\ Rabs (val ?x) <= K |- _ => destruct H as [_ H] end.
    rewrite prod_dot3. eexists. split; [reflexivity|].
    destruct (last_col a b p p' q' s') as [L1 M1]; auto. destruct (last_col c d q p' q' s') as [L2 M2]; auto. destruct (last_col m n s p' q' s') as [L3 M3]; auto.
    destruct (dot3_K a a' b c' p m') as (G1 & E1); auto. destruct (dot3_K a b' b d' p n') as (G2 & E2); auto.
    destruct (dot3_K c a' d c' q m') as (G3 & E3); auto. destruct (dot3_K c b' d d' q n') as (G4 & E4); auto.
    destruct (dot3_K m a' n c' s m') as (G5 & E5); auto. destruct (dot3_K m b' n d' s n') as (G6 & E6); auto.
    destruct (dot3_K a p' b q' p s') as (_ & E7); auto. destruct (dot3_K c p' d q' q s') as (_ & E8); auto. destruct (dot3_K m p' n q' s s') as (_ & E9); auto.
    split.
    - split; [split|].
      + split; [reflexivity|repeat constructor].
      + repeat (constructor; [repeat (constructor; [assumption|]); constructor|]). constructor.
      + unfold dentry. cbn [nth]. rewrite M1, M2, M3. auto.
    - assert (PE : forall i j, (i < 3)%nat -> prod_entry 3 (vmat [[a; b; p]; [c; d; q]; [m; n; s]]) (vmat [[a'; b'; p']; [c'; d'; q']; [m'; n'; s']]) i j =
        entry (vmat [[a; b; p]; [c; d; q]; [m; n; s]]) i 0 * entry (vmat [[a'; b'; p']; [c'; d'; q']; [m'; n'; s']]) 0 j + entry (vmat [[a; b; p]; [c; d; q]; [m; n; s]]) i 1 * entry (vmat [[a'; b'; p']; [c'; d'; q']; [m'; n'; s']]) 1 j
        + entry (vmat [[a; b; p]; [c; d; q]; [m; n; s]]) i 2 * entry (vmat [[a'; b'; p']; [c'; d'; q']; [m'; n'; s']]) 2 j).
      { intros i j Hi. unfold prod_entry. cbn [rsum]. ring. }
      intros i j Hi Hj. rewrite PE by exact Hi. rewrite !entry_vmat. unfold dentry.
      destruct i as [|[|[|]]]; try lia; destruct j as [|[|[|]]]; try lia; cbn [nth]; assumption.
  Qed.
  Context (M : R) (M1 : 1 <= M) (M2 : M <= 2 ^ 300).
  Lemma image_near (m : list (list b64)) (p : point b64) (L : R) : affine_d m -> 0 <= L -> (forall i j, (i < 3)%nat -> (j < 2)%nat -> Rabs (val (dentry m i j)) <= L) -> fin (fst p) -> fin (snd p) ->
    forall H, 1 <= H -> Rabs (val (fst p)) <= H -> Rabs (val (snd p)) <= H -> H * L <= 2 ^ 1010 ->
    exists r, applyToPoint m p = Ok r /\ off (12 * ulp1 * (H * L) + 8 * tiny) r (affine_image m (vpt p)) /\
      Rabs (fst (affine_image m (vpt p))) <= 3 * (H * L) /\ Rabs (snd (affine_image m (vpt p))) <= 3 * (H * L).
  Proof.
    intros (T & A1 & A2 & A3) L0 B F1 F2 H H1 X Y HL. destruct p as [x y]. cbn [fst snd] in *.
    pose proof (B 0%nat 0%nat ltac:(lia) ltac:(lia)) as B00. pose proof (B 1%nat 0%nat ltac:(lia) ltac:(lia)) as B10. pose proof (B 2%nat 0%nat ltac:(lia) ltac:(lia)) as B20.
    pose proof (B 0%nat 1%nat ltac:(lia) ltac:(lia)) as B01. pose proof (B 1%nat 1%nat ltac:(lia) ltac:(lia)) as B11. pose proof (B 2%nat 1%nat ltac:(lia) ltac:(lia)) as B21. clear B.
    three3 T a b pp c d q mm n s. unfold affine_image, coord3, vpt, dentry in *. cbn [fst snd nth] in *.
    pose proof (sum3 _ _ _ _ _ _ _ H1 X Y B00 B10 B20) as Sx. pose proof (sum3 _ _ _ _ _ _ _ H1 X Y B01 B11 B21) as Sy.
    assert (U : 3 * (H * L) <= 2 ^ 1020) by (replace (2 ^ 1020) with (2 ^ 1010 * 1024) by (change 1020%nat with (1010 + 10)%nat; rewrite pow_add; ring); pose proof (pow_lt 2 1010 ltac:(lra)); lra).
    destruct (affine_accuracy a b c d mm n pp q s x y) as (r & Er & R1 & R2 & E1 & E2); [repeat (constructor; [assumption|]); constructor|auto|auto|auto|lra|lra|].
    pose proof ulp1_pos as Pu. exists r. split; [exact Er|].
    assert (W1 := Rmult_le_compat_l (4 * ulp1) _ _ ltac:(lra) Sx). assert (W2 := Rmult_le_compat_l (4 * ulp1) _ _ ltac:(lra) Sy).
    split; [|split; (eapply Rle_trans; [apply lin3|assumption])]. unfold off. cbn [fst snd]. repeat split; auto; lra.
  Qed.
  Lemma msized_dentry (m : list (list b64)) i j : matrix3 m -> msized K m -> (i < 3)%nat -> (j < 3)%nat -> Rabs (val (dentry m i j)) <= K.
  Proof. intros [S _] B Hi Hj. exact (proj2 (msized_entry 3 3 K m i j S B Hi Hj)). Qed.
  Theorem compose_apply (m1 m2 : list (list b64)) (p : point b64) : affine_d m1 -> affine_d m2 -> msized K m1 -> msized K m2 -> sized M p ->
    exists r q q1 q2, multiplyMatrixByMatrix m1 m2 = Ok r /\ applyToPoint r p = Ok q /\ applyToPoint m1 p = Ok q1 /\ applyToPoint m2 q1 = Ok q2 /\
      off (80 * ulp1 * (M * (K * K))) q (affine_image m2 (affine_image m1 (vpt p))) /\ off (80 * ulp1 * (M * (K * K))) q2 (affine_image m2 (affine_image m1 (vpt p))).
  Proof.
    intros A1 A2 S1 S2 (F1 & F2 & X & Y). destruct (compose_matrix m1 m2 A1 A2 S1 S2) as (r & Er & Ar & Hr). destruct K_sq as [Q1 Q2].
    pose proof ulp1_pos as Pu. pose proof ulp1_small as Su. pose proof tiny_pos as Pt. pose proof tiny_small as St.
    assert (MK1 : 1 <= M * (K * K)) by (assert (1 * 1 <= M * (K * K)) by (apply Rmult_le_compat; lra); lra).
    assert (MK2 : M * (K * K) <= 2 ^ 900) by (replace (2 ^ 900) with (2 ^ 300 * 2 ^ 600) by (rewrite <- pow_add; reflexivity); apply Rmult_le_compat; lra).
    assert (MKK : M * K <= M * (K * K)) by (apply Rmult_le_compat_l; [lra|]; assert (K * 1 <= K * K) by (apply Rmult_le_compat_l; lra); lra).
    assert (u1 : ulp1 * 1 <= ulp1 * (M * (K * K))) by (apply Rmult_le_compat_l; lra).
    assert (P1010 : 1000 * 2 ^ 900 <= 2 ^ 1010) by (change 1010%nat with (900 + 110)%nat; rewrite pow_add; rewrite Rmult_comm; apply Rmult_le_compat_l; [apply pow_le; lra|];
      apply Rle_trans with (2 ^ 10); [lra|apply Rle_pow; [lra|lia]]).
    (* the product first *)
    assert (B : forall i j, (i < 3)%nat -> (j < 2)%nat -> Rabs (val (dentry r i j)) <= 301 / 100 * (K * K)).
    { intros i j Hi Hj. destruct (Hr i j Hi ltac:(lia)) as [E1 E2]. replace (val (dentry r i j)) with ((val (dentry r i j) - prod_entry 3 (vmat m1) (vmat m2) i j) + prod_entry 3 (vmat m1) (vmat m2) i j) by ring.
      eapply Rle_trans; [apply Rabs_triang|]. assert (ulp1 * (K * K) <= / 1000000 * (K * K)) by (apply Rmult_le_compat_r; lra). lra. }
    destruct (image_near r p (301 / 100 * (K * K)) Ar ltac:(lra) B F1 F2 M M1 X Y ltac:(replace (M * (301 / 100 * (K * K))) with (301 / 100 * (M * (K * K))) by ring; lra)) as (q & Eq & (G1 & G2 & N1 & N2) & _).
    replace (M * (301 / 100 * (K * K))) with (301 / 100 * (M * (K * K))) in N1, N2 by ring.
    (* one after the other *)
    destruct (image_near m1 p K A1 ltac:(lra) ltac:(intros; apply msized_dentry; [apply A1|auto|lia|lia]) F1 F2 M M1 X Y ltac:(lra)) as (q1 & Eq1 & (G3 & G4 & N3 & N4) & Z1 & Z2).
    assert (MK3 : 1 <= M * K) by (assert (1 * 1 <= M * K) by (apply Rmult_le_compat; lra); lra).
    assert (uMK : ulp1 * (M * K) <= / 1000000 * (M * K)) by (apply Rmult_le_compat_r; lra).
    assert (H1 : forall v w, Rabs (v - w) <= 12 * ulp1 * (M * K) + 8 * tiny -> Rabs w <= 3 * (M * K) -> Rabs v <= 301 / 100 * (M * K)).
    { intros v w H H'. replace v with ((v - w) + w) by ring. eapply Rle_trans; [apply Rabs_triang|]. lra. }
    pose proof (H1 _ _ N3 Z1) as V1. pose proof (H1 _ _ N4 Z2) as V2.
    replace (M * (K * K)) with (M * K * K) in * by ring.
    destruct (image_near m2 q1 K A2 ltac:(lra) ltac:(intros; apply msized_dentry; [apply A2|auto|lia|lia]) G3 G4 (301 / 100 * (M * K)) ltac:(lra) V1 V2 ltac:(replace (301 / 100 * (M * K) * K) with (301 / 100 * (M * K * K)) by ring; lra))
      as (q2 & Eq2 & (G5 & G6 & N5 & N6) & _). replace (301 / 100 * (M * K) * K) with (301 / 100 * (M * K * K)) in N5, N6 by ring.
    exists r, q, q1, q2. repeat (split; [assumption|]).
    assert (Ent : forall i j, (i < 3)%nat -> (j < 3)%nat -> prod_entry 3 (vmat m1) (vmat m2) i j = val (dentry m1 i 0) * val (dentry m2 0 j) + val (dentry m1 i 1) * val (dentry m2 1 j) + val (dentry m1 i 2) * val (dentry m2 2 j)).
    { intros i j _ _. unfold prod_entry. cbn [rsum]. rewrite !entry_vmat. ring. }
    assert (Pj : forall j, (j < 2)%nat -> coord3 m2 j (affine_image m1 (vpt p)) = val (fst p) * prod_entry 3 (vmat m1) (vmat m2) 0 j + val (snd p) * prod_entry 3 (vmat m1) (vmat m2) 1 j + prod_entry 3 (vmat m1) (vmat m2) 2 j).
    { intros j Hj. rewrite !Ent by lia. destruct A1 as (_ & C1 & C2 & C3). unfold affine_image, coord3, vpt. cbn [fst snd]. rewrite C1, C2, C3. ring. }
    assert (D1 : forall j, (j < 2)%nat -> Rabs (coord3 r j (vpt p) - coord3 m2 j (affine_image m1 (vpt p))) <= 39 * ulp1 * (M * K * K)).
    { intros j Hj. rewrite Pj by exact Hj. unfold coord3, vpt. cbn [fst snd].
      match goal with |- Rabs (?x * ?a + ?y * ?b + ?c - (?x * ?a' + ?y * ?b' + ?c')) <= _ => replace (x * a + y * b + c - (x * a' + y * b' + c')) with (x * (a - a') + y * (b - b') + (c - c')) by ring end.
      eapply Rle_trans; [apply lin3|]. eapply Rle_trans; [apply (sum3 _ _ _ _ _ M (13 * ulp1 * (K * K)) M1 X Y); apply Hr; lia|]. right. ring. }
    assert (D2 : forall j, (j < 2)%nat -> Rabs (coord3 m2 j (vpt q1) - coord3 m2 j (affine_image m1 (vpt p))) <= 24 * ulp1 * (M * K * K) + 16 * tiny * K).
    { intros j Hj. unfold coord3 at 1 2. unfold vpt at 1 2. cbn [fst snd].
      match goal with |- Rabs (?x * ?a + ?y * ?b + ?c - (?x' * ?a + ?y' * ?b + ?c)) <= _ => replace (x * a + y * b + c - (x' * a + y' * b + c)) with ((x - x') * a + (y - y') * b + 0) by ring end.
      eapply Rle_trans; [apply lin3|]. rewrite Rabs_R0, Rplus_0_r.
      pose proof (times_le _ _ _ _ N3 (msized_dentry m2 0 j (proj1 A2) S2 ltac:(lia) ltac:(lia))) as W1. pose proof (times_le _ _ _ _ N4 (msized_dentry m2 1 j (proj1 A2) S2 ltac:(lia) ltac:(lia))) as W2.
      eapply Rle_trans; [apply Rplus_le_compat; [exact W1|exact W2]|]. right. ring. }
    assert (tK : 16 * tiny * K <= ulp1 * (M * K * K)).
    { assert (16 * tiny * K <= ulp1 * K) by (apply Rmult_le_compat_r; lra). assert (ulp1 * K <= ulp1 * (M * K * K)).
      { apply Rmult_le_compat_l; [lra|]. assert (1 * K <= M * K * K) by (apply Rmult_le_compat_r; lra). lra. } lra. }
    split; (split; [assumption|split; [assumption|]]); cbn [fst snd affine_image].
    - pose proof (D1 0%nat ltac:(lia)) as Da. pose proof (D1 1%nat ltac:(lia)) as Db. cbn [fst snd affine_image] in N1, N2. split.
      + replace (val (fst q) - coord3 m2 0 (affine_image m1 (vpt p))) with ((val (fst q) - coord3 r 0 (vpt p)) + (coord3 r 0 (vpt p) - coord3 m2 0 (affine_image m1 (vpt p)))) by ring. eapply Rle_trans; [apply Rabs_triang|]. lra.
      + replace (val (snd q) - coord3 m2 1 (affine_image m1 (vpt p))) with ((val (snd q) - coord3 r 1 (vpt p)) + (coord3 r 1 (vpt p) - coord3 m2 1 (affine_image m1 (vpt p)))) by ring. eapply Rle_trans; [apply Rabs_triang|]. lra.
    - pose proof (D2 0%nat ltac:(lia)) as Da. pose proof (D2 1%nat ltac:(lia)) as Db. cbn [fst snd affine_image] in N5, N6. split.
      + replace (val (fst q2) - coord3 m2 0 (affine_image m1 (vpt p))) with ((val (fst q2) - coord3 m2 0 (vpt q1)) + (coord3 m2 0 (vpt q1) - coord3 m2 0 (affine_image m1 (vpt p)))) by ring. eapply Rle_trans; [apply Rabs_triang|]. lra.
      + replace (val (snd q2) - coord3 m2 1 (affine_image m1 (vpt p))) with ((val (snd q2) - coord3 m2 1 (vpt q1)) + (coord3 m2 1 (vpt q1) - coord3 m2 1 (affine_image m1 (vpt p)))) by ring. eapply Rle_trans; [apply Rabs_triang|]. lra.
  Qed.
End Compose.

(** ** Moves computed exactly, or with one rounding *)
Lemma diag_coord (x a y z m : b64) : fin x -> fin a -> fin y -> fin z -> fin m -> val z = 0 ->
  Rabs (fl (val x * val a)) < ProofDouble.top -> Rabs (fl (fl (val x * val a) + val m)) < ProofDouble.top ->
  (fin (dot3 x a y z (bofZ 1) m) /\ val (dot3 x a y z (bofZ 1) m) = fl (fl (val x * val a) + val m)) /\
  (fin (dot3 y z x a (bofZ 1) m) /\ val (dot3 y z x a (bofZ 1) m) = fl (fl (val x * val a) + val m)).
Proof.
  intros Fx Fa Fy Fz Fm Vz B1 B2. pose proof top_big as Tb. destruct one_val as [F1 V1]. pose proof (val_top m) as Tm.
  destruct (mult_fl x a Fx Fa B1) as [G1 W1]. destruct (mult_fl y z Fy Fz) as [G2 W2]; rewrite Vz, Rmult_0_r, fl0 in *; [rewrite Rabs_R0; lra|].
  destruct (mult_fl (bofZ 1) m F1 Fm) as [G3 W3]; rewrite V1, Rmult_1_l, fl_val in *; [exact Tm|].
  assert (ff : fl (fl (val x * val a)) = fl (val x * val a)) by (rewrite <- W1; apply fl_val).
  unfold dot3. split.
  - destruct (plus_fl _ _ G1 G2) as [G4 W4]; rewrite W1, W2, Rplus_0_r, ff in *; [exact B1|]. destruct (plus_fl _ _ G4 G3) as [G5 W5]; rewrite W4, W3 in *; auto.
  - destruct (plus_fl _ _ G2 G1) as [G4 W4]; rewrite W1, W2, Rplus_0_l, ff in *; [exact B1|]. destruct (plus_fl _ _ G4 G3) as [G5 W5]; rewrite W4, W3 in *; auto.
Qed.
Lemma diag_apply (a d m n x y : b64) : fin a -> fin d -> fin m -> fin n -> fin x -> fin y ->
  Rabs (fl (val x * val a)) < ProofDouble.top -> Rabs (fl (fl (val x * val a) + val m)) < ProofDouble.top ->
  Rabs (fl (val y * val d)) < ProofDouble.top -> Rabs (fl (fl (val y * val d) + val n)) < ProofDouble.top ->
  exists r, applyToPoint [[a; bofZ 0; bofZ 0]; [bofZ 0; d; bofZ 0]; [m; n; bofZ 1]] (x, y) = Ok r /\ fin (fst r) /\ fin (snd r) /\
    val (fst r) = fl (fl (val x * val a) + val m) /\ val (snd r) = fl (fl (val y * val d) + val n).
Proof.
  intros Fa Fd Fm Fn Fx Fy B1 B2 B3 B4. destruct zero_val as [F0 V0]. destruct one_val as [F1 V1].
  destruct (diag_coord x a y (bofZ 0) m Fx Fa Fy F0 Fm V0 B1 B2) as [[G1 W1] _]. destruct (diag_coord y d x (bofZ 0) n Fy Fd Fx F0 Fn V0 B3 B4) as [_ [G2 W2]].
  destruct (affine_w x y (bofZ 0) (bofZ 0) (bofZ 1) Fx Fy F0 F0 F1 V0 V0 V1) as [G3 W3].
  rewrite apply_dot3. destruct (div_one _ _ G1 G3 W3) as (u & E1 & H1 & K1). destruct (div_one _ _ G2 G3 W3) as (v & E2 & H2 & K2).
  rewrite E1. cbn [bind]. rewrite E2. cbn [bind]. exists (u, v). cbn [fst snd]. rewrite K1, K2. auto.
Qed.
Theorem identity_exact (p : point b64) : fin (fst p) -> fin (snd p) ->
  exists r, applyToPoint (_identityMatrix (T := b64)) p = Ok r /\ fin (fst r) /\ fin (snd r) /\ vpt r = vpt p.
Proof.
  destruct p as [x y]. cbn [fst snd]. intros Fx Fy. destruct zero_val as [F0 V0]. destruct one_val as [F1 V1]. pose proof (val_top x). pose proof (val_top y).
  destruct (diag_apply (bofZ 1) (bofZ 1) (bofZ 0) (bofZ 0) x y) as (r & E & G1 & G2 & W1 & W2); auto; try (rewrite V1, ?V0, Rmult_1_r, ?fl_val, ?Rplus_0_r, ?fl_val; assumption).
  exists r. split; [exact E|]. split; [exact G1|]. split; [exact G2|]. unfold vpt. rewrite W1, W2, V0, V1, !Rmult_1_r, !fl_val, !Rplus_0_r, !fl_val. reflexivity.
Qed.
Lemma sgn_fl (x : b64) : fl (- val x) = - val x.
Proof. assert (E : val (nopp x) = - val x) by apply B2R_Bopp. rewrite <- E. apply fl_val. Qed.
Lemma mirror_exact1 (xa ya : bool) (p : point b64) : fin (fst p) -> fin (snd p) ->
  exists m r, mirror (T := b64) xa ya = Ok m /\ applyToPoint m p = Ok r /\ fin (fst r) /\ fin (snd r) /\
    vpt r = ((if ya then - val (fst p) else val (fst p)), (if xa then - val (snd p) else val (snd p))).
Proof.
  destruct p as [x y]. cbn [fst snd]. intros Fx Fy. destruct zero_val as [F0 V0]. destruct (val_int (-1) ltac:(lia)) as [Fm Vm]. destruct one_val as [F1 V1].
  assert (K : forall (c : bool) (z : b64), fin z -> fin (if c then bofZ (-1) else bofZ 1) /\ fl (val z * val (if c then bofZ (-1) else bofZ 1)) = (if c then - val z else val z) /\
     Rabs (if c then - val z else val z) < ProofDouble.top /\ fl (if c then - val z else val z) = (if c then - val z else val z)).
  { intros c z Fz. pose proof (val_top z). destruct c.
    - rewrite Vm. replace (val z * -1) with (- val z) by ring. rewrite sgn_fl, Rabs_Ropp. auto.
    - rewrite V1, Rmult_1_r, fl_val. auto. }
  destruct (K ya x Fx) as (A1 & A2 & A3 & A4). destruct (K xa y Fy) as (B1 & B2 & B3 & B4).
  destruct (diag_apply (if ya then bofZ (-1) else bofZ 1) (if xa then bofZ (-1) else bofZ 1) (bofZ 0) (bofZ 0) x y) as (r & E & G1 & G2 & W1 & W2); auto;
    rewrite ?A2, ?B2, ?V0, ?Rplus_0_r, ?A4, ?B4 in *; try assumption.
  eexists _, r. split; [reflexivity|]. split; [exact E|]. split; [exact G1|]. split; [exact G2|]. unfold vpt. rewrite W1, W2. reflexivity.
Qed.
Theorem mirror_exact (xa ya : bool) (p : point b64) : fin (fst p) -> fin (snd p) ->
  exists m r r', mirror (T := b64) xa ya = Ok m /\ applyToPoint m p = Ok r /\ applyToPoint m r = Ok r' /\ fin (fst r) /\ fin (snd r) /\
    vpt r = ((if ya then - val (fst p) else val (fst p)), (if xa then - val (snd p) else val (snd p))) /\ vpt r' = vpt p.
Proof.
  intros Fx Fy. destruct (mirror_exact1 xa ya p Fx Fy) as (m & r & Em & Er & G1 & G2 & V). destruct (mirror_exact1 xa ya r G1 G2) as (m' & r' & Em' & Er' & _ & _ & V').
  assert (m' = m) by congruence. subst m'. exists m, r, r'. repeat (split; [assumption|]). rewrite V'. unfold vpt in *. injection V as V1 V2. rewrite V1, V2. destruct ya, xa; f_equal; ring.
Qed.
Theorem scale_rounded (sx sy : b64) (p : point b64) : fin sx -> fin sy -> fin (fst p) -> fin (snd p) ->
  Rabs (val (fst p) * val sx) <= 2 ^ 1023 -> Rabs (val (snd p) * val sy) <= 2 ^ 1023 ->
  exists m r, scale sx sy = Ok m /\ applyToPoint m p = Ok r /\ nearest_double (val (fst p) * val sx) (fst r) /\ nearest_double (val (snd p) * val sy) (snd r).
Proof.
  destruct p as [x y]. cbn [fst snd]. intros Fs Ft Fx Fy B1 B2. destruct zero_val as [F0 V0].
  apply fl_pow in B1; [|lia]. apply fl_pow in B2; [|lia]. pose proof (below_top 1023 ltac:(lia)) as T.
  assert (P : forall u v : b64, fin u -> fin v -> Rabs (fl (val u * val v)) <= 2 ^ 1023 -> fl (fl (val u * val v)) = fl (val u * val v)).
  { intros u v Fu Fv B. destruct (mult_fl u v Fu Fv) as [_ W]; [lra|]. rewrite <- W. apply fl_val. }
  pose proof (P _ _ Fx Fs B1) as P1. pose proof (P _ _ Fy Ft B2) as P2.
  destruct (diag_apply sx sy (bofZ 0) (bofZ 0) x y) as (r & E & G1 & G2 & W1 & W2); auto; rewrite ?V0, ?Rplus_0_r, ?P1, ?P2 in *; try lra.
  eexists _, r. split; [reflexivity|]. split; [exact E|]. split; apply fl_is_nearest; auto.
Qed.
Theorem translate_rounded (f t p : point b64) : sized (2 ^ 1020) f -> sized (2 ^ 1020) t -> sized (2 ^ 1020) p ->
  exists m r dx dy, translate f t = Ok m /\ applyToPoint m p = Ok r /\
    nearest_double (val (fst t) - val (fst f)) dx /\ nearest_double (val (snd t) - val (snd f)) dy /\
    nearest_double (val (fst p) + val dx) (fst r) /\ nearest_double (val (snd p) + val dy) (snd r).
Proof.
  destruct f as [fx fy], t as [tx ty], p as [x y]. intros (Ff1 & Ff2 & A1 & A2) (Ft1 & Ft2 & A3 & A4) (Fx & Fy & A5 & A6). cbn [fst snd] in *. destruct one_val as [F1 V1].
  pose proof (below_top 1021 ltac:(lia)) as T1. pose proof (below_top 1022 ltac:(lia)) as T2. pose proof (pow_lt 2 1020 ltac:(lra)) as P0.
  assert (D : forall t f : b64, fin t -> fin f -> Rabs (val t) <= 2 ^ 1020 -> Rabs (val f) <= 2 ^ 1020 -> fin (nsub t f) /\ val (nsub t f) = fl (val t - val f) /\ Rabs (val (nsub t f)) <= 2 ^ 1021).
  { intros t f Ft Ff Bt Bf. assert (B : Rabs (fl (val t - val f)) <= 2 ^ 1021) by (apply fl_pow; [lia|]; change (2 ^ 1021) with (2 * 2 ^ 1020); apply abs_diff; auto).
    destruct (minus_fl t f Ft Ff) as [F W]; [lra|]. rewrite W. auto. }
  destruct (D tx fx Ft1 Ff1 A3 A1) as (G1 & W1 & B1). destruct (D ty fy Ft2 Ff2 A4 A2) as (G2 & W2 & B2).
  assert (S : forall u v, Rabs u <= 2 ^ 1020 -> Rabs v <= 2 ^ 1021 -> Rabs (fl (u + v)) < ProofDouble.top).
  { intros u v Hu Hv. apply Rle_lt_trans with (2 ^ 1022); [|exact T2]. apply fl_pow; [lia|]. change (2 ^ 1022) with (2 * (2 * 2 ^ 1020)). change (2 ^ 1021) with (2 * 2 ^ 1020) in Hv. pose proof (Rabs_triang u v). lra. }
  pose proof (S _ _ A5 B1) as S1. pose proof (S _ _ A6 B2) as S2. pose proof (val_top x) as Tx. pose proof (val_top y) as Ty.
  destruct (diag_apply (bofZ 1) (bofZ 1) (nsub tx fx) (nsub ty fy) x y) as (r & E & G3 & G4 & W3 & W4); auto; rewrite ?V1, ?Rmult_1_r, ?fl_val in *; auto.
  eexists _, r, (nsub tx fx), (nsub ty fy). split; [reflexivity|]. split; [exact E|]. split; [apply fl_is_nearest; auto|]. split; [apply fl_is_nearest; auto|]. split; apply fl_is_nearest; auto.
Qed.
