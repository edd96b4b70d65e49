(** Crossings of a quadratic with horizontal and vertical lines in double precision. *)
From Coq Require Import List ZArith Bool Reals Lra Lia Psatz.
From Flocq Require Import Core BinarySingleNaN Relative.
From Verif Require Import Py Inst InstFloat SpecGeom SpecFit SpecBezier SpecCurve SpecDouble SpecDouble3 MTransform MPathUtil MBounds MBezUtil MBezier MContour
  ProofBezier ProofDouble ProofDouble2 ProofDouble3 ProofDouble4 ProofDouble5 ProofDouble9 ProofDouble10 ProofDouble11 ProofDouble13.
Import ListNotations.
Local Open Scope R_scope.
#[local] Existing Instance InstFloat.prec_gt_0.
#[local] Existing Instance InstFloat.prec_lt_emax.

(** ** Aligning with a horizontal or vertical line is exact *)
Section Axis.
  Context (sn cs ac : b64 -> b64) (at2 hy pw : b64 -> b64 -> b64) (r15 : b64 -> b64).
  #[local] Instance trx : TrigOps b64 := FTrig sn cs ac at2 hy pw math_pi r15.
  Hypothesis Hs : within ulp1 sn sin.
  Hypothesis Hc : within ulp1 cs cos.
  Hypothesis Ha : atan2_axes at2.
  Hypothesis Hr : rounds15 r15.

  Lemma deg_lit (x : b64) (z : Z) : nmul x (nquot (bofZ 180) math_pi) = bofZ z -> (Z.abs z < 2 ^ 53)%Z -> is_int (degrees x) z.
  Proof. intros E L. unfold degrees. cbn [tpi trx FTrig]. change (nofZ 180 : b64) with (bofZ 180). rewrite E. now apply int_lit. Qed.
  Lemma axis_degrees (x y : b64) (dx dy : Z) : is_int x dx -> is_int y dy -> (dx = 0 \/ dy = 0)%Z -> (dx <> 0 \/ dy <> 0)%Z ->
    exists k, (-2 <= k <= 2)%Z /\ is_int (degrees (at2 y x)) (90 * k) /\ zcos k = Z.sgn dx /\ zsin k = Z.sgn dy.
  Proof.
    intros [Fx Vx] [Fy Vy] A N. destruct (Ha y x Fy Fx) as (H1 & H2 & H3 & H4). rewrite Vx, Vy in *.
    destruct A as [A|A]; subst.
    - assert (C : (0 < dy \/ dy < 0)%Z) by lia. destruct C as [C|C]; [specialize (H3 eq_refl ltac:(apply IZR_lt; lia)) | specialize (H4 eq_refl ltac:(apply IZR_lt; lia))].
      + exists 1%Z. split; [lia|]. split; [|rewrite (Z.sgn_pos dy) by lia; split; reflexivity]. rewrite H3. apply deg_lit; [|lia]. apply B2SF_inj. vm_compute. reflexivity.
      + exists (-1)%Z. split; [lia|]. split; [|rewrite (Z.sgn_neg dy) by lia; split; reflexivity]. rewrite H4. apply deg_lit; [|lia]. apply B2SF_inj. vm_compute. reflexivity.
    - assert (C : (0 < dx \/ dx < 0)%Z) by lia. destruct C as [C|C]; [specialize (H1 eq_refl ltac:(apply IZR_lt; lia)) | specialize (H2 eq_refl ltac:(apply IZR_lt; lia))].
      + exists 0%Z. split; [lia|]. split; [|rewrite (Z.sgn_pos dx) by lia; split; reflexivity]. destruct H1 as [F V]. unfold degrees. cbn [tpi trx FTrig]. change (nofZ 180 : b64) with (bofZ 180). rewrite rad_deg_eq.
        destruct rad_deg_val as (Fr & _ & _). destruct (mult_fl (at2 y x) rad_deg F Fr) as [F2 V2].
        { rewrite V, Rmult_0_l, fl0, Rabs_R0. pose proof top_big. lra. }
        split; [exact F2|]. rewrite V2, V, Rmult_0_l, fl0. reflexivity.
      + destruct H2 as [H2|H2]; rewrite H2.
        * exists 2%Z. split; [lia|]. split; [|rewrite (Z.sgn_neg dx) by lia; split; reflexivity]. apply deg_lit; [|lia]. apply B2SF_inj. vm_compute. reflexivity.
        * exists (-2)%Z. split; [lia|]. split; [|rewrite (Z.sgn_neg dx) by lia; split; reflexivity]. apply deg_lit; [|lia]. apply B2SF_inj. vm_compute. reflexivity.
  Qed.

  Definition seen (s f z : Z * Z) : Z * Z :=
    let ct := Z.sgn (fst f - fst s) in let st := Z.sgn (snd f - snd s) in
    (ct * (fst z - fst s) + st * (snd z - snd s), ct * (snd z - snd s) - st * (fst z - fst s))%Z.
  Theorem axis_align (pts : list (point b64)) (zs : list (Z * Z)) (s f : point b64) (zs0 zf : Z * Z) : int_pt s zs0 -> int_pt f zf ->
    (fst zs0 = fst zf \/ snd zs0 = snd zf) -> zs0 <> zf -> Forall2 int_pt pts zs -> Forall (fun z => Z.abs (fst z) <= 2 ^ 50 /\ Z.abs (snd z) <= 2 ^ 50)%Z (zs0 :: zf :: zs) ->
    exists l, alignPoints pts [s; f] = Ok l /\ Forall2 (fun q z => int_pt q (seen zs0 zf z)) l zs.
  Proof.
    intros P Q A N PZ L. destruct zs0 as [sx sy], zf as [fx fy]. cbn [fst snd] in *. inversion L as [|? ? [Ls1 Ls2] L']; subst. inversion L' as [|? ? [Lf1 Lf2] LZ]; subst. cbn [fst snd] in *. clear L L'.
    pose proof P as [[Fsx Vsx] [Fsy Vsy]]. destruct s as [xs ys], f as [xf yf]. destruct P as [Px Py], Q as [Qx Qy]. cbn [fst snd] in *.
    pose proof (int_sub _ _ _ _ Qx Px ltac:(lia)) as Dx. pose proof (int_sub _ _ _ _ Qy Py ltac:(lia)) as Dy.
    assert (NN : (fx - sx <> 0 \/ fy - sy <> 0)%Z). { destruct (Z.eq_dec sx fx); [destruct (Z.eq_dec sy fy); [subst; contradiction|lia]|lia]. }
    destruct (axis_degrees _ _ _ _ Dx Dy ltac:(lia) NN) as (k & Bk & Dk & Ck & Sk). set (d := degrees (at2 (nsub yf ys) (nsub xf xs))) in *.
    assert (Do : is_int (nopp d) (90 * - k)). { destruct Dk as [F V]. split; [unfold fin; cbn [nopp FNum]; rewrite is_finite_Bopp; exact F | replace (90 * - k)%Z with (- (90 * k))%Z by ring; rewrite opp_IZR, <- V; apply B2R_Bopp]. }
    destruct (quarter_tf sn cs ac at2 hy pw r15 Hs Hc Hr (nopp d) (- k) Do ltac:(lia)) as [[Fs Vs] [Fc Vc]].
    change (fin (@tf_sin _ _ trx (nopp d))) in Fs. change (val (@tf_sin _ _ trx (nopp d)) = IZR (zsin (- k))) in Vs. change (fin (@tf_cos _ _ trx (nopp d))) in Fc. change (val (@tf_cos _ _ trx (nopp d)) = IZR (zcos (- k))) in Vc.
    assert (Ek : (k = -2 \/ k = -1 \/ k = 0 \/ k = 1 \/ k = 2)%Z) by lia.
    assert (C2 : zcos (- k) = Z.sgn (fx - sx)) by (rewrite <- Ck; destruct Ek as [->|[->|[->|[->| ->]]]]; reflexivity).
    assert (S2 : zsin (- k) = (- Z.sgn (fy - sy))%Z) by (rewrite <- Sk; destruct Ek as [->|[->|[->|[->| ->]]]]; reflexivity).
    assert (SC : (Z.sgn (fx - sx) = 0 /\ (Z.sgn (fy - sy) = 1 \/ Z.sgn (fy - sy) = -1) \/ Z.sgn (fy - sy) = 0 /\ (Z.sgn (fx - sx) = 1 \/ Z.sgn (fx - sx) = -1))%Z) by lia.
    rewrite C2 in Vc. rewrite S2 in Vs. unfold seen. cbn [fst snd]. set (c := Z.sgn (fx - sx)) in *. set (t := Z.sgn (fy - sy)) in *. clear Ck Sk C2 S2. clearbody c t.
    destruct (opp_val _ Fs) as [Fo Vo]. rewrite Vs, <- opp_IZR, Z.opp_involutive in Vo.
    unfold alignPoints, rawSlopeAngle, getDeltas, endPoints, moveAndRotate, mkTransform. cbn [idx idx_last nth_error last_error bind length Nat.eqb fst snd].
    change (tatan2 (nsub yf ys) (nsub xf xs)) with (at2 (nsub yf ys) (nsub xf xs)). fold d.
    assert (ER : _rotationMatrix (nopp d) true = turned (tf_cos (nopp d)) (tf_sin (nopp d)) (nopp (tf_sin (nopp d)))) by reflexivity.
    change (nofZ 0 : b64) with (bofZ 0). 
    destruct (move_matrix (tf_cos (nopp d)) (tf_sin (nopp d)) (nopp (tf_sin (nopp d))) xs ys (2 ^ 50)) as (a2 & b2 & p2 & c2 & d2 & q2 & m2 & n2 & s2 & EP2 & FP2 & Va2 & Vb2 & Vp2 & Vc2 & Vd2 & Vq2 & Vm2 & Vn2 & Vs2); auto.
    1-3: rewrite ?Vc, ?Vs, ?Vo, <- abs_IZR; apply IZR_le; lia.
    1-2: rewrite ?Vsx, ?Vsy, <- abs_IZR; replace (2 ^ 50) with (IZR (2 ^ 50)) by (rewrite (pow_IZR 2 50); reflexivity); apply IZR_le; lia.
    { apply Rle_pow; [lra | lia]. }
    rewrite ER, EP2. cbn [bind]. unfold applyToSegment.
    destruct (fl_dot_int sx sy 0 c t) as [Em _]; try lia. destruct (fl_dot_int sx sy 0 (- t) c) as [En _]; try lia.
    rewrite Rplus_0_r, fl_fl in Em, En. rewrite Vsx, Vsy, Vc, Vo, Em in Vm2. rewrite Vsx, Vsy, Vc, Vs, En in Vn2.
    assert (each : forall p z, int_pt p z -> (Z.abs (fst z) <= 2 ^ 50 /\ Z.abs (snd z) <= 2 ^ 50)%Z -> exists q, applyToPoint [[a2; b2; p2]; [c2; d2; q2]; [m2; n2; s2]] p = Ok q /\
      int_pt q (c * (fst z - sx) + t * (snd z - sy), c * (snd z - sy) - t * (fst z - sx))%Z).
    { intros p [x y] Pz [Lx Ly]. cbn [fst snd] in *. repeat match goal with H : Forall _ (_ :: _) |- _ => inversion H; clear H; subst end.
      destruct (apply_int [[a2; b2; p2]; [c2; d2; q2]; [m2; n2; s2]] p c (- t) t c (- sx * c - sy * t + 0) (- sx * - t - sy * c + 0) x y) as (r & Er & K).
      { repeat (apply Forall2_cons || apply Forall2_nil); (split; [assumption|]); congruence. }
      { exact Pz. }
      { unfold zfits. destruct SC as [[-> [-> | ->]]|[-> [-> | ->]]]; lia. }
      { unfold zfits. destruct SC as [[-> [-> | ->]]|[-> [-> | ->]]]; lia. }
      exists r. split; [exact Er|].
      replace (c * (x - sx) + t * (y - sy))%Z with (x * c + y * t + (- sx * c - sy * t + 0))%Z by ring.
      replace (c * (y - sy) - t * (x - sx))%Z with (x * - t + y * c + (- sx * - t - sy * c + 0))%Z by ring. exact K. }
    clear - each PZ LZ. induction PZ as [|p z pts zs H PZ IH]; [exists []; split; [reflexivity | constructor]|].
    inversion LZ; subst. destruct (each p z H H2) as (q & Eq & K). destruct IH as (l & El & Fl); auto.
    exists (q :: l). split; [cbn [mapM]; rewrite Eq; cbn [bind]; rewrite El; reflexivity | constructor; assumption].
  Qed.
End Axis.

(** ** Running error bounds *)
Definition near (x : b64) (r B k : R) : Prop := fin x /\ Rabs r <= B /\ Rabs (val x - r) <= k * ulp1.
Lemma big_top : 2 ^ 60 <= ProofDouble.top.
Proof. unfold ProofDouble.top. rewrite two_pow. apply bpow_le. unfold emax. lia. Qed.
Lemma near_round (z r B k K : R) : Rabs r <= B -> Rabs (z - r) <= k * ulp1 -> 0 <= k -> k + (B + k / 1000000) + / 100 <= K -> Rabs (fl z - r) <= K * ulp1.
Proof.
  intros Hr Hz k0 HK. pose proof ulp1_pos as U. pose proof ulp1_small as Us. pose proof ulp_tiny as T.
  assert (Bz : Rabs z <= B + k / 1000000).
  { pose proof (Rabs_triang (z - r) r) as A. replace (z - r + r) with z in A by ring. assert (k * ulp1 <= k * / 1000000) by (apply Rmult_le_compat_l; lra). lra. }
  pose proof (fl_bound _ _ Bz) as E. replace (fl z - r) with ((fl z - z) + (z - r)) by ring. eapply Rle_trans; [apply Rabs_triang|].
  assert ((k + (B + k / 1000000) + / 100) * ulp1 <= K * ulp1) by (apply Rmult_le_compat_r; lra). lra.
Qed.
Lemma near_top (z B k : R) : Rabs z <= B + k / 1000000 -> B + k <= 2 ^ 59 -> 0 <= k -> 0 <= B -> Rabs (fl z) < ProofDouble.top.
Proof.
  intros Hz L k0 B0. pose proof (fl_size _ _ Hz) as S. pose proof ulp1_small as Us. pose proof ulp1_pos. pose proof tiny_60 as T. pose proof big_top.
  replace (2 ^ 60) with (2 * 2 ^ 59) in H0 by (cbn; ring). assert (1 <= 2 ^ 59) by (apply pow_R1_Rle; lra).
  nra.
Qed.
Lemma near_size (z r B k : R) : Rabs r <= B -> Rabs (z - r) <= k * ulp1 -> 0 <= k -> Rabs z <= B + k / 1000000.
Proof.
  intros Hr Hz k0. pose proof ulp1_small as Us. pose proof (Rabs_triang (z - r) r) as A. replace (z - r + r) with z in A by ring.
  assert (k * ulp1 <= k * / 1000000) by (apply Rmult_le_compat_l; lra). lra.
Qed.
Lemma near_mul (x y : b64) (r s B C k j K : R) : near x r B k -> near y s C j -> 0 <= k -> 0 <= j ->
  let e := k * C + j * B + k * j / 1000000 in e + (B * C + e / 1000000) + / 100 <= K -> B * C + e <= 2 ^ 59 -> near (nmul x y) (r * s) (B * C) K.
Proof.
  intros (Fx & Br & Ex) (Fy & Bs & Ey) k0 j0 e HK HT. pose proof ulp1_pos as U. pose proof ulp1_small as Us.
  assert (B0 : 0 <= B) by (pose proof (Rabs_pos r); lra). assert (C0 : 0 <= C) by (pose proof (Rabs_pos s); lra).
  assert (BC : Rabs (r * s) <= B * C) by (apply abs_prod; assumption).
  assert (E : Rabs (val x * val y - r * s) <= e * ulp1).
  { replace (val x * val y - r * s) with ((val x - r) * (val y - s) + (val x - r) * s + r * (val y - s)) by ring.
    pose proof (abs_prod _ _ _ _ Ex Ey) as P1. pose proof (abs_prod _ _ _ _ Ex Bs) as P2. pose proof (abs_prod _ _ _ _ Br Ey) as P3.
    eapply Rle_trans; [apply Rabs_triang|]. eapply Rle_trans; [apply Rplus_le_compat_r, Rabs_triang|].
    assert (k * ulp1 * (j * ulp1) <= k * j * ulp1 * / 1000000).
    { replace (k * ulp1 * (j * ulp1)) with (k * j * ulp1 * ulp1) by ring. apply Rmult_le_compat_l; [|lra]. repeat apply Rmult_le_pos; lra. }
    unfold e. lra. }
  assert (e0 : 0 <= e). { unfold e. assert (0 <= k * C) by (apply Rmult_le_pos; lra). assert (0 <= j * B) by (apply Rmult_le_pos; lra). assert (0 <= k * j) by (apply Rmult_le_pos; lra). lra. }
  assert (0 <= B * C) by (apply Rmult_le_pos; lra).
  destruct (mult_fl x y Fx Fy) as [F V]; [apply near_top with (B * C) e; auto; now apply near_size with (r * s)|].
  split; [exact F|]. split; [exact BC|]. rewrite V. apply near_round with (B * C) e; auto.
Qed.
Lemma near_add (x y : b64) (r s B C k j K : R) : near x r B k -> near y s C j -> 0 <= k -> 0 <= j ->
  let e := k + j in e + (B + C + e / 1000000) + / 100 <= K -> B + C + e <= 2 ^ 59 -> near (nadd x y) (r + s) (B + C) K.
Proof.
  intros (Fx & Br & Ex) (Fy & Bs & Ey) k0 j0 e HK HT.
  assert (B0 : 0 <= B) by (pose proof (Rabs_pos r); lra). assert (C0 : 0 <= C) by (pose proof (Rabs_pos s); lra).
  assert (BC : Rabs (r + s) <= B + C) by (eapply Rle_trans; [apply Rabs_triang | lra]).
  assert (E : Rabs (val x + val y - (r + s)) <= e * ulp1).
  { replace (val x + val y - (r + s)) with ((val x - r) + (val y - s)) by ring. eapply Rle_trans; [apply Rabs_triang|]. unfold e. lra. }
  assert (e0 : 0 <= e) by (unfold e; lra).
  destruct (plus_fl x y Fx Fy) as [F V]; [apply near_top with (B + C) e; try lra; now apply near_size with (r + s)|].
  split; [exact F|]. split; [exact BC|]. rewrite V. apply near_round with (B + C) e; auto.
Qed.
Lemma near_exact (x : b64) (B : R) : fin x -> Rabs (val x) <= B -> near x (val x) B 0.
Proof. intros F L. split; [exact F|]. split; [exact L|]. replace (val x - val x) with 0 by ring. rewrite Rabs_R0. lra. Qed.
Lemma near_weaken (x : b64) (r B C k K : R) : near x r B k -> Rabs r <= C -> k <= K -> near x r C K.
Proof. intros (F & _ & E) L HK. split; [exact F|]. split; [exact L|]. pose proof ulp1_pos as U. assert (k * ulp1 <= K * ulp1) by (apply Rmult_le_compat_r; lra). lra. Qed.
Lemma near_eq (x : b64) (r s B k : R) : near x r B k -> r = s -> near x s B k.
Proof. now intros H <-. Qed.

(** ** Evaluation a little outside the unit interval *)
Section Get.
  Context {TO : TrigOps b64}.
  Lemma weights (u : b64) : fin u -> - / 1000 <= val u <= 1 + / 1000 -> let t := val u in let mt := nsub (bofZ 1) u in
    near (nmul mt mt) ((1 - t) ^ 2) (1003 / 1000) (31 / 10) /\ near (nmul (nmul mt u) (bofZ 2)) (2 * (1 - t) * t) (2006 / 1000) (63 / 10) /\ near (nmul u u) (t ^ 2) (1003 / 1000) (102 / 100).
  Proof.
    intros F L t mt. fold t in L. destruct lit01 as (_ & _ & F1 & V1). destruct (val_int 2) as [F2 V2]; [lia|].
    assert (P : 2 ^ 10 <= 2 ^ 59) by (apply Rle_pow; [lra | lia]).
    assert (Nu : near u t (1001 / 1000) 0) by (apply near_exact; [exact F | apply Rabs_le; fold t; lra]).
    assert (N2 : near (bofZ 2) 2 2 0) by (apply near_eq with (val (bofZ 2)); [apply near_exact; [exact F2 | rewrite V2; apply Rabs_le; lra] | exact V2]).
    assert (Nm : near mt (1 - t) (1001 / 1000) (102 / 100)).
    { assert (B : Rabs (val (bofZ 1) - val u) <= 1001 / 1000) by (rewrite V1; fold t; apply Rabs_le; lra).
      destruct (minus_fl (bofZ 1) u F1 F) as [Fm Vm].
      { apply near_top with (1001 / 1000) 0; lra. }
      split; [exact Fm|]. split; [apply Rabs_le; lra|]. unfold mt. rewrite Vm, V1. fold t. apply near_round with (1001 / 1000) 0; [apply Rabs_le; lra| |lra|lra].
      replace (1 - t - (1 - t)) with 0 by ring. rewrite Rabs_R0. lra. }
    split; [|split].
    - apply near_eq with ((1 - t) * (1 - t)); [|ring]. eapply near_weaken; [apply (near_mul _ _ _ _ _ _ _ _ (309 / 100) Nm Nm); lra | apply Rabs_le; nra | lra].
    - assert (N3 : near (nmul mt u) ((1 - t) * t) (1003 / 1000) (206 / 100)) by (eapply near_weaken; [apply (near_mul _ _ _ _ _ _ _ _ (206 / 100) Nm Nu); lra | apply Rabs_le; nra | lra]).
      apply near_eq with ((1 - t) * t * 2); [|ring]. eapply near_weaken; [apply (near_mul _ _ _ _ _ _ _ _ (63 / 10) N3 N2); lra | apply Rabs_le; nra | lra].
    - apply near_eq with (t * t); [|ring]. eapply near_weaken; [apply (near_mul _ _ _ _ _ _ _ _ (102 / 100) Nu Nu); lra | apply Rabs_le; nra | lra].
  Qed.
  Lemma combine3 (a b c x y z : b64) (ra rb rc M : R) : 1 <= M <= 2 ^ 40 -> near a ra (1003 / 1000) (31 / 10) -> near b rb (2006 / 1000) (63 / 10) -> near c rc (1003 / 1000) (102 / 100) ->
    fin x -> fin y -> fin z -> Rabs (val x) <= M -> Rabs (val y) <= M -> Rabs (val z) <= M ->
    near (nadd (nadd (nadd (nmul a x) (nmul b y)) (nmul c z)) (nmul (bofZ 0) (bofZ 0))) (ra * val x + rb * val y + rc * val z) (5 * M) (27 * M).
  Proof.
    intros LM A B C Fx Fy Fz Lx Ly Lz. destruct lit01 as (F0 & V0 & _).
    assert (P : 2 ^ 45 <= 2 ^ 59) by (apply Rle_pow; [lra | lia]). change 45%nat with (40 + 5)%nat in P. rewrite (pow_add 2 40 5) in P.
    pose proof (near_mul a x _ _ _ _ _ _ (42 / 10 * M) A (near_exact x M Fx Lx) ltac:(lra) ltac:(lra) ltac:(lra) ltac:(lra)) as N1.
    pose proof (near_mul b y _ _ _ _ _ _ (84 / 10 * M) B (near_exact y M Fy Ly) ltac:(lra) ltac:(lra) ltac:(lra) ltac:(lra)) as N2.
    pose proof (near_mul c z _ _ _ _ _ _ (21 / 10 * M) C (near_exact z M Fz Lz) ltac:(lra) ltac:(lra) ltac:(lra) ltac:(lra)) as N3.
    pose proof (near_add _ _ _ _ _ _ _ _ (157 / 10 * M) N1 N2 ltac:(lra) ltac:(lra) ltac:(lra) ltac:(lra)) as N4.
    pose proof (near_add _ _ _ _ _ _ _ _ (219 / 10 * M) N4 N3 ltac:(lra) ltac:(lra) ltac:(lra) ltac:(lra)) as N5.
    assert (N0 : near (bofZ 0) 0 0 0) by (apply near_eq with (val (bofZ 0)); [apply near_exact; [exact F0 | rewrite V0, Rabs_R0; lra] | exact V0]).
    pose proof (near_mul _ _ _ _ _ _ _ _ (/ 10) N0 N0 ltac:(lra) ltac:(lra) ltac:(lra) ltac:(lra)) as N6.
    pose proof (near_add _ _ _ _ _ _ _ _ (27 * M) N5 N6 ltac:(lra) ltac:(lra) ltac:(lra) ltac:(lra)) as N7.
    apply near_eq with (1 := near_weaken _ _ _ (5 * M) _ (27 * M) N7 ltac:(destruct N7 as (_ & K & _); lra) ltac:(lra)). ring.
  Qed.
  Theorem get_near (b : bezier b64) (u : b64) (M : R) : length (cps b) = 3%nat -> Forall (sized M) (cps b) -> 1 <= M <= 2 ^ 40 -> fin u -> - / 1000 <= val u <= 1 + / 1000 ->
    exists p, get b u = Ok p /\ off (27 * M * ulp1) p (curve (map vpt (cps b)) (val u)).
  Proof.
    intros L S LM F B. destruct b as [ps v w]. cbn [cps] in *. destruct ps as [|q0 [|q1 [|q2 [|]]]]; try discriminate.
    inversion S as [|? ? S0 S']; subst. inversion S' as [|? ? S1 S'']; subst. inversion S'' as [|? ? S2 _]; subst. clear S S' S''.
    destruct S0 as (Fa & Fb & La & Lb). destruct S1 as (Fc & Fd & Lc & Ld). destruct S2 as (Fe & Ff & Le & Lf).
    destruct lit01 as (F0 & V0 & F1 & V1). pose proof ulp1_pos as U. assert (P : 0 <= 27 * M * ulp1) by (repeat apply Rmult_le_pos; lra).
    unfold get. cbn [cps order length Nat.sub Nat.eqb Nat.ltb Nat.leb].
    change (nofZ 0 : b64) with (bofZ 0). change (nofZ 1 : b64) with (bofZ 1). change (nofZ 2 : b64) with (bofZ 2). cbn [map].
    destruct (neqb u (bofZ 0)) eqn:E0.
    { apply eqb_val in E0; auto. exists q0. split; [reflexivity|]. rewrite curve3, E0, V0. unfold off. cbn [fst snd vpt]. repeat split; auto; match goal with |- Rabs ?x <= _ => replace x with 0 by ring end; rewrite Rabs_R0; exact P. }
    destruct (neqb u (bofZ 1)) eqn:E1.
    { apply eqb_val in E1; auto. exists q2. split; [reflexivity|]. rewrite curve3, E1, V1. unfold off. cbn [fst snd vpt]. repeat split; auto; match goal with |- Rabs ?x <= _ => replace x with 0 by ring end; rewrite Rabs_R0; exact P. }
    destruct (weights u F B) as (W0 & W1 & W2).
    destruct (combine3 _ _ _ (fst q0) (fst q1) (fst q2) _ _ _ M LM W0 W1 W2 Fa Fc Fe La Lc Le) as (G1 & _ & X1).
    destruct (combine3 _ _ _ (snd q0) (snd q1) (snd q2) _ _ _ M LM W0 W1 W2 Fb Fd Ff Lb Ld Lf) as (G2 & _ & X2).
    eexists. split; [reflexivity|]. rewrite curve3. unfold off. cbn [fst snd vpt]. repeat split; assumption.
  Qed.
End Get.

(** ** The tolerance test [between] *)
Lemma near_test (v m : b64) : fin v -> fin m -> Rabs (val v) <= 2 ^ 40 -> Rabs (val m) <= 2 ^ 40 ->
  (Rabs (val v - val m) <= / 2000000 -> approximately v m = true) /\ (approximately v m = true -> Rabs (val v - val m) <= 2 / 1000000).
Proof.
  intros Fv Fm Lv Lm. destruct (sub_double v m (2 ^ 40) Fv Fm Lv Lm) as (Fs & d & Ld & Vs); [apply Rle_pow; [lra | lia]|].
  destruct eps_val as [Fe Ve]. apply Rabs_le_inv in Ve. unfold approximately, approximatelyP. pose proof ulp1_small as Us. apply Rabs_le_inv in Ld.
  pose proof (Rabs_pos (val v - val m)) as P.
  assert (Va : Rabs (val (nsub v m)) = Rabs (val v - val m) * (1 + d)) by (rewrite Vs, Rabs_mult, (Rabs_pos_eq (1 + d)) by lra; reflexivity).
  split; intros H.
  - apply abs_le_val; auto. rewrite Va. assert (Rabs (val v - val m) * (1 + d) <= / 2000000 * (3 / 2)) by (apply Rmult_le_compat; lra). lra.
  - apply abs_le_val in H; auto. rewrite Va in H. assert (Rabs (val v - val m) * (3 / 4) <= Rabs (val v - val m) * (1 + d)) by (apply Rmult_le_compat_l; lra). lra.
Qed.
Lemma between_in (v m M : b64) : fin v -> fin m -> fin M -> Rabs (val v) <= 2 ^ 40 -> Rabs (val m) <= 2 ^ 40 -> Rabs (val M) <= 2 ^ 40 ->
  val m - / 2000000 <= val v <= val M + / 2000000 -> MBezUtil.between v m M = true.
Proof.
  intros Fv Fm FM Lv Lm LM B. unfold MBezUtil.between.
  destruct (Rlt_dec (val v) (val m)) as [A|A].
  - rewrite (proj1 (near_test v m Fv Fm Lv Lm)) by (apply Rabs_le; lra). now rewrite Bool.orb_true_r.
  - destruct (Rlt_dec (val M) (val v)) as [C|C].
    + rewrite (proj1 (near_test v M Fv FM Lv LM)) by (apply Rabs_le; lra). now rewrite !Bool.orb_true_r.
    + assert (K : nleb m v && nleb v M = true) by (apply andb_true_intro; split; apply leb_val; auto; lra). now rewrite K.
Qed.
Lemma between_out (v m M : b64) : fin v -> fin m -> fin M -> Rabs (val v) <= 2 ^ 40 -> Rabs (val m) <= 2 ^ 40 -> Rabs (val M) <= 2 ^ 40 ->
  val m <= val M -> MBezUtil.between v m M = true -> val m - 2 / 1000000 <= val v <= val M + 2 / 1000000.
Proof.
  intros Fv Fm FM Lv Lm LM O B. unfold MBezUtil.between in B. apply orb_prop in B as [B|B]; [|apply orb_prop in B as [B|B]].
  - apply andb_prop in B as [X Y]. apply leb_val in X, Y; auto. lra.
  - apply (near_test v m) in B; auto. apply Rabs_le_inv in B. lra.
  - apply (near_test v M) in B; auto. apply Rabs_le_inv in B. lra.
Qed.
Lemma filterM_all {A : Type} (f : A -> res bool) (l : list A) : (forall a, In a l -> exists c, f a = Ok c) -> exists l', filterM f l = Ok l' /\ forall a, In a l' <-> In a l /\ f a = Ok true.
Proof.
  induction l as [|a l IH]; intros H; [exists []; split; [reflexivity|]; cbn; tauto|].
  destruct (H a (or_introl eq_refl)) as [c C]. destruct IH as (l' & E & K); [intros x X; apply H; now right|].
  cbn [filterM]. rewrite C, E. cbn [bind]. eexists. split; [reflexivity|]. intros x. destruct c.
  - cbn [In]. rewrite K. split; [intros [->|[X Y]]; auto | intros [[->|X] Y]; auto].
  - rewrite K. cbn [In]. split; [tauto|]. intros [[->|X] Y]; [congruence | auto].
Qed.

(** ** Roots and crossings *)
Lemma vertical_line (s f p : pt) : fst s = fst f -> s <> f -> on_line s f p <-> fst p = fst s.
Proof.
  destruct s as [sx sy], f as [fx fy], p as [x y]. unfold on_line, along, vadd, vscale, vsub. cbn [fst snd]. intros <- N.
  assert (sy <> fy) by congruence. split; [intros [t K]; injection K as -> _; ring|]. intros ->. exists ((y - sy) / (fy - sy)). f_equal; [ring|]. field. lra.
Qed.
Lemma horizontal_line (s f p : pt) : snd s = snd f -> s <> f -> on_line s f p <-> snd p = snd s.
Proof.
  destruct s as [sx sy], f as [fx fy], p as [x y]. unfold on_line, along, vadd, vscale, vsub. cbn [fst snd]. intros <- N.
  assert (sx <> fx) by congruence. split; [intros [t K]; injection K as _ ->; ring|]. intros ->. exists ((x - sx) / (fx - sx)). f_equal; [|ring]. field. lra.
Qed.
Lemma segment_box (a z p : pt) : on_segment a z p -> box_within 0 a z p.
Proof.
  intros (s & Hs & ->). unfold box_within, along, vadd, vscale, vsub; cbn [fst snd].
  unfold Rmin, Rmax. destruct (Rle_dec (fst a) (fst z)), (Rle_dec (snd a) (snd z)); nra.
Qed.
Lemma grid_int (N : Z) (p : point b64) : on_grid 0 N p -> exists z, int_pt p z /\ (Z.abs (fst z) <= N)%Z /\ (Z.abs (snd z) <= N)%Z.
Proof. intros (zx & zy & Gx & Gy & Lx & Ly). exists (zx, zy). split; [split; apply dy_int; assumption | auto]. Qed.

Lemma sgn_axis (a b : Z) : (a = 0 \/ b = 0)%Z -> (Z.sgn a = 0 /\ (Z.sgn b = 1 \/ Z.sgn b = -1 \/ Z.sgn b = 0) \/ Z.sgn b = 0 /\ (Z.sgn a = 1 \/ Z.sgn a = -1))%Z.
Proof. lia. Qed.

Section Cross.
  Context (sn cs ac : b64 -> b64) (at2 hy pw : b64 -> b64 -> b64) (r15 : b64 -> b64).
  #[local] Instance try : TrigOps b64 := FTrig sn cs ac at2 hy pw math_pi r15.
  Hypothesis Hs : within ulp1 sn sin.
  Hypothesis Hc : within ulp1 cs cos.
  Hypothesis Ha : atan2_axes at2.
  Hypothesis Hr : rounds15 r15.

  Theorem axis_roots (b : bezier b64) (s f : point b64) (N : Z) : length (cps b) = 3%nat -> Forall (on_grid 0 N) (s :: f :: cps b) -> (1 <= N <= 2 ^ 24)%Z ->
    (val (fst s) = val (fst f) \/ val (snd s) = val (snd f)) -> vpt s <> vpt f -> (exists p, In p (cps b) /\ ~ on_line (vpt s) (vpt f) (vpt p)) ->
    exists l, roots b (Some [s; f]) = Ok l /\
      (forall t, 0 <= t <= 1 -> on_line (vpt s) (vpt f) (curve (map vpt (cps b)) t) -> exists u, In u l /\ Rabs (val u - t) <= 20 * ulp1 * IZR N) /\
      (forall u, In u l -> fin u /\ exists t, on_line (vpt s) (vpt f) (curve (map vpt (cps b)) t) /\ Rabs (val u - t) <= 20 * ulp1 * IZR N /\ - (3 / 1000000) <= t <= 1 + 3 / 1000000).
  Proof.
    intros L G HN A NE OFF. inversion G as [|? ? Gs G']; subst. inversion G' as [|? ? Gf Gb]; subst. clear G G'.
    destruct (grid_int N s Gs) as (zs0 & Is & Bs1 & Bs2). destruct (grid_int N f Gf) as (zf & If & Bf1 & Bf2).
    destruct b as [ps v w]. cbn [cps] in *. destruct ps as [|p0 [|p1 [|p2 [|]]]]; try discriminate. clear L.
    inversion Gb as [|? ? G0 G']; subst. inversion G' as [|? ? G1 G'']; subst. inversion G'' as [|? ? G2 _]; subst. clear Gb G' G''.
    destruct (grid_int N p0 G0) as (z0 & I0 & B01 & B02). destruct (grid_int N p1 G1) as (z1 & I1 & B11 & B12). destruct (grid_int N p2 G2) as (z2 & I2 & B21 & B22).
    assert (V : forall p z, int_pt p z -> vpt p = (IZR (fst z), IZR (snd z))) by (intros p z [[_ X] [_ Y]]; unfold vpt; now rewrite X, Y).
    assert (Az : fst zs0 = fst zf \/ snd zs0 = snd zf).
    { destruct Is as [[_ X1] [_ Y1]], If as [[_ X2] [_ Y2]]. rewrite X1, X2, Y1, Y2 in A. destruct A as [A|A]; apply eq_IZR in A; auto. }
    assert (Nz : zs0 <> zf) by (intros E; apply NE; rewrite (V _ _ Is), (V _ _ If), E; reflexivity).
    destruct (axis_align sn cs ac at2 hy pw r15 Hs Hc Ha Hr [p0; p1; p2] [z0; z1; z2] s f zs0 zf Is If Az Nz) as (l & El & Fl).
    { repeat (apply Forall2_cons; [assumption|]). apply Forall2_nil. } { repeat (apply Forall_cons; [split; lia|]). apply Forall_nil. }
    inversion Fl as [|q0 ? l1 ? K0 Fl1]; subst. inversion Fl1 as [|q1 ? l2 ? K1 Fl2]; subst. inversion Fl2 as [|q2 ? l3 ? K2 Fl3]; subst. inversion Fl3; subst. clear Fl Fl1 Fl2 Fl3.
    assert (ER : roots (mkBez [p0; p1; p2] v w) (Some [s; f]) = Ok (quadRoots (snd q0) (snd q1) (snd q2))).
    { unfold roots. cbn [cps]. change (@alignPoints _ _ try [p0; p1; p2] [s; f] = Ok [q0; q1; q2]) in El. rewrite El. reflexivity. }
    rewrite ER. eexists. split; [reflexivity|].
    assert (SB : forall z, (Z.abs (fst z) <= N)%Z -> (Z.abs (snd z) <= N)%Z -> (Z.abs (snd (seen zs0 zf z)) <= 2 * N)%Z).
    { intros z X Y. assert (Q : (fst zf - fst zs0 = 0 \/ snd zf - snd zs0 = 0)%Z) by (clear - Az; lia). unfold seen. cbn [snd]. clear - X Y Q Bs1 Bs2.
      destruct (sgn_axis _ _ Q) as [[-> [-> | [-> | ->]]]|[-> [-> | ->]]]; lia. }
    assert (SL : forall z, snd (seen zs0 zf z) = 0%Z <-> on_line (vpt s) (vpt f) (IZR (fst z), IZR (snd z))).
    { intros z. rewrite (V _ _ Is), (V _ _ If) in *. unfold seen. cbn [snd]. destruct Az as [Z|Z].
      - rewrite vertical_line by (cbn [fst snd]; auto; now rewrite Z). cbn [fst snd]. rewrite Z, Z.sub_diag. cbn [Z.sgn].
        assert (snd zs0 <> snd zf) by (intros E; apply Nz, injective_projections; auto). split; [intros K; f_equal; nia | intros K; apply eq_IZR in K; nia].
      - rewrite horizontal_line by (cbn [fst snd]; auto; now rewrite Z). cbn [fst snd]. rewrite Z, Z.sub_diag. cbn [Z.sgn].
        assert (fst zs0 <> fst zf) by (intros E; apply Nz, injective_projections; auto). split; [intros K; f_equal; nia | intros K; apply eq_IZR in K; nia]. }
    assert (NZ : (snd (seen zs0 zf z0) <> 0 \/ snd (seen zs0 zf z1) <> 0 \/ snd (seen zs0 zf z2) <> 0)%Z).
    { destruct OFF as (p & [<-|[<-|[<-|[]]]] & K); [left; rewrite (V _ _ I0) in K | right; left; rewrite (V _ _ I1) in K | right; right; rewrite (V _ _ I2) in K]; intros E; apply K; now apply SL. }
    assert (CV : forall t, qroot (snd q0) (snd q1) (snd q2) t <-> on_line (vpt s) (vpt f) (curve [vpt p0; vpt p1; vpt p2] t)).
    { intros t. unfold qroot. destruct K0 as [_ [_ W0]], K1 as [_ [_ W1]], K2 as [_ [_ W2]]. rewrite W0, W1, W2. rewrite curve3, (V _ _ I0), (V _ _ I1), (V _ _ I2). clear - Az Nz V Is If NE.
      rewrite (V _ _ Is), (V _ _ If) in *. unfold seen. cbn [fst snd]. destruct Az as [Z|Z].
      - rewrite vertical_line by (cbn [fst snd]; auto; now rewrite Z). cbn [fst snd]. rewrite Z, Z.sub_diag. cbn [Z.sgn].
        assert (snd zs0 <> snd zf) by (intros E; apply Nz, injective_projections; auto).
        assert (C : (Z.sgn (snd zf - snd zs0) = 1 \/ Z.sgn (snd zf - snd zs0) = -1)%Z) by lia.
        destruct C as [-> | ->]; repeat rewrite ?minus_IZR, ?mult_IZR; split; intros K; lra.
      - rewrite horizontal_line by (cbn [fst snd]; auto; now rewrite Z). cbn [fst snd]. rewrite Z, Z.sub_diag. cbn [Z.sgn].
        assert (fst zs0 <> fst zf) by (intros E; apply Nz, injective_projections; auto).
        assert (C : (Z.sgn (fst zf - fst zs0) = 1 \/ Z.sgn (fst zf - fst zs0) = -1)%Z) by lia.
        destruct C as [-> | ->]; repeat rewrite ?minus_IZR, ?mult_IZR; split; intros K; lra. }
    destruct (quadRoots_near (TO := try) (fun _ => eq_refl) 0 (2 * N) _ _ _ (snd q0) (snd q1) (snd q2) ltac:(lia) ltac:(lia)
      (proj1 (dy_int _ _) (proj2 K0)) (proj1 (dy_int _ _) (proj2 K1)) (proj1 (dy_int _ _) (proj2 K2)) (SB _ B01 B02) (SB _ B11 B12) (SB _ B21 B22) NZ) as [R1 R2].
    rewrite mult_IZR in R1, R2. replace (10 * ulp1 * (2 * IZR N)) with (20 * ulp1 * IZR N) in R1, R2 by ring. cbn [map]. split.
    - intros t T K. apply CV in K. exact (R1 t T K).
    - intros u K. destruct (R2 u K) as (F & t & Q & E). split; [exact F|]. exists t. split; [now apply CV | exact E].
  Qed.

  Lemma drift (a b c t u N E : R) : Rabs a <= N -> Rabs b <= N -> Rabs c <= N -> - / 1000 <= t <= 1 + / 1000 -> - / 1000 <= u <= 1 + / 1000 -> Rabs (u - t) <= E ->
    Rabs (((1 - u) ^ 2 * a + 2 * (1 - u) * u * b + u ^ 2 * c) - ((1 - t) ^ 2 * a + 2 * (1 - t) * t * b + t ^ 2 * c)) <= 41 / 10 * N * E.
  Proof.
    intros A B C T U D.
    replace (((1 - u) ^ 2 * a + 2 * (1 - u) * u * b + u ^ 2 * c) - ((1 - t) ^ 2 * a + 2 * (1 - t) * t * b + t ^ 2 * c))
      with ((- (2 - u - t) * a + 2 * (1 - u - t) * b + (u + t) * c) * (u - t)) by ring.
    apply abs_prod; [|exact D].
    assert (N0 : 0 <= N) by (pose proof (Rabs_pos a); lra).
    assert (K1 : Rabs (- (2 - u - t)) <= 2002 / 1000) by (apply Rabs_le; lra). assert (K2 : Rabs (2 * (1 - u - t)) <= 2004 / 1000) by (apply Rabs_le; lra). assert (K3 : Rabs (u + t) <= 2 + / 500) by (apply Rabs_le; lra).
    assert (K : Rabs (- (2 - u - t)) + Rabs (2 * (1 - u - t)) + Rabs (u + t) <= 41 / 10).
    { unfold Rabs. destruct (Rcase_abs (- (2 - u - t))), (Rcase_abs (2 * (1 - u - t))), (Rcase_abs (u + t)); lra. }
    eapply Rle_trans; [apply Rabs_triang|]. eapply Rle_trans; [apply Rplus_le_compat_r, Rabs_triang|].
    pose proof (abs_prod _ _ _ _ (Rle_refl (Rabs (- (2 - u - t)))) A). pose proof (abs_prod _ _ _ _ (Rle_refl (Rabs (2 * (1 - u - t)))) B). pose proof (abs_prod _ _ _ _ (Rle_refl (Rabs (u + t))) C).
    apply Rle_trans with ((Rabs (- (2 - u - t)) + Rabs (2 * (1 - u - t)) + Rabs (u + t)) * N); [lra | apply Rmult_le_compat_r; lra].
  Qed.
  Theorem axis_crossings (b : bezier b64) (s f : point b64) (N : Z) : length (cps b) = 3%nat -> Forall (on_grid 0 N) (s :: f :: cps b) -> (1 <= N <= 4096)%Z ->
    (val (fst s) = val (fst f) \/ val (snd s) = val (snd f)) -> vpt s <> vpt f -> (exists p, In p (cps b) /\ ~ on_line (vpt s) (vpt f) (vpt p)) ->
    exists l, lineIntersects b s f = Ok l /\
      (forall t, 0 <= t <= 1 -> on_segment (vpt s) (vpt f) (curve (map vpt (cps b)) t) -> exists u, In u l /\ Rabs (val u - t) <= 20 * ulp1 * IZR N) /\
      (forall u, In u l -> fin u /\ exists t, Rabs (val u - t) <= 20 * ulp1 * IZR N /\ - (3 / 1000000) <= t <= 1 + 3 / 1000000 /\
        on_line (vpt s) (vpt f) (curve (map vpt (cps b)) t) /\ box_within (3 / 1000000) (vpt s) (vpt f) (curve (map vpt (cps b)) t)).
  Proof.
    intros L G HN A NE OFF. destruct (axis_roots b s f N L G ltac:(lia) A NE OFF) as (rs & ER & R1 & R2).
    inversion G as [|? ? Gs G']; subst. inversion G' as [|? ? Gf Gb]; subst. clear G G'.
    assert (NR : 1 <= IZR N <= 4096) by (split; apply IZR_le; lia). pose proof ulp1_pos as U.
    set (E := 20 * ulp1 * IZR N) in *. assert (EB : 0 <= E <= / 100000000).
    { unfold E. split; [repeat apply Rmult_le_pos; lra|]. rewrite ulp_num. apply Rle_trans with (20 * / 9007199254740992 * 4096); [apply Rmult_le_compat_l; lra | lra]. }
    assert (SZ : forall p, on_grid 0 N p -> sized (IZR N) p).
    { intros p Gp. destruct (grid_int N p Gp) as (z & [[Fx Vx] [Fy Vy]] & X & Y). repeat split; auto; rewrite ?Vx, ?Vy, <- abs_IZR; apply IZR_le; assumption. }
    assert (Sb : Forall (sized (IZR N)) (cps b)) by (eapply Forall_impl; [|exact Gb]; exact SZ).
    destruct (SZ s Gs) as (Fsx & Fsy & Lsx & Lsy). destruct (SZ f Gf) as (Ffx & Ffy & Lfx & Lfy).
    assert (P40 : 4096 * 4096 <= 2 ^ 40) by (replace (4096 * 4096) with (2 ^ 24) by ring; apply Rle_pow; [lra | lia]).
    destruct (pmin_val (fst s) (fst f) Fsx Ffx) as [F1 V1]. destruct (pmax_val (fst s) (fst f) Fsx Ffx) as [F2 V2].
    destruct (pmin_val (snd s) (snd f) Fsy Ffy) as [F3 V3]. destruct (pmax_val (snd s) (snd f) Fsy Ffy) as [F4 V4].
    set (mx := pmin (fst s) (fst f)) in *. set (MX := pmax (fst s) (fst f)) in *. set (my := pmin (snd s) (snd f)) in *. set (MY := pmax (snd s) (snd f)) in *.
    assert (MM : forall x y, Rmin x y <= Rmax x y) by (intros; eapply Rle_trans; [apply Rmin_l | apply Rmax_l]).
    assert (SM : forall x y, Rabs x <= IZR N -> Rabs y <= IZR N -> Rabs (Rmin x y) <= 2 ^ 40 /\ Rabs (Rmax x y) <= 2 ^ 40).
    { intros x y X Y. unfold Rmin, Rmax. destruct (Rle_dec x y); split; lra. }
    destruct (SM _ _ Lsx Lfx) as [B1 B2]. destruct (SM _ _ Lsy Lfy) as [B3 B4]. rewrite <- V1 in B1. rewrite <- V2 in B2. rewrite <- V3 in B3. rewrite <- V4 in B4.
    (* what the test sees at a reported root *)
    assert (near_root : forall u t, fin u -> - (3 / 1000000) <= t <= 1 + 3 / 1000000 -> Rabs (val u - t) <= E ->
      exists p, get b u = Ok p /\ off (/ 4000000) p (curve (map vpt (cps b)) t) /\ Rabs (val (fst p)) <= 2 ^ 40 /\ Rabs (val (snd p)) <= 2 ^ 40).
    { intros u t Fu T D. assert (Bu : - / 1000 <= val u <= 1 + / 1000) by (apply Rabs_le_inv in D; lra).
      destruct (get_near b u (IZR N) L Sb ltac:(lra) Fu Bu) as (p & Ep & Fp1 & Fp2 & O1 & O2). exists p. split; [exact Ep|].
      assert (Dr : Rabs (fst (curve (map vpt (cps b)) (val u)) - fst (curve (map vpt (cps b)) t)) <= 41 / 10 * IZR N * E /\ Rabs (snd (curve (map vpt (cps b)) (val u)) - snd (curve (map vpt (cps b)) t)) <= 41 / 10 * IZR N * E /\
                   Rabs (fst (curve (map vpt (cps b)) t)) <= 5 * IZR N /\ Rabs (snd (curve (map vpt (cps b)) t)) <= 5 * IZR N).
      { destruct b as [ps v w]. cbn [cps] in *. destruct ps as [|q0 [|q1 [|q2 [|]]]]; try discriminate. clear - Sb T Bu D NR.
        inversion Sb as [|? ? S0 S']; subst. inversion S' as [|? ? S1 S'']; subst. inversion S'' as [|? ? S2 _]; subst. destruct S0 as (_ & _ & A1 & A2), S1 as (_ & _ & A3 & A4), S2 as (_ & _ & A5 & A6).
        cbn [map]. rewrite !curve3. cbn [fst snd vpt].
        assert (W : forall a1 b1 c1, Rabs a1 <= IZR N -> Rabs b1 <= IZR N -> Rabs c1 <= IZR N -> Rabs ((1 - t) ^ 2 * a1 + 2 * (1 - t) * t * b1 + t ^ 2 * c1) <= 5 * IZR N).
        { intros a1 b1 c1 X Y Z. assert (Rabs ((1 - t) ^ 2) <= 3 / 2) by (apply Rabs_le; nra). assert (Rabs (2 * (1 - t) * t) <= 3 / 2) by (apply Rabs_le; nra). assert (Rabs (t ^ 2) <= 3 / 2) by (apply Rabs_le; nra).
          eapply Rle_trans; [apply Rabs_triang|]. eapply Rle_trans; [apply Rplus_le_compat_r, Rabs_triang|].
          pose proof (abs_prod _ _ _ _ H X). pose proof (abs_prod _ _ _ _ H0 Y). pose proof (abs_prod _ _ _ _ H1 Z). lra. }
        split; [apply drift; auto; lra|]. split; [apply drift; auto; lra|]. split; apply W; assumption. }
      destruct Dr as (D1 & D2 & W1 & W2).
      assert (K : 41 / 10 * IZR N * E + 27 * IZR N * ulp1 <= / 4000000).
      { unfold E. rewrite ulp_num. replace (41 / 10 * IZR N * (20 * / 9007199254740992 * IZR N)) with (82 / 9007199254740992 * (IZR N * IZR N)) by field.
        assert (IZR N * IZR N <= 4096 * 4096) by (apply Rmult_le_compat; lra). lra. }
      assert (O : off (/ 4000000) p (curve (map vpt (cps b)) t)).
      { split; [exact Fp1|]. split; [exact Fp2|]. apply Rabs_le_inv in O1, O2, D1, D2. split; apply Rabs_le; lra. }
      split; [exact O|]. destruct O as (_ & _ & X1 & X2). apply Rabs_le_inv in X1, X2, W1, W2. split; apply Rabs_le; lra. }
    unfold lineIntersects. rewrite ER. cbn [bind]. fold mx MX my MY.
    set (test := fun t : b64 => let* xy := get b t in Ok (MBezUtil.between (fst xy) mx MX && MBezUtil.between (snd xy) my MY)).
    destruct (filterM_all test rs) as (l & El & Hl).
    { intros u Iu. destruct (R2 u Iu) as (Fu & t & _ & D & T). destruct (near_root u t Fu T D) as (p & Ep & _). unfold test. rewrite Ep. cbn [bind]. eauto. }
    exists l. split; [exact El|]. split.
    - intros t T S. assert (OL : on_line (vpt s) (vpt f) (curve (map vpt (cps b)) t)) by (destruct S as (k & _ & K); exists k; exact K).
      destruct (R1 t T OL) as (u & Iu & Du). exists u. split; [|exact Du]. apply Hl. split; [exact Iu|].
      destruct (R2 u Iu) as (Fu & _). destruct (near_root u t Fu ltac:(lra) Du) as (p & Ep & (Fp1 & Fp2 & O1 & O2) & Z1 & Z2). unfold test. rewrite Ep. cbn [bind]. f_equal.
      apply segment_box in S as [S1 S2]. set (C := curve (map vpt (cps b)) t) in *. clearbody C. unfold vpt in S1, S2. cbn [fst snd] in S1, S2. rewrite <- V1, <- V2 in S1. rewrite <- V3, <- V4 in S2. apply Rabs_le_inv in O1, O2.
      apply andb_true_intro. split; apply between_in; auto; lra.
    - intros u Iu. apply Hl in Iu as [Iu Tu]. destruct (R2 u Iu) as (Fu & t & OL & D & T). split; [exact Fu|]. exists t. split; [exact D|]. split; [exact T|]. split; [exact OL|].
      destruct (near_root u t Fu T D) as (p & Ep & (Fp1 & Fp2 & O1 & O2) & Z1 & Z2). unfold test in Tu. rewrite Ep in Tu. cbn [bind] in Tu. apply Ok_inj in Tu. apply andb_prop in Tu as [X Y].
      apply between_out in X; auto; [|rewrite V1, V2; apply MM]. apply between_out in Y; auto; [|rewrite V3, V4; apply MM]. rewrite V1, V2 in X. rewrite V3, V4 in Y. apply Rabs_le_inv in O1, O2.
      set (C := curve (map vpt (cps b)) t) in *. clearbody C. unfold box_within, vpt. cbn [fst snd]. split; lra.
  Qed.
End Cross.

(** A function that does what the standard asks on the axes. *)
Definition axis_at2 (y x : b64) : b64 :=
  if Rlt_dec 0 (val y) then half_pi else if Rlt_dec (val y) 0 then Bopp half_pi else if Rlt_dec (val x) 0 then math_pi else bofZ 0.
Lemma axis_at2_ok : atan2_axes axis_at2.
Proof.
  intros y x Fy Fx. unfold axis_at2. destruct lit01 as (F0 & V0 & _).
  destruct (Rlt_dec 0 (val y)), (Rlt_dec (val y) 0), (Rlt_dec (val x) 0); repeat split; intros; try lra; auto.
Qed.
