(** Quarter turns in double precision: exact up to six of them, not for eleven. *)
From Coq Require Import List ZArith Bool Reals Lra Lia Psatz.
From Flocq Require Import Core BinarySingleNaN Relative.
From Verif Require Import Py Inst InstFloat SpecGeom SpecDouble SpecDouble3 MTransform MPathUtil
  ProofTransform ProofDouble ProofDouble2 ProofDouble9.
Import ListNotations.
Local Open Scope R_scope.
#[local] Existing Instance InstFloat.prec_gt_0.
#[local] Existing Instance InstFloat.prec_lt_emax.

Definition zsin (k : Z) : Z := match (k mod 4)%Z with 0%Z => 0 | 1%Z => 1 | 2%Z => 0 | _ => -1 end.
Definition zcos (k : Z) : Z := match (k mod 4)%Z with 0%Z => 1 | 1%Z => 0 | 2%Z => -1 | _ => 0 end.
Lemma sin_quarter (k : Z) : sin (IZR k * (PI / 2)) = IZR (zsin k).
Proof.
  pose proof (sincos_quarter k) as Q. replace (IZR k * PI / 2) with (IZR k * (PI / 2)) in Q by field. apply (f_equal fst) in Q. cbn [fst] in Q. rewrite Q.
  unfold zsin. pose proof (Z.mod_pos_bound k 4 ltac:(lia)) as B. assert (C : (k mod 4 = 0 \/ k mod 4 = 1 \/ k mod 4 = 2 \/ k mod 4 = 3)%Z) by lia.
  destruct C as [-> | [-> | [-> | ->]]]; reflexivity.
Qed.
Lemma cos_quarter (k : Z) : cos (IZR k * (PI / 2)) = IZR (zcos k).
Proof.
  pose proof (sincos_quarter k) as Q. replace (IZR k * PI / 2) with (IZR k * (PI / 2)) in Q by field. apply (f_equal snd) in Q. cbn [snd] in Q. rewrite Q.
  unfold zcos. pose proof (Z.mod_pos_bound k 4 ltac:(lia)) as B. assert (C : (k mod 4 = 0 \/ k mod 4 = 1 \/ k mod 4 = 2 \/ k mod 4 = 3)%Z) by lia.
  destruct C as [-> | [-> | [-> | ->]]]; reflexivity.
Qed.
Lemma zsc_cases (k : Z) : (zcos k = 0 /\ (zsin k = 1 \/ zsin k = -1) \/ zsin k = 0 /\ (zcos k = 1 \/ zcos k = -1))%Z.
Proof.
  unfold zsin, zcos. pose proof (Z.mod_pos_bound k 4 ltac:(lia)) as B. assert (C : (k mod 4 = 0 \/ k mod 4 = 1 \/ k mod 4 = 2 \/ k mod 4 = 3)%Z) by lia.
  destruct C as [-> | [-> | [-> | ->]]]; auto.
Qed.
Lemma quarter_form (k : Z) (ccw : bool) (v : pt) : quarter_turns (if ccw then k else (- k)%Z) v =
  let s := if ccw then IZR (zsin k) else - IZR (zsin k) in (IZR (zcos k) * fst v - s * snd v, s * fst v + IZR (zcos k) * snd v).
Proof.
  unfold zsin, zcos, quarter_turns. destruct v as [x y].
  assert (N : ((- k) mod 4 = (4 - k mod 4) mod 4)%Z).
  { rewrite Zminus_mod_idemp_r. replace (4 - k)%Z with (- k + 1 * 4)%Z by ring. now rewrite Z_mod_plus_full. }
  pose proof (Z.mod_pos_bound k 4 ltac:(lia)) as B. assert (C : (k mod 4 = 0 \/ k mod 4 = 1 \/ k mod 4 = 2 \/ k mod 4 = 3)%Z) by lia.
  destruct ccw; [|rewrite N]; destruct C as [-> | [-> | [-> | ->]]]; simpl; f_equal; ring.
Qed.
Lemma fl_IZR (z : Z) : (Z.abs z < 2 ^ 53)%Z -> fl (IZR z) = IZR z.
Proof. intros L. pose proof (fl_dyadic z 0 L ltac:(lia)) as H. change (bpow radix2 0) with 1 in H. now rewrite Rmult_1_r in H. Qed.

Lemma tiny_60 : tiny <= / 1152921504606846976.
Proof. unfold tiny. replace 1152921504606846976 with (2 ^ 60) by ring. apply Rinv_le_contravar; [apply pow_lt; lra | apply Rle_pow; [lra | lia]]. Qed.

Section Quarter.
  Context (sn cs ac : b64 -> b64) (at2 hy pw : b64 -> b64 -> b64) (r15 : b64 -> b64).
  #[local] Instance trq : TrigOps b64 := FTrig sn cs ac at2 hy pw math_pi r15.
  Hypothesis Hs : within ulp1 sn sin.
  Hypothesis Hc : within ulp1 cs cos.
  Hypothesis Hr : rounds15 r15.

  Lemma rounds_int (x : b64) (z : Z) : fin x -> Rabs (val x - IZR z) <= 44 / 10 * ulp1 -> (Z.abs z <= 1)%Z -> is_int (r15 x) z.
  Proof.
    intros F L Z. destruct (Hr x F) as (k & K & N). rewrite pow15 in *. rewrite ulp_num in L.
    assert (E : k = (z * 1000000000000000)%Z).
    { assert (A : Rabs (IZR k - IZR z * 1000000000000000) < 1).
      { replace (IZR k - IZR z * 1000000000000000) with (- (val x * 1000000000000000 - IZR k) + (val x - IZR z) * 1000000000000000) by ring.
        apply Rle_lt_trans with (1 := Rabs_triang _ _). rewrite Rabs_Ropp, (Rabs_mult _ 1000000000000000), (Rabs_pos_eq 1000000000000000) by lra. lra. }
      rewrite <- mult_IZR, <- minus_IZR, <- abs_IZR in A. apply lt_IZR in A. lia. }
    subst k. rewrite mult_IZR in N. replace (IZR z * 1000000000000000 / 1000000000000000) with (IZR z) in N by field.
    destruct (val_int z ltac:(lia)) as [Fz Vz]. split; [apply N | exact (nearest_exact _ _ _ N Fz Vz)].
  Qed.
  Lemma radians_val (d : b64) : fin d -> Rabs (val d) <= 1024 -> fin (radians d) /\ val (radians d) = fl (val d * val deg_rad).
  Proof.
    intros F L. unfold radians. cbn [tpi trq FTrig]. change (nofZ 180) with (bofZ 180). rewrite deg_rad_eq.
    destruct deg_rad_val as (Fr & _ & Br). apply (mult_fl d deg_rad F Fr).
    pose proof (fl_bound2 (val d * val deg_rad) 1024) as T.
    assert (A : Rabs (val d * val deg_rad) <= 1024).
    { rewrite Rabs_mult, (Rabs_pos_eq (val deg_rad)) by lra. pose proof (Rabs_pos (val d)). nra. }
    assert (2048 <= top). { unfold top. replace 2048 with (bpow radix2 11) by reflexivity. apply bpow_le. unfold emax. lia. } specialize (T A). lra.
  Qed.
  Lemma small_degrees (k : Z) : (Z.abs k <= 11)%Z -> Rabs (IZR (90 * k)) <= 1024.
  Proof. intros K. rewrite <- abs_IZR. apply IZR_le. lia. Qed.
  Lemma quarter_tf (d : b64) (k : Z) : is_int d (90 * k) -> (-6 <= k <= 6)%Z -> is_int (tf_sin d) (zsin k) /\ is_int (tf_cos d) (zcos k).
  Proof.
    intros [F V] K. destruct (radians_val d F) as [Fr Vr]; [rewrite V; apply small_degrees; lia|].
    pose proof (quarter_radians k K) as Q. rewrite V in Vr. rewrite <- Vr in Q.
    pose proof ulp1_pos. pose proof (zsc_cases k) as C. unfold tf_sin, tf_cos. cbn [tround15 tsin tcos trq FTrig].
    destruct (Hs _ Fr) as [Fs Es]. destruct (Hc _ Fr) as [Fc Ec].
    pose proof (sin_lip (val (radians d)) (IZR k * (PI / 2))) as A. pose proof (cos_lip (val (radians d)) (IZR k * (PI / 2))) as B.
    rewrite sin_quarter in A. rewrite cos_quarter in B. split; apply rounds_int; auto; try lia.
    - pose proof (Rabs_triang (val (sn (radians d)) - sin (val (radians d))) (sin (val (radians d)) - IZR (zsin k))) as T.
      replace (val (sn (radians d)) - sin (val (radians d)) + (sin (val (radians d)) - IZR (zsin k))) with (val (sn (radians d)) - IZR (zsin k)) in T by ring. lra.
    - pose proof (Rabs_triang (val (cs (radians d)) - cos (val (radians d))) (cos (val (radians d)) - IZR (zcos k))) as T.
      replace (val (cs (radians d)) - cos (val (radians d)) + (cos (val (radians d)) - IZR (zcos k))) with (val (cs (radians d)) - IZR (zcos k)) in T by ring. lra.
  Qed.
  Lemma fl_dot_int (x y z a b : Z) : (Z.abs x <= 2 ^ 51)%Z -> (Z.abs y <= 2 ^ 51)%Z -> (Z.abs z <= 2 ^ 51)%Z -> (Z.abs a + Z.abs b <= 1)%Z ->
    fl (fl (fl (- IZR x * IZR a) + fl (- IZR y * IZR b)) + IZR z) = IZR (- x * a - y * b + z) /\ (Z.abs (- x * a - y * b) <= 2 ^ 51)%Z.
  Proof.
    intros X Y Z AB.
    assert (XA : (Z.abs (- x * a) <= 2 ^ 51 /\ Z.abs (- y * b) <= 2 ^ 51 /\ Z.abs (- x * a - y * b) <= 2 ^ 51)%Z).
    { assert (a = 0 /\ b = 0 \/ a = 0 /\ (b = 1 \/ b = -1) \/ b = 0 /\ (a = 1 \/ a = -1))%Z as C by lia.
      destruct C as [[-> ->]|[[-> [-> | ->]]|[-> [-> | ->]]]]; lia. }
    destruct XA as (XA & YB & S). split; [|exact S].
    rewrite <- !opp_IZR, <- !mult_IZR, (fl_IZR (- x * a)), (fl_IZR (- y * b)) by lia. rewrite <- plus_IZR, fl_IZR by lia.
    rewrite <- plus_IZR, fl_IZR by lia. f_equal. ring.
  Qed.

  Theorem quarter_exact (p c : point b64) (d : b64) (ccw : bool) (k x y cx cy : Z) : is_int d (90 * k) -> (-6 <= k <= 6)%Z ->
    int_pt p (x, y) -> int_pt c (cx, cy) -> Forall (fun z => Z.abs z <= 2 ^ 51)%Z [x; y; cx; cy] ->
    exists q, rotatePointAbout p c d ccw = Ok q /\ fin (fst q) /\ fin (snd q) /\
      vpt q = vadd (vpt c) (quarter_turns (if ccw then k else (- k)%Z) (vsub (vpt p) (vpt c))).
  Proof.
    intros D K P C L. repeat match goal with H : Forall _ (_ :: _) |- _ => inversion H; clear H; subst end.
    destruct (quarter_tf d k D K) as [[Fs Vs] [Fc Vc]]. pose proof P as P0. destruct P as [[Fx Vx] [Fy Vy]], C as [[Fcx Vcx] [Fcy Vcy]]. destruct p as [px py], c as [ccx ccy]. cbn [fst snd] in *.
    assert (O : fin (nopp (tf_sin d)) /\ val (nopp (tf_sin d)) = IZR (- zsin k)).
    { split; [unfold fin; cbn [nopp FNum]; rewrite is_finite_Bopp; exact Fs | rewrite opp_IZR, <- Vs; apply B2R_Bopp]. }
    destruct O as [Fo Vo]. pose proof (zsc_cases k) as SC. set (s := if ccw then zsin k else (- zsin k)%Z).
    assert (ER : exists b c, _rotationMatrix d ccw = turned (tf_cos d) b c /\ is_int b s /\ is_int c (- s)).
    { unfold _rotationMatrix, _matrix, turned, s. destruct ccw; [exists (tf_sin d), (nopp (tf_sin d)) | exists (nopp (tf_sin d)), (tf_sin d)]; repeat split; auto.
      now rewrite Z.opp_involutive. }
    destruct ER as (b & cc & ER & [Fb Vb] & [Fcc Vcc]).
    assert (small1 : forall z, (Z.abs z <= 1)%Z -> Rabs (IZR z) <= 2) by (intros z Z1; rewrite <- abs_IZR; apply IZR_le; lia).
    assert (small2 : forall z, (Z.abs z <= 2 ^ 51)%Z -> Rabs (IZR z) <= 2 ^ 51) by (intros z Z1; rewrite <- abs_IZR; replace (2 ^ 51) with (IZR (2 ^ 51)) by (rewrite (pow_IZR 2 51); reflexivity); apply IZR_le; exact Z1).
    assert (Ls : (Z.abs s <= 1)%Z) by (unfold s; destruct ccw; lia).
    unfold rotatePointAbout, rotationAbout, mkTransform. rewrite ER.
    destruct (about_matrix (tf_cos d) b cc ccx ccy (2 ^ 51)) as (a2 & b2 & p2 & c2 & d2 & q2 & m2 & n2 & s2 & EP2 & FP2 & Va2 & Vb2 & Vp2 & Vc2 & Vd2 & Vq2 & Vm2 & Vn2 & Vs2); auto.
    1-3: rewrite ?Vc, ?Vb, ?Vcc; apply small1; lia.
    1-2: rewrite ?Vcx, ?Vcy; apply small2; assumption.
    { apply Rle_pow; [lra | lia]. }
    rewrite EP2. cbn [bind].
    destruct (fl_dot_int cx cy cx (zcos k) (- s)) as [Em Lm]; auto; [unfold s; destruct ccw; lia|].
    destruct (fl_dot_int cx cy cy s (zcos k)) as [En Ln]; auto; [unfold s; destruct ccw; lia|].
    rewrite Vcx, Vcy, Vc, Vcc, Em in Vm2. rewrite Vcx, Vcy, Vc, Vb, En in Vn2.
    repeat match goal with H : Forall _ (_ :: _) |- _ => inversion H; clear H; subst end.
    assert (SC' : (zcos k = 0 /\ (s = 1 \/ s = -1) \/ s = 0 /\ (zcos k = 1 \/ zcos k = -1))%Z) by (unfold s; destruct ccw; lia).
    destruct (apply_int [[a2; b2; p2]; [c2; d2; q2]; [m2; n2; s2]] (px, py) (zcos k) s (- s) (zcos k) (- cx * zcos k - cy * - s + cx) (- cx * s - cy * zcos k + cy) x y) as (r & Er & [[Fr1 Vr1] [Fr2 Vr2]]).
    { repeat (apply Forall2_cons || apply Forall2_nil); (split; [assumption|]); congruence. }
    { exact P0. }
    { unfold zfits. destruct SC' as [[-> [-> | ->]]|[-> [-> | ->]]]; lia. }
    { unfold zfits. destruct SC' as [[-> [-> | ->]]|[-> [-> | ->]]]; lia. }
    exists r. split; [exact Er|]. split; [exact Fr1|]. split; [exact Fr2|]. rewrite quarter_form.
    destruct r as [r1 r2]. unfold vpt, vadd, vsub in *. cbn [fst snd] in *. cbv zeta. rewrite Vr1, Vr2, Vcx, Vcy, Vx, Vy.
    assert (ES : (if ccw then IZR (zsin k) else - IZR (zsin k)) = IZR s) by (unfold s; destruct ccw; [reflexivity | now rewrite opp_IZR]). rewrite ES.
    f_equal; repeat rewrite ?plus_IZR, ?minus_IZR, ?mult_IZR, ?opp_IZR; ring.
  Qed.

  (** Eleven quarter turns: the angle is off by ten times the spacing of the doubles at 1, and the rounding to 15 places no longer hides it. *)
  Lemma radians_990 : let r := radians (bofZ 990) in fin r /\ 104 / 100 * / 1000000000000000 <= val r - IZR 11 * (PI / 2) <= 117 / 100 * / 1000000000000000.
  Proof.
    destruct (val_int 990 ltac:(lia)) as [F V]. intros r. destruct (radians_val (bofZ 990) F) as [Fr Vr]; [rewrite V; apply (small_degrees 11); lia|]. split; [exact Fr|].
    assert (E : r = nmul (bofZ 990) deg_rad).
    { unfold r, radians. cbn [tpi trq FTrig]. change (nofZ 180) with (bofZ 180). now rewrite deg_rad_eq. }
    rewrite E. pose proof PI_close as P.
    match goal with |- _ <= val ?x - _ <= _ => let y := eval vm_compute in (B2SF x) in
      match y with
      | SpecFloat.S754_finite ?s ?m ?e => replace (val x) with (val (@B754_finite prec emax s m e eq_refl)) by (f_equal; apply B2SF_inj; vm_compute; reflexivity); rewrite val_lit; cbn [bpow Z.pow_pos Pos.iter Z.mul radix_val radix2 Pos.mul]
      end
    end. lra.
  Qed.
  Lemma cos_990 : fin (tf_cos (bofZ 990)) /\ / 2 * / 1000000000000000 <= val (tf_cos (bofZ 990)) <= 2 * / 1000000000000000.
  Proof.
    destruct radians_990 as [Fr B]. set (r := radians (bofZ 990)) in *. set (dl := val r - IZR 11 * (PI / 2)) in *.
    assert (C : cos (val r) = sin dl).
    { replace (val r) with (IZR 11 * (PI / 2) + dl) by (unfold dl; ring). rewrite cos_plus, cos_quarter, sin_quarter. change (zcos 11) with 0%Z. change (zsin 11) with (-1)%Z. ring. }
    assert (D : (1 - dl) * dl <= sin dl <= dl).
    { assert (P : 0 < dl) by lra. split; [|left; apply sin_lt_x; exact P].
      destruct (MVT_cor2 sin cos 0 dl P) as (c & E & Bc); [intros; apply derivable_pt_lim_sin|].
      rewrite sin_0, !Rminus_0_r in E. rewrite E. apply Rmult_le_compat_r; [lra|].
      pose proof (cos_lip 0 c) as L. rewrite cos_0 in L. apply Rabs_le_inv in L || (unfold Rabs in L; destruct (Rcase_abs (1 - cos c)); destruct (Rcase_abs (0 - c)); lra).
      rewrite (Rabs_left (0 - c)) in L by lra. lra. }
    destruct (Hc r Fr) as [Fc Ec]. unfold tf_cos. cbn [tround15 tcos trq FTrig]. fold r. rewrite C, ulp_num in Ec. apply Rabs_le_inv in Ec.
    destruct (Hr (cs r) Fc) as (k & K & N). rewrite pow15 in *. apply Rabs_le_inv in K.
    assert (Q : 1 / 10 * / 1000000000000000 >= dl * dl). { assert (dl * dl <= (117 / 100 * / 1000000000000000) * (117 / 100 * / 1000000000000000)) by (apply Rmult_le_compat; lra). lra. }
    assert (k = 1%Z). { assert (0 < IZR k < 2) by (split; lra). assert (0 < k < 2)%Z by (split; apply lt_IZR; lra). lia. }
    subst k. apply nearest_err in N; [|rewrite Rabs_pos_eq by lra; lra]. destruct N as [Fn En]. split; [exact Fn|].
    rewrite (Rabs_pos_eq (1 / 1000000000000000)), ulp_num in En by lra. apply Rabs_le_inv in En.
    pose proof tiny_60.
    lra.
  Qed.
  Theorem quarter_inexact : exists q, rotatePointAbout (bofZ 1, bofZ 0) (bofZ 0, bofZ 0) (bofZ 990) true = Ok q /\ fin (fst q) /\ fin (snd q) /\ val (fst q) <> 0.
  Proof.
    destruct cos_990 as [Fc Bc]. destruct lit01 as (F0 & V0 & F1 & V1). destruct (val_int 990 ltac:(lia)) as [F V].
    destruct (tf_err sn cs ac at2 hy pw r15 ulp1 Hs Hc Hr (bofZ 990) F) as (Fs & _ & Es & _).
    { rewrite V. apply Rle_trans with 1024; [apply (small_degrees 11); lia|]. replace 1024 with (2 ^ 10) by ring. apply Rle_pow; [lra | lia]. }
    { rewrite ulp_num. lra. }
    assert (Ls : Rabs (val (tf_sin (bofZ 990))) <= 2).
    { fold trq in Es. pose proof (Rabs_triang (val (tf_sin (bofZ 990)) - sin (val (bofZ 990) * PI / 180)) (sin (val (bofZ 990) * PI / 180))) as T.
      replace (val (tf_sin (bofZ 990)) - sin (val (bofZ 990) * PI / 180) + sin (val (bofZ 990) * PI / 180)) with (val (tf_sin (bofZ 990))) in T by ring.
      assert (Rabs (sin (val (bofZ 990) * PI / 180)) <= 1) by (apply Rabs_le; pose proof (SIN_bound (val (bofZ 990) * PI / 180)); lra).
      assert (K : Rabs (val (bofZ 990)) = 990) by (rewrite V; apply Rabs_pos_eq; clear; lra). rewrite K, ulp_num in Es.
      set (A := Rabs (sin (val (bofZ 990) * PI / 180))) in *. clearbody A.
      change (Rabs (val (@tf_sin b64 FNum trq (bofZ 990)) - sin (val (bofZ 990) * PI / 180)) <= / 9007199254740992 + 6 * / 9007199254740992 + 990 * / 9007199254740992 / 32) in Es.
      set (B := Rabs (val (@tf_sin b64 FNum trq (bofZ 990)) - sin (val (bofZ 990) * PI / 180))) in *. clearbody B. clear - T Es H. lra. }
    assert (Fo : fin (nopp (tf_sin (bofZ 990)))) by (unfold fin; cbn [nopp FNum]; rewrite is_finite_Bopp; exact Fs).
    assert (Vo : val (nopp (tf_sin (bofZ 990))) = - val (tf_sin (bofZ 990))) by apply B2R_Bopp.
    unfold rotatePointAbout, rotationAbout, mkTransform.
    change (_rotationMatrix (bofZ 990) true) with (turned (tf_cos (bofZ 990)) (tf_sin (bofZ 990)) (nopp (tf_sin (bofZ 990)))).
    destruct (about_matrix (tf_cos (bofZ 990)) (tf_sin (bofZ 990)) (nopp (tf_sin (bofZ 990))) (bofZ 0) (bofZ 0) 0) as (a2 & b2 & p2 & c2 & d2 & q2 & m2 & n2 & s2 & EP2 & FP2 & Va2 & Vb2 & Vp2 & Vc2 & Vd2 & Vq2 & Vm2 & Vn2 & Vs2); auto.
    1: rewrite Rabs_pos_eq; lra. 1: rewrite Vo, Rabs_Ropp; exact Ls. 1-2: rewrite V0, Rabs_R0; lra. 1: apply pow_le; lra.
    rewrite EP2. cbn [bind].
    rewrite V0 in Vm2, Vn2. repeat progress rewrite ?Ropp_0, ?Rmult_0_l, ?Rplus_0_l, ?fl0 in Vm2. repeat progress rewrite ?Ropp_0, ?Rmult_0_l, ?Rplus_0_l, ?fl0 in Vn2.
    assert (B10 : 10 <= 2 ^ 1020). { apply Rle_trans with (2 ^ 4); [lra | apply Rle_pow; [lra | lia]]. }
    destruct (affine_accuracy a2 b2 c2 d2 m2 n2 p2 q2 s2 (bofZ 1) (bofZ 0)) as (r & Er & Fr1 & Fr2 & E1 & _); auto.
    { repeat match goal with H : Forall _ (_ :: _) |- _ => inversion H; clear H; subst end. repeat apply Forall_cons; auto. }
    { rewrite V1, V0, Va2, Vm2, !Rabs_R0, Rabs_R1, (Rabs_pos_eq (val (tf_cos _))) by lra. lra. }
    { rewrite V1, V0, Vb2, Vn2, !Rabs_R0, Rabs_R1. lra. }
    exists r. repeat split; auto. intros Z0. rewrite Z0, V1, V0, Va2, Vm2, !Rabs_R0, Rabs_R1, (Rabs_pos_eq (val (tf_cos _))), ulp_num in E1 by lra.
    pose proof tiny_60.
    apply Rabs_le_inv in E1. lra.
  Qed.
End Quarter.
