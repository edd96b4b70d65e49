(** A C library meeting the demands of SpecDouble3 exists: every function correctly rounded. *)
From Coq Require Import List ZArith Bool Reals Lra Lia Psatz.
From Flocq Require Import Core BinarySingleNaN Relative.
From Verif Require Import Py Inst InstFloat SpecGeom SpecDouble SpecDouble3
  ProofAlign ProofDouble ProofDouble2 ProofDouble9 ProofDouble10 ProofDouble11.
Local Open Scope R_scope.
#[local] Existing Instance InstFloat.prec_gt_0.
#[local] Existing Instance InstFloat.prec_lt_emax.

Definition to_double (r : R) : b64 :=
  binary_normalize prec emax InstFloat.prec_gt_0 InstFloat.prec_lt_emax mode_NE
    (Ztrunc (scaled_mantissa radix2 (SpecFloat.fexp prec emax) (fl r))) (cexp radix2 (SpecFloat.fexp prec emax) (fl r)) false.
Lemma to_double_val (r : R) : Rabs (fl r) < top -> fin (to_double r) /\ val (to_double r) = fl r.
Proof.
  intros L. unfold to_double. set (g := fl r) in *.
  assert (G : generic_format radix2 (SpecFloat.fexp prec emax) g) by (apply generic_format_round; [apply fexp_correct; reflexivity | apply valid_rnd_round_mode]).
  pose proof (binary_normalize_correct prec emax InstFloat.prec_gt_0 InstFloat.prec_lt_emax mode_NE (Ztrunc (scaled_mantissa radix2 (SpecFloat.fexp prec emax) g)) (cexp radix2 (SpecFloat.fexp prec emax) g) false) as C.
  cbv zeta in C.
  assert (E : F2R (Float radix2 (Ztrunc (scaled_mantissa radix2 (SpecFloat.fexp prec emax) g)) (cexp radix2 (SpecFloat.fexp prec emax) g)) = g) by (symmetry; exact G).
  rewrite E in C. assert (E2 : round radix2 (SpecFloat.fexp prec emax) (round_mode mode_NE) g = g) by (apply round_generic; [apply valid_rnd_round_mode | exact G]).
  rewrite E2 in C. rewrite Rlt_bool_true in C by exact L. destruct C as (C1 & C2 & _). split; [exact C2 | exact C1].
Qed.
Lemma fl_nearest (r : R) (y : b64) : Rabs (fl r - r) <= Rabs (val y - r).
Proof.
  destruct (round_N_pt radix2 (SpecFloat.fexp prec emax) (fun z => negb (Z.even z)) r) as [_ N]. apply N. apply generic_format_B2R.
Qed.
Lemma small_top (r : R) : Rabs r <= 16 -> Rabs (fl r) < top.
Proof. intros L. apply fl_bound2 in L. assert (1024 <= top) by (unfold top; replace 1024 with (bpow radix2 10) by reflexivity; apply bpow_le; unfold emax; lia). lra. Qed.
Lemma fl_unit (r : R) : Rabs r <= 1 -> Rabs (fl r - r) <= ulp1.
Proof.
  intros L. destruct (Rle_dec (Rabs r) (/ 2)) as [S|S].
  - apply Rle_trans with (1 := fl_err r). pose proof ulp_tiny. pose proof ulp1_pos.
    assert (ulp1 * Rabs r <= ulp1 * / 2) by (apply Rmult_le_compat_l; lra). lra.
  - pose proof (relative_error_N_FLT radix2 (SpecFloat.emin prec emax) prec eq_refl (fun z => negb (Z.even z)) r) as E.
    assert (B : bpow radix2 (SpecFloat.emin prec emax + prec - 1) <= Rabs r).
    { apply Rle_trans with (/ 2); [change (/ 2) with (bpow radix2 (-1)); apply bpow_le; unfold SpecFloat.emin, prec, emax; lia | lra]. }
    specialize (E B). change (Rabs (fl r - r) <= / 2 * bpow radix2 (- prec + 1) * Rabs r) in E.
    replace (/ 2 * bpow radix2 (- prec + 1)) with ulp1 in E. 2: { rewrite ulp1_bpow. change (/ 2) with (bpow radix2 (-1)). rewrite <- bpow_plus. reflexivity. }
    pose proof ulp1_pos. assert (ulp1 * Rabs r <= ulp1 * 1) by (apply Rmult_le_compat_l; lra). lra.
Qed.
Lemma rounded_within (g : R -> R) : (forall x, Rabs (g x) <= 1) -> within ulp1 (fun x => to_double (g (val x))) g.
Proof.
  intros B x F. specialize (B (val x)). destruct (to_double_val (g (val x))) as [Fd Vd]; [apply small_top; lra|]. split; [exact Fd|]. rewrite Vd. now apply fl_unit.
Qed.
Lemma atan2_range (y x : R) : - PI <= Ratan2 y x <= PI.
Proof.
  assert (Q : forall z, z <= 0 -> atan z <= 0).
  { intros z [Z|Z]; [left; rewrite <- atan_0; now apply atan_increasing | right; rewrite Z; apply atan_0]. }
  assert (Q' : forall z, 0 <= z -> 0 <= atan z).
  { intros z [Z|Z]; [left; rewrite <- atan_0; now apply atan_increasing | right; rewrite <- Z; symmetry; apply atan_0]. }
  unfold Ratan2. pose proof PI_RGT_0 as P. pose proof (atan_bound (y / x)) as A.
  destruct (Rlt_dec 0 x); [lra|]. destruct (Rlt_dec x 0) as [X|X].
  - assert (I : / x < 0) by (apply Rinv_lt_0_compat; exact X). destruct (Rle_dec 0 y).
    + assert (y / x <= 0) by (unfold Rdiv; nra). specialize (Q _ H). lra.
    + assert (0 <= y / x) by (unfold Rdiv; nra). specialize (Q' _ H). lra.
  - destruct (Rlt_dec 0 y); [lra|]. destruct (Rlt_dec y 0); lra.
Qed.
Lemma rounded_angle : angle_within (4 * ulp1) (fun y x => to_double (Ratan2 (val y) (val x))).
Proof.
  intros y x Fy Fx N. pose proof (atan2_range (val y) (val x)) as B. pose proof PI_close as P.
  assert (A : Rabs (Ratan2 (val y) (val x)) <= 32 / 10) by (apply Rabs_le; lra).
  destruct (to_double_val (Ratan2 (val y) (val x))) as [Fd Vd]; [apply small_top; lra|]. split; [exact Fd|].
  exists (Ratan2 (val y) (val x)). split; [exact B|]. split.
  - rewrite Vd. apply Rle_trans with (1 := fl_err _). pose proof ulp_tiny. pose proof ulp1_pos. assert (ulp1 * Rabs (Ratan2 (val y) (val x)) <= ulp1 * (32 / 10)) by (apply Rmult_le_compat_l; lra). lra.
  - destruct (atan2_polar (val y) (val x)) as [C S]. cbv zeta in *.
    replace (val x ^ 2 + val y ^ 2) with (val x * val x + val y * val y) by ring.
    replace (val x ^ 2 + val y ^ 2) with (val x * val x + val y * val y) in C by ring. replace (val x ^ 2 + val y ^ 2) with (val x * val x + val y * val y) in S by ring.
    split; symmetry; assumption.
Qed.
Lemma rounded_places : rounds15 (fun x => to_double (IZR (ZnearestE (val x * 10 ^ 15)) / 10 ^ 15)).
Proof.
  intros x F. set (k := ZnearestE (val x * 10 ^ 15)). exists k.
  assert (K : Rabs (val x * 10 ^ 15 - IZR k) <= / 2) by apply Znearest_half. split; [exact K|]. rewrite pow15 in *.
  set (r := IZR k / 1000000000000000).
  assert (D : Rabs (val x - r) <= / 1000000000000000).
  { replace (val x - r) with ((val x * 1000000000000000 - IZR k) * / 1000000000000000) by (unfold r; field).
    rewrite Rabs_mult, (Rabs_pos_eq (/ 1000000000000000)) by lra. lra. }
  destruct (to_double_val r) as [Fd Vd].
  { pose proof (fl_nearest r x) as N.
    assert (T : Rabs (fl r) <= Rabs (val x) + 2 * / 1000000000000000).
    { pose proof (Rabs_triang (fl r - r) (r - val x)) as T1. pose proof (Rabs_triang (fl r - val x) (val x)) as T2.
      replace (fl r - r + (r - val x)) with (fl r - val x) in T1 by ring. replace (fl r - val x + val x) with (fl r) in T2 by ring.
      rewrite (Rabs_minus_sym r) in T1. lra. }
    pose proof (abs_B2R_le_emax_minus_prec prec emax InstFloat.prec_gt_0 x) as B. assert (B1 : 1 <= bpow radix2 (emax - prec)) by (change 1 with (bpow radix2 0); apply bpow_le; unfold emax, prec; lia). apply Rle_lt_trans with (1 := T). unfold top. change (@B2R prec emax x) with (val x) in B. clear - B B1. lra. }
  split; [exact Fd|]. intros y Fy. rewrite Vd. apply fl_nearest.
Qed.
Theorem library_exists : exists sn cs at2 r15, within ulp1 sn sin /\ within ulp1 cs cos /\ angle_within (4 * ulp1) at2 /\ rounds15 r15.
Proof.
  do 4 eexists. split; [apply (rounded_within sin); intros; apply Rabs_le; pose proof (SIN_bound x); lra|].
  split; [apply (rounded_within cos); intros; apply Rabs_le; pose proof (COS_bound x); lra|]. split; [apply rounded_angle | apply rounded_places].
Qed.
