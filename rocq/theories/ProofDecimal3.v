(** Proofs: [length] in Decimal arithmetic against the exact sum and the true length. *)
From Coq Require Import List ZArith Bool Reals Lra Lia Psatz.
From Flocq Require Import Core BinarySingleNaN.
From Verif Require Import Py Inst InstFloat SpecGeom SpecBezier SpecCurve SpecArc SpecDouble MTables MTransform MBezUtil MBezier MBezierObj MDecimal ProofLength ProofArc3 ProofDecimal ProofDecimal2.
Import ListNotations.
Local Open Scope R_scope.
#[local] Existing Instance RPy.
#[local] Existing Instance InstFloat.prec_gt_0.
#[local] Existing Instance InstFloat.prec_lt_emax.
Notation dust := SpecDouble.tiny.

Lemma ten_pow p : (1 <= p)%Z -> bpow ten (- p) = / IZR (10 ^ p).
Proof. intros P. rewrite bpow_opp. f_equal. symmetry. apply (IZR_Zpower ten). lia. Qed.
Section Curve.
  Context (p : Z) (b : bezier b64) (P1 : (1 <= p)%Z) (Len : (length (cps b) = 3 \/ length (cps b) = 4)%nat).
  Lemma len_map : cubic_or_less (cps (mkBez (map vpt (cps b)) 0 1)).
  Proof. unfold cubic_or_less. cbn [cps]. now rewrite map_length. Qed.
  Lemma quad_value : quadrature (mkBez (map vpt (cps b)) 0 1) = Ok (gl (fun t => norm (speed_at (map vpt (cps b)) t))).
  Proof. exact (quadrature_gl round15 (mkBez (map vpt (cps b)) 0 1) len_map). Qed.
  Theorem decimal_length M : List.Forall (sized M) (cps b) -> M <= 2 ^ 1000 ->
    exists r l, lengthF p b = Ok r /\ quadrature (mkBez (map vpt (cps b)) 0 1) = Ok l /\
      Rabs (r - l) <= (30 * / IZR (10 ^ p) + 11 * ulp1) * polygon_length (map vpt (cps b)) + 100 * dust.
  Proof. intros S ML. destruct (length_float p b M P1 Len S ML) as (r & E & N). rewrite ten_pow in N by exact P1. eexists. eexists. split; [exact E|]. split; [apply quad_value | exact N]. Qed.
  Theorem decimal_whole zs : Forall2 int_pt (cps b) zs -> List.Forall (fun z => (Z.abs (fst z) < 2 ^ 50)%Z /\ (Z.abs (snd z) < 2 ^ 50)%Z) zs ->
    exists r l, lengthF p b = Ok r /\ quadrature (mkBez (map vpt (cps b)) 0 1) = Ok l /\ Rabs (r - l) <= 30 * / IZR (10 ^ p) * polygon_length (map vpt (cps b)).
  Proof. intros I B. destruct (length_whole p b zs P1 Len I B) as (r & E & N). rewrite ten_pow in N by exact P1. eexists. eexists. split; [exact E|]. split; [apply quad_value | exact N]. Qed.
  Theorem decimal_true M m S : List.Forall (sized M) (cps b) -> M <= 2 ^ 1000 ->
    (forall t, 0 <= t <= 1 -> m <= true_speed (map vpt (cps b)) t <= S) -> 0 <= m -> 0 < S ->
    exists r, lengthF p b = Ok r /\
      Rabs (r - arc_length (map vpt (cps b))) <= S * (400 / 1000 * ((S ^ 2 - m ^ 2) / (S ^ 2 + m ^ 2)) ^ 12 + / IZR (10 ^ 19)) + (30 * / IZR (10 ^ p) + 11 * ulp1) * polygon_length (map vpt (cps b)) + 100 * dust.
  Proof.
    intros F ML B m0 S0. destruct (decimal_length M F ML) as (r & l & E & Q & N). exists r. split; [exact E|].
    assert (mS : m <= S) by (specialize (B 0 ltac:(lra)); lra). set (rho := (S ^ 2 - m ^ 2) / (S ^ 2 + m ^ 2)).
    assert (R0 : 0 <= rho <= 1). { unfold rho. assert (D : 0 < S ^ 2 + m ^ 2) by nra. split; [apply Rmult_le_pos; [nra | apply Rlt_le, Rinv_0_lt_compat, D]|]. apply Rmult_le_reg_r with (S ^ 2 + m ^ 2); [exact D|]. unfold Rdiv. rewrite Rmult_assoc, Rinv_l by lra. nra. }
    assert (G : Rabs (l - arc_length (map vpt (cps b))) <= S * (400 / 1000 * rho ^ 12 + / IZR (10 ^ 19))).
    { destruct Len as [L3|L4].
      - eapply Rle_trans; [apply (steady_quadratic (mkBez (map vpt (cps b)) 0 1) l m S); try assumption; cbn [cps]; now rewrite map_length|]. fold rho. apply Rmult_le_compat_l; [lra|]. apply Rplus_le_compat_r.
        assert (0 <= rho ^ 12 <= 1) by (split; [now apply pow_le | rewrite <- (pow1 12); now apply pow_incr]). replace (rho ^ 24) with (rho ^ 12 * rho ^ 12) by (rewrite <- pow_add; reflexivity). nra.
      - eapply Rle_trans; [apply (steady_cubic (mkBez (map vpt (cps b)) 0 1) l m S); try assumption; cbn [cps]; now rewrite map_length|]. fold rho. apply Rmult_le_compat_l; [lra|]. apply Rplus_le_compat_l.
        apply Rinv_le; [apply IZR_lt; reflexivity | apply IZR_le; vm_compute; discriminate]. }
    replace (r - arc_length (map vpt (cps b))) with ((r - l) + (l - arc_length (map vpt (cps b)))) by ring. eapply Rle_trans; [apply Rabs_triang|]. lra.
  Qed.
End Curve.
Theorem decimal_digits (p : Z) (b : bezier b64) (r : R) : (1 <= p)%Z -> lengthF p b = Ok r -> exists n e : Z, (Z.abs n < 10 ^ p)%Z /\ ((0 <= e)%Z /\ r = IZR n * IZR (10 ^ e) \/ (e < 0)%Z /\ r = IZR n / IZR (10 ^ (- e))).
Proof.
  intros P E. unfold lengthF in E. destruct (mapM (mapM decPoint) (firstn 1 (dcPoints b))) as [dc|]; [|discriminate]. cbn [bind] in E. unfold decLength in E. destruct (decSum (p + 2) dc (order b)) as [s|]; [|discriminate]. cbn [bind] in E. apply Ok_inv in E. subst r.
  assert (Pg : Prec_gt_0 p) by (unfold Prec_gt_0; lia).
  assert (G : FLX_format ten p (dpos p s)) by (apply FLX_format_generic; [exact Pg|]; apply generic_format_round; [now apply FLX_exp_valid | apply valid_rnd_N]).
  destruct G as [[n e] V H]. exists n, e. split; [exact H|]. rewrite V. unfold F2R. cbn [Fnum Fexp]. destruct (Z_le_gt_dec 0 e) as [e0|e0].
  - left. split; [exact e0|]. f_equal. symmetry. apply (IZR_Zpower ten). lia.
  - right. split; [lia|]. unfold Rdiv. f_equal. replace e with (- (- e))%Z at 1 by lia. rewrite bpow_opp. f_equal. symmetry. apply (IZR_Zpower ten). lia.
Qed.
