(** Bounding boxes of cubics with integer (or dyadic) coordinates in binary64; what goes wrong with other coordinates. *)
From Coq Require Import List ZArith Bool Reals Lra Lia Psatz.
From Flocq Require Import Core BinarySingleNaN Relative.
From Verif Require Import Py Inst InstFloat SpecGeom SpecFit SpecBezier SpecDouble MTransform MBounds MBezUtil MBezier MContour
  ProofBezier ProofBezier2 ProofDouble ProofDouble2 ProofDouble3 ProofDouble4.
Import ListNotations.
Local Open Scope R_scope.
#[local] Existing Instance InstFloat.prec_gt_0.
#[local] Existing Instance InstFloat.prec_lt_emax.

Lemma crit_max (f f' : R -> R) : (forall t, derivable_pt_lim f t (f' t)) -> forall t, 0 <= t <= 1 ->
  exists s, f t <= f s /\ (s = 0 \/ s = 1 \/ (0 < s < 1 /\ f' s = 0)).
Proof.
  intros D t Ht. assert (Df : forall t, derivable_pt f t) by (intros x; exists (f' x); apply D).
  destruct (continuity_ab_maj f 0 1 ltac:(lra)) as (m & Hm & HI).
  { intros c _. apply derivable_continuous_pt, Df. }
  exists m. split; [auto|]. destruct (Req_dec m 0) as [->|N0]; auto. destruct (Req_dec m 1) as [->|N1]; auto. right; right. split; [lra|].
  assert (I : 0 < m < 1) by lra. pose proof (deriv_maximum f 0 1 m (Df m) (proj1 I) (proj2 I)) as E.
  rewrite (derive_pt_eq_0 f m (f' m) _ (D m)) in E. apply E. intros; apply Hm; lra.
Qed.
Definition f3 (a0 a1 a2 a3 s : R) : R := (1 - s) ^ 3 * a0 + 3 * (1 - s) ^ 2 * s * a1 + 3 * (1 - s) * s ^ 2 * a2 + s ^ 3 * a3.
Lemma f3_deriv a0 a1 a2 a3 t : derivable_pt_lim (f3 a0 a1 a2 a3) t ((1 - t) ^ 2 * (3 * (a1 - a0)) + 2 * (1 - t) * t * (3 * (a2 - a1)) + t ^ 2 * (3 * (a3 - a2))).
Proof.
  set (b1 := 3 * (a1 - a0)). set (b2 := 3 * (a2 - 2 * a1 + a0)). set (b3 := a3 - 3 * a2 + 3 * a1 - a0).
  assert (E : forall s, f3 a0 a1 a2 a3 s = a0 + b1 * s + b2 * s ^ 2 + b3 * s ^ 3) by (intros s; unfold f3, b1, b2, b3; ring).
  replace (_ + _ + _) with (b1 + b2 * (2 * t) + b3 * (3 * t ^ 2)) by (unfold b1, b2, b3; ring).
  assert (K : derivable_pt_lim (fun s => a0 + b1 * s + b2 * s ^ 2 + b3 * s ^ 3) t (0 + b1 * 1 + b2 * (2 * t) + b3 * (3 * t ^ 2))).
  { apply (derivable_pt_lim_plus (fun s => a0 + b1 * s + b2 * s ^ 2) (fun s => b3 * s ^ 3)).
    - apply (derivable_pt_lim_plus (fun s => a0 + b1 * s) (fun s => b2 * s ^ 2)).
      + apply (derivable_pt_lim_plus (fun _ => a0) (fun s => b1 * s)); [apply derivable_pt_lim_const|].
        apply (derivable_pt_lim_scal (fun s => s) b1 t 1). apply derivable_pt_lim_id.
      + apply (derivable_pt_lim_scal (fun s => s ^ 2) b2). replace (2 * t) with (INR 2 * t ^ 1) by (simpl; ring). apply (derivable_pt_lim_pow t 2).
    - apply (derivable_pt_lim_scal (fun s => s ^ 3) b3). replace (3 * t ^ 2) with (INR 3 * t ^ 2) by (simpl; ring). apply (derivable_pt_lim_pow t 3). }
  intros eps He. destruct (K eps He) as [del Hd]. exists del. intros h Hh Hl. rewrite !E. specialize (Hd h Hh Hl).
  replace (b1 + b2 * (2 * t) + b3 * (3 * t ^ 2)) with (0 + b1 * 1 + b2 * (2 * t) + b3 * (3 * t ^ 2)) by ring. exact Hd.
Qed.
(** Near a flat spot the values differ by the square of the distance. *)
Lemma flat_near (a0 a1 a2 a3 s t B : R) : let a := 3 * (a1 - a0) in let b := 3 * (a2 - a1) in let c := 3 * (a3 - a2) in
  (1 - s) ^ 2 * a + 2 * (1 - s) * s * b + s ^ 2 * c = 0 -> Rabs (t - s) <= 1 ->
  Rabs ((a - 2 * b + c) * s + (b - a)) <= B -> Rabs (a - 2 * b + c) <= B ->
  Rabs (f3 a0 a1 a2 a3 s - f3 a0 a1 a2 a3 t) <= 2 * B * (t - s) ^ 2.
Proof.
  intros a b c Z T H1 H2.
  assert (E : f3 a0 a1 a2 a3 s - f3 a0 a1 a2 a3 t = - ((t - s) ^ 2 * (((a - 2 * b + c) * s + (b - a)) + (t - s) * ((a - 2 * b + c) / 3))) - (t - s) * ((1 - s) ^ 2 * a + 2 * (1 - s) * s * b + s ^ 2 * c))
    by (unfold f3, a, b, c; field).
  rewrite E, Z, Rmult_0_r, Rminus_0_r, Rabs_Ropp, Rabs_mult, (Rabs_pos_eq ((t - s) ^ 2)) by apply pow2_ge_0.
  rewrite Rmult_comm. apply Rmult_le_compat_r; [apply pow2_ge_0|]. eapply Rle_trans; [apply Rabs_triang|].
  rewrite Rabs_mult. unfold Rdiv at 1. rewrite Rabs_mult, (Rabs_pos_eq (/ 3)) by lra.
  assert (Rabs (t - s) * (Rabs (a - 2 * b + c) * / 3) <= 1 * (Rabs (a - 2 * b + c) * / 3)).
  { apply Rmult_le_compat_r; [|exact T]. apply Rmult_le_pos; [apply Rabs_pos | lra]. }
  pose proof (Rabs_pos (a - 2 * b + c)). lra.
Qed.

Section Cubic.
  Context {TO : TrigOps b64} (HS : forall x : b64, tsqrt x = Bsqrt mode_NE x).

  Lemma opp_val (x : b64) : fin x -> fin (nopp x) /\ val (nopp x) = - val x.
  Proof. intros F. split; [unfold fin in *; cbn [nopp FNum]; now rewrite is_finite_Bopp | unfold val; cbn [nopp FNum]; apply B2R_Bopp]. Qed.
  Lemma sqrt_val (x : b64) : fin x -> 0 <= val x -> bsqrt x = Some (Bsqrt mode_NE x) /\ fin (Bsqrt mode_NE x) /\ val (Bsqrt mode_NE x) = fl (sqrt (val x)).
  Proof.
    intros F P. destruct (val_int 0) as [F0 V0]; [lia|]. unfold bsqrt.
    assert (L : nltb x (nofZ 0) = false) by (apply ltb_val_false; auto; change (nofZ 0) with (bofZ 0); lra). rewrite L, HS.
    split; [reflexivity|]. pose proof (Bsqrt_correct prec emax _ _ mode_NE x) as (E & Fi & _). split; [|exact E].
    unfold fin in *. rewrite Fi. destruct x as [s|s| |s m e H]; auto; try discriminate. destruct s; auto.
  Qed.
  Lemma dy_opp e x z : dy e x z -> dy e (nopp x) (- z).
  Proof. intros [F V]. destruct (opp_val x F) as [F' V']. split; [exact F'|]. rewrite V', V, opp_IZR. ring. Qed.

  Lemma root_near (e : nat) (N za zb zc : Z) (a b c : b64) (s : R) : (1 <= N <= 2 ^ 20)%Z -> (e <= 400)%nat -> dy e a za -> dy e b zb -> dy e c zc ->
    (Z.abs za <= 6 * N)%Z -> (Z.abs zb <= 6 * N)%Z -> (Z.abs zc <= 6 * N)%Z -> 0 < s < 1 ->
    (1 - s) ^ 2 * val a + 2 * (1 - s) * s * val b + s ^ 2 * val c = 0 -> (za <> 0 \/ zb <> 0 \/ zc <> 0)%Z ->
    exists v, fin v /\ In (Some v) (droots [a; b; c]) /\ Rabs (val v - s) <= 36 * ulp1 * IZR N.
  Proof.
    intros HN He Da Db Dc Ba Bb Bc Hs Z NZ.
    pose proof ulp1_pos as Pu. pose proof tiny_pos as Pt. pose proof ulp1_small as Su. pose proof tiny_small as St. pose proof top_1000000 as Tb.
    assert (N1 : 1 <= IZR N) by (apply IZR_le; lia). assert (N2 : IZR N <= 1048576) by (apply (IZR_le N (2 ^ 20)); lia).
    assert (D2 : dy 0 (nofZ 2) 2) by (apply dy_int, int_lit; lia). assert (D0 : dy 0 (nofZ 0) 0) by (apply dy_int, int_lit; lia).
    destruct (val_int 0) as [Fz Vz]; [lia|]. change (bofZ 0) with (nofZ 0 : b64) in Fz, Vz.
    pose proof (dy_mul 0 e _ _ _ _ D2 Db ltac:(lia) ltac:(lia)) as D2b. cbn [plus] in D2b.
    pose proof (dy_sub e _ _ _ _ Da D2b ltac:(lia) ltac:(lia)) as Dd1. pose proof (dy_add e _ _ _ _ Dd1 Dc ltac:(lia) ltac:(lia)) as Dd.
    unfold droots. set (d := nadd (nsub a (nmul (nofZ 2) b)) c) in *. set (zd := (za - 2 * zb + zc)%Z) in *.
    set (q := / 2 ^ e). assert (Q0 : 0 < q) by (apply Rinv_0_lt_compat, pow_lt; lra).
    destruct Dd as [Fd Vd]. destruct Da as [Fa Va]. destruct Db as [Fb Vb]. destruct Dc as [Fc Vc]. fold q in Va, Vb, Vc, Vd.
    assert (Zr : IZR zd * s ^ 2 + 2 * (IZR zb - IZR za) * s + IZR za = 0).
    { unfold zd. rewrite plus_IZR, minus_IZR, mult_IZR. rewrite Va, Vb, Vc in Z. apply (Rmult_eq_reg_r q); [|lra]. rewrite Rmult_0_l, <- Z. ring. }
    assert (UN : 0 < ulp1 * IZR N) by (apply Rmult_lt_0_compat; lra).
    assert (U1 : ulp1 <= ulp1 * IZR N) by (rewrite <- (Rmult_1_r ulp1) at 1; apply Rmult_le_compat_l; lra).
    destruct (Z.eq_dec zd 0) as [E0|E0].
    - (* the derivative is linear *)
      assert (Vd0 : val d = val (nofZ 0 : b64)) by (rewrite Vd, E0, Vz; ring).
      rewrite (val_neqb d (nofZ 0) Fd Fz Vd0). cbn [negb].
      rewrite E0 in Zr. assert (Nb : zb <> zc).
      { intros K. assert (Zba : (zb = za)%Z) by (unfold zd in E0; lia). rewrite Zba in Zr.
        assert (IZR za = 0) by lra. apply eq_IZR in H. lia. }
      assert (Nv : val b <> val c). { rewrite Vb, Vc. intros K. apply Nb. apply eq_IZR. apply (Rmult_eq_reg_r q); [exact K | lra]. }
      rewrite (neqb_val b c Fb Fc Nv). cbn [negb andb].
      assert (Db : dy e b zb) by (split; auto). assert (Dc : dy e c zc) by (split; auto).
      pose proof (dy_sub e _ _ _ _ D2b Dc ltac:(lia) ltac:(lia)) as Dn. pose proof (dy_sub e _ _ _ _ Db Dc ltac:(lia) ltac:(lia)) as Dm.
      pose proof (dy_mul 0 e _ _ _ _ D2 Dm ltac:(lia) ltac:(lia)) as Dm2. cbn [plus] in Dm2.
      set (n := nsub (nmul (nofZ 2) b) c) in *. set (m := nmul (nofZ 2) (nsub b c)) in *.
      destruct Dn as [Fn Vn]. destruct Dm2 as [Fm Vm]. fold q in Vn, Vm.
      assert (M0 : IZR (2 * (zb - zc)) <> 0) by (intros K; apply eq_IZR in K; lia).
      assert (Mv : val m <> 0) by (rewrite Vm; apply Rmult_integral_contrapositive_currified; lra).
      assert (Es : val n / val m = s).
      { assert (K : val n = s * val m).
        { rewrite Vn, Vm. assert (Zc : zc = (2 * zb - za)%Z) by (unfold zd in E0; lia). rewrite Zc, mult_IZR, !minus_IZR, mult_IZR.
          pose proof (f_equal (fun x => x * q) Zr) as Kq. cbv beta in Kq. lra. }
        rewrite K. field. exact Mv. }
      destruct (div_fl n m Fn Mv) as [Fv Vv].
      { rewrite Es. pose proof (fl_size s 1 ltac:(apply Rabs_le; lra)). lra. }
      exists (nquot n m). split; [exact Fv|]. split; [left; reflexivity|]. rewrite Vv, Es.
      pose proof (fl_bound s 1 ltac:(apply Rabs_le; lra)). lra.
    - assert (Nd : val d <> val (nofZ 0 : b64)).
      { rewrite Vd, Vz. intros K. apply E0, eq_IZR. apply (Rmult_eq_reg_r q); [|lra]. rewrite K. ring. }
      rewrite (neqb_val d (nofZ 0) Fd Fz Nd). cbn [negb].
      assert (Da : dy e a za) by (split; auto). assert (Db : dy e b zb) by (split; auto). assert (Dc : dy e c zc) by (split; auto).
      assert (Pb : (0 <= zb * zb <= 36 * (N * N))%Z) by nia. assert (Pac : (Z.abs (za * zc) <= 36 * (N * N))%Z) by (rewrite Z.abs_mul; nia).
      assert (NN : (N * N <= 2 ^ 40)%Z) by nia.
      pose proof (dy_mul e e _ _ _ _ Db Db ltac:(lia) ltac:(lia)) as Dbb. pose proof (dy_mul e e _ _ _ _ Da Dc ltac:(lia) ltac:(lia)) as Dac.
      pose proof (dy_sub (e + e) _ _ _ _ Dbb Dac ltac:(lia) ltac:(lia)) as Dx.
      pose proof (dy_add e _ _ _ _ (dy_opp _ _ _ Da) Db ltac:(lia) ltac:(lia)) as Dm.
      set (x := nsub (nmul b b) (nmul a c)) in *. set (m2 := nadd (nopp a) b) in *. destruct Dx as [Fx Vx]. destruct Dm as [Fm Vm]. fold q in Vm.
      rewrite pow_add, Rinv_mult in Vx. fold q in Vx.
      set (y := IZR zd * s + (IZR zb - IZR za)).
      assert (Ey : IZR (zb * zb - za * zc) = y ^ 2).
      { assert (K : y ^ 2 = IZR zd * (IZR zd * s ^ 2 + 2 * (IZR zb - IZR za) * s + IZR za) + IZR (zb * zb - za * zc)).
        { unfold y, zd. rewrite !minus_IZR, !plus_IZR, !mult_IZR, !minus_IZR, !mult_IZR. ring. }
        rewrite Zr in K. lra. }
      assert (Vx2 : val x = (y * q) ^ 2) by (rewrite Vx, Ey; ring).
      assert (Px : 0 <= val x) by (rewrite Vx2; apply pow2_ge_0).
      destruct (sqrt_val x Fx Px) as (Eq & Fs & Vs). rewrite Eq. set (S := Bsqrt mode_NE x) in *.
      assert (Sy : sqrt (val x) = Rabs y * q).
      { rewrite Vx2. replace ((y * q) ^ 2) with (Rsqr (y * q)) by (unfold Rsqr; ring). rewrite sqrt_Rsqr_abs, Rabs_mult, (Rabs_pos_eq q) by lra. reflexivity. }
      rewrite Sy in Vs.
      assert (By : Rabs y <= 9 * IZR N).
      { assert (K : y ^ 2 <= 72 * (IZR N * IZR N)).
        { rewrite <- Ey, <- mult_IZR, <- mult_IZR. apply IZR_le. lia. }
        assert (NR : 0 < IZR N * IZR N) by (apply Rmult_lt_0_compat; lra).
        apply Rabs_le. split; apply Rnot_lt_le; intros L.
        - assert (9 * IZR N * (9 * IZR N) <= - y * - y) by (apply Rmult_le_compat; lra). lra.
        - assert (9 * IZR N * (9 * IZR N) <= y * y) by (apply Rmult_le_compat; lra). lra. }
      assert (Bm : Rabs (val m2) <= 12 * IZR N * q).
      { rewrite Vm, Rabs_mult, (Rabs_pos_eq q) by lra. apply Rmult_le_compat_r; [lra|]. rewrite <- abs_IZR, <- mult_IZR. apply IZR_le. lia. }
      assert (NQ : 0 < IZR N * q) by (apply Rmult_lt_0_compat; lra).
      assert (q1 : q <= 1).
      { unfold q. rewrite <- Rinv_1. apply Rinv_le_contravar; [lra|]. apply pow_R1_Rle. lra. }
      assert (TQ : tiny <= / 1000 * (ulp1 * q)).
      { unfold tiny, ulp1, q. replace 1075%nat with (53 + (10 + (e + (1012 - e))))%nat by lia. rewrite !pow_add, !Rinv_mult.
        assert (/ 2 ^ (1012 - e) <= 1) by (rewrite <- Rinv_1; apply Rinv_le_contravar; [lra | apply pow_R1_Rle; lra]).
        assert (P1 : 0 < / 2 ^ 53) by (apply Rinv_0_lt_compat, pow_lt; lra). assert (P2 : 0 < / 2 ^ e) by (apply Rinv_0_lt_compat, pow_lt; lra).
        assert (P3 : / 2 ^ 10 <= / 1000) by (apply Rinv_le_contravar; lra). assert (P4 : 0 < / 2 ^ 10) by (apply Rinv_0_lt_compat; lra).
        replace (/ 1000 * (/ 2 ^ 53 * / 2 ^ e)) with (/ 2 ^ 53 * (/ 1000 * (/ 2 ^ e * 1))) by ring.
        apply Rmult_le_compat_l; [lra|]. apply Rmult_le_compat; [lra | | exact P3 | apply Rmult_le_compat_l; lra].
        apply Rmult_le_pos; [lra|]. left. apply Rinv_0_lt_compat, pow_lt; lra. }
      assert (UQ : 0 < ulp1 * q) by (apply Rmult_lt_0_compat; lra).
      assert (UQN : ulp1 * q <= ulp1 * (IZR N * q)).
      { apply Rmult_le_compat_l; [lra|]. rewrite <- (Rmult_1_l q) at 1. apply Rmult_le_compat_r; lra. }
      assert (UNQ : ulp1 * (IZR N * q) <= / 1000000 * (IZR N * q)) by (apply Rmult_le_compat_r; lra).
      assert (Bs : Rabs (Rabs y * q) <= 9 * (IZR N * q)).
      { rewrite Rabs_mult, Rabs_Rabsolu, (Rabs_pos_eq q) by lra. rewrite <- Rmult_assoc. apply Rmult_le_compat_r; lra. }
      pose proof (fl_bound _ _ Bs) as ES. pose proof (fl_size _ _ Bs) as SS.
      assert (NQ2 : IZR N * q <= 1048576) by (rewrite <- (Rmult_1_r 1048576); apply Rmult_le_compat; lra).
      (* one of the two numerators *)
      assert (Num : forall w : b64, forall sg, (sg = 1 \/ sg = -1) -> (Rabs (fl (sg * val S + val m2)) < ProofDouble.top -> fin w /\ val w = fl (sg * val S + val m2)) ->
        fin w /\ Rabs (val w - (sg * (Rabs y * q) + val m2)) <= 33 * ulp1 * (IZR N * q)).
      { intros w sg Hsg Ov. assert (Sz : Rabs (sg * val S + val m2) <= 22 * (IZR N * q)).
        { rewrite Vs. eapply Rle_trans; [apply Rabs_triang|]. rewrite Rabs_mult. replace (Rabs sg) with 1 by (destruct Hsg as [->| ->]; [rewrite Rabs_pos_eq | rewrite Rabs_left1]; lra). lra. }
        pose proof (fl_bound _ _ Sz) as EW. pose proof (fl_size _ _ Sz) as SW.
        assert (Tl : 23 * 1048576 + 1000 < ProofDouble.top).
        { unfold ProofDouble.top. apply Rlt_le_trans with (bpow radix2 30); [change (bpow radix2 30) with (IZR (2 ^ 30)); lra | apply bpow_le; unfold emax; lia]. }
        destruct (Ov ltac:(lra)) as [Fw Hw]. split; [exact Fw|]. rewrite Hw.
        replace (fl (sg * val S + val m2) - (sg * (Rabs y * q) + val m2)) with ((fl (sg * val S + val m2) - (sg * val S + val m2)) + sg * (val S - Rabs y * q)) by ring.
        eapply Rle_trans; [apply Rabs_triang|]. rewrite Rabs_mult. replace (Rabs sg) with 1 by (destruct Hsg as [->| ->]; [rewrite Rabs_pos_eq | rewrite Rabs_left1]; lra).
        rewrite <- Vs in ES. lra. }
      assert (Bd : q <= Rabs (val d)).
      { rewrite Vd, Rabs_mult, (Rabs_pos_eq q) by lra. rewrite <- (Rmult_1_l q) at 1. apply Rmult_le_compat_r; [lra|]. rewrite <- abs_IZR. apply IZR_le. lia. }
      assert (d0 : val d <> 0) by (intros K; rewrite K, Rabs_R0 in Bd; lra).
      assert (Su2 : ulp1 <= / 100000000) by (unfold ulp1; apply Rinv_le_contravar; lra).
      assert (SuN : ulp1 * IZR N <= / 100000000 * 1048576) by (apply Rmult_le_compat; lra).
      assert (Quo : forall (w : b64) sg, fin w -> Rabs (val w - (sg * (Rabs y * q) + val m2)) <= 33 * ulp1 * (IZR N * q) -> y = - sg * Rabs y ->
        fin (nquot (nopp w) d) /\ Rabs (val (nquot (nopp w) d) - s) <= 36 * ulp1 * IZR N).
      { intros w sg Fw Ew Hy. destruct (opp_val w Fw) as [Fo Vo].
        assert (Es : - (sg * (Rabs y * q) + val m2) / val d = s).
        { apply (Rmult_eq_reg_r (val d)); [|exact d0]. unfold Rdiv. rewrite Rmult_assoc, Rinv_l, Rmult_1_r by exact d0.
          rewrite Vm, Vd, plus_IZR, opp_IZR. replace (- (sg * (Rabs y * q) + (- IZR za + IZR zb) * q)) with ((- sg * Rabs y - (IZR zb - IZR za)) * q) by ring.
          rewrite <- Hy. unfold y. ring. }
        assert (Er : Rabs (val (nopp w) / val d - s) <= 33 * (ulp1 * IZR N)).
        { rewrite Vo. replace (- val w / val d - s) with (- (val w - (sg * (Rabs y * q) + val m2)) / val d).
          2:{ rewrite <- Es. field. exact d0. }
          unfold Rdiv. rewrite Rabs_mult, Rabs_Ropp, Rabs_inv. apply (Rmult_le_reg_r (Rabs (val d))); [lra|].
          rewrite Rmult_assoc, Rinv_l, Rmult_1_r by lra. eapply Rle_trans; [exact Ew|].
          replace (33 * ulp1 * (IZR N * q)) with (33 * (ulp1 * IZR N) * q) by ring. apply Rmult_le_compat_l; lra. }
        assert (Br : Rabs (val (nopp w) / val d) <= 2).
        { replace (val (nopp w) / val d) with ((val (nopp w) / val d - s) + s) by ring. eapply Rle_trans; [apply Rabs_triang|]. rewrite (Rabs_pos_eq s) by lra. lra. }
        pose proof (fl_bound _ _ Br) as EB. pose proof (fl_size _ _ Br) as SB. destruct (div_fl (nopp w) d Fo d0) as [Fv Vv]; [lra|].
        split; [exact Fv|]. rewrite Vv. replace (fl (val (nopp w) / val d) - s) with ((fl (val (nopp w) / val d) - val (nopp w) / val d) + (val (nopp w) / val d - s)) by ring.
        eapply Rle_trans; [apply Rabs_triang|].
        assert (tiny <= ulp1) by (unfold tiny, ulp1; apply Rinv_le_contravar; [apply pow_lt; lra | apply Rle_pow; [lra | lia]]). lra. }
      destruct (Rle_or_lt 0 y) as [Hy|Hy].
      + destruct (opp_val S Fs) as [Fo Vo].
        destruct (Num (nadd (nopp S) m2) (-1) (or_intror eq_refl)) as [Fw Ew].
        { pose proof (plus_fl _ m2 Fo Fm) as K. rewrite Vo in K. replace (-1 * val S + val m2) with (- val S + val m2) by ring. exact K. }
        destruct (Quo _ (-1) Fw Ew) as [Fv Ev]; [rewrite Rabs_pos_eq; lra|].
        exists (nquot (nopp (nadd (nopp S) m2)) d). split; [exact Fv|]. split; [left; reflexivity | exact Ev].
      + destruct (opp_val S Fs) as [Fo Vo]. destruct (opp_val _ Fo) as [Foo Voo].
        destruct (Num (nadd (nopp (nopp S)) m2) 1 (or_introl eq_refl)) as [Fw Ew].
        { pose proof (plus_fl _ m2 Foo Fm) as K. rewrite Voo, Vo in K. replace (1 * val S + val m2) with (- - val S + val m2) by ring. exact K. }
        destruct (Quo _ 1 Fw Ew) as [Fv Ev]; [rewrite Rabs_left1; lra|].
        exists (nquot (nopp (nadd (nopp (nopp S)) m2)) d). split; [exact Fv|]. split; [right; left; reflexivity | exact Ev].
  Qed.

  Lemma coord4 d (p q r w : pt) s : coord d (curve [p; q; r; w] s) = f3 (coord d p) (coord d q) (coord d r) (coord d w) s.
  Proof. rewrite curve4. unfold coord, f3. destruct p, q, r, w. destruct (Nat.eqb d 0); reflexivity. Qed.
  Lemma coord_dyp d e N p : dyp e N p -> exists z, dy e (coord d p) z /\ (Z.abs z <= N)%Z.
  Proof. intros (zx & zy & A & B & C & D). unfold coord. destruct (Nat.eqb d 0); eauto. Qed.

  Lemma flat_spot (e : nat) (N z0 z1 z2 z3 : Z) (x0 x1 x2 x3 : b64) (s : R) : (1 <= N <= 2 ^ 20)%Z -> (e <= 400)%nat ->
    dy e x0 z0 -> dy e x1 z1 -> dy e x2 z2 -> dy e x3 z3 ->
    (Z.abs z0 <= N)%Z -> (Z.abs z1 <= N)%Z -> (Z.abs z2 <= N)%Z -> (Z.abs z3 <= N)%Z ->
    let a := nmul (bofZ 3) (nsub x1 x0) in let b := nmul (bofZ 3) (nsub x2 x1) in let c := nmul (bofZ 3) (nsub x3 x2) in
    0 < s < 1 -> (1 - s) ^ 2 * (3 * (val x1 - val x0)) + 2 * (1 - s) * s * (3 * (val x2 - val x1)) + s ^ 2 * (3 * (val x3 - val x2)) = 0 ->
    exists t, tried (inUnit (droots [a; b; c])) t /\
      Rabs (f3 (val x0) (val x1) (val x2) (val x3) s - f3 (val x0) (val x1) (val x2) (val x3) (val t)) <= 8 * ulp1 * (IZR N * / 2 ^ e).
  Proof.
    intros HN He D0 D1 D2 D3 B0 B1 B2 B3 a b c Hs Z.
    pose proof ulp1_pos as Pu. destruct (val_int 0) as [Fz Vz]; [lia|]. destruct (val_int 1) as [Fo Vo]; [lia|].
    assert (Q0 : 0 < / 2 ^ e) by (apply Rinv_0_lt_compat, pow_lt; lra).
    assert (N1 : 1 <= IZR N) by (apply IZR_le; lia). assert (N2 : IZR N <= 1048576) by (apply (IZR_le N (2 ^ 20)); lia).
    assert (T3 : dy 0 (bofZ 3) 3) by (apply dy_int, int_lit; lia).
    assert (Step : forall p q zp zq, dy e p zp -> dy e q zq -> (Z.abs zp <= N)%Z -> (Z.abs zq <= N)%Z ->
      dy e (nmul (bofZ 3) (nsub q p)) (3 * (zq - zp)) /\ val (nmul (bofZ 3) (nsub q p)) = 3 * (val q - val p)).
    { intros p q zp zq Dp Dq Bp Bq. pose proof (dy_sub e _ _ _ _ Dq Dp ltac:(lia) ltac:(lia)) as Ds.
      pose proof (dy_mul 0 e _ _ _ _ T3 Ds ltac:(lia) ltac:(lia)) as Dm. cbn [plus] in Dm. split; [exact Dm|].
      destruct Dm as [_ V]. rewrite V. destruct Dp as [_ Vp]. destruct Dq as [_ Vq]. rewrite Vp, Vq, mult_IZR, minus_IZR. ring. }
    destruct (Step _ _ _ _ D0 D1 B0 B1) as [Da Va]. destruct (Step _ _ _ _ D1 D2 B1 B2) as [Db Vb]. destruct (Step _ _ _ _ D2 D3 B2 B3) as [Dc Vc].
    fold a in Da, Va. fold b in Db, Vb. fold c in Dc, Vc. clear Step.
    assert (NQ : 0 < IZR N * / 2 ^ e) by (apply Rmult_lt_0_compat; lra).
    assert (P : 0 < ulp1 * (IZR N * / 2 ^ e)) by (apply Rmult_lt_0_compat; lra).
    destruct (Z.eq_dec z0 z1) as [E1|E1]; [destruct (Z.eq_dec z1 z2) as [E2|E2]; [destruct (Z.eq_dec z2 z3) as [E3|E3]|]|].
    1:{ exists (bofZ 0). split; [right; now left|]. destruct D0 as [_ V0]. destruct D1 as [_ V1]. destruct D2 as [_ V2]. destruct D3 as [_ V3].
        rewrite Vz, V0, V1, V2, V3, E1, E2, E3. unfold f3. replace (_ - _) with 0 by ring. rewrite Rabs_R0. lra. }
    all: assert (NZ : (3 * (z1 - z0) <> 0 \/ 3 * (z2 - z1) <> 0 \/ 3 * (z3 - z2) <> 0)%Z) by lia.
    all: destruct (root_near e N _ _ _ a b c s HN He Da Db Dc ltac:(lia) ltac:(lia) ltac:(lia) Hs) as (v & Fv & Iv & Ev); [rewrite Va, Vb, Vc; exact Z | exact NZ|].
    all: assert (H0 : 36 * ulp1 * IZR N <= 1) by (assert (Su2 : ulp1 <= / 100000000) by (unfold ulp1; apply Rinv_le_contravar; lra);
           assert (ulp1 * IZR N <= / 100000000 * 1048576) by (apply Rmult_le_compat; lra); lra).
    all: assert (Dom : forall t : b64, Rabs (val t - s) <= 36 * ulp1 * IZR N ->
           Rabs (f3 (val x0) (val x1) (val x2) (val x3) s - f3 (val x0) (val x1) (val x2) (val x3) (val t)) <= 8 * ulp1 * (IZR N * / 2 ^ e)).
    all: try (intros t Ht; destruct D0 as [_ V0]; destruct D1 as [_ V1]; destruct D2 as [_ V2]; destruct D3 as [_ V3];
      assert (Sz : forall z, (Z.abs z <= N)%Z -> Rabs (IZR z * / 2 ^ e) <= IZR N * / 2 ^ e)
        by (intros z Hz; rewrite Rabs_mult, (Rabs_pos_eq (/ 2 ^ e)) by lra; apply Rmult_le_compat_r; [lra|]; rewrite <- abs_IZR; apply IZR_le; exact Hz);
      pose proof (Sz _ B0) as S0; pose proof (Sz _ B1) as S1; pose proof (Sz _ B2) as S2; pose proof (Sz _ B3) as S3;
      rewrite <- V0 in S0; rewrite <- V1 in S1; rewrite <- V2 in S2; rewrite <- V3 in S3; set (M := IZR N * / 2 ^ e) in *;
      apply Rabs_le_inv in S0, S1, S2, S3;
      set (A := 3 * (val x1 - val x0)) in *; set (B := 3 * (val x2 - val x1)) in *; set (C := 3 * (val x3 - val x2)) in *;
      assert (HA : -6 * M <= A <= 6 * M) by (unfold A; lra); assert (HB : -6 * M <= B <= 6 * M) by (unfold B; lra); assert (HC : -6 * M <= C <= 6 * M) by (unfold C; lra);
      eapply Rle_trans; [apply (flat_near _ _ _ _ s (val t) (24 * M)); [exact Z | lra | | apply Rabs_le; fold A B C; lra]|]).
    all: try (fold A B C; apply Rabs_le; replace ((A - 2 * B + C) * s + (B - A)) with ((1 - s) * (B - A) + s * (C - B)) by ring;
      assert (-12 * M * (1 - s) <= (B - A) * (1 - s)) by (apply Rmult_le_compat_r; lra); assert ((B - A) * (1 - s) <= 12 * M * (1 - s)) by (apply Rmult_le_compat_r; lra);
      assert (-12 * M * s <= (C - B) * s) by (apply Rmult_le_compat_r; lra); assert ((C - B) * s <= 12 * M * s) by (apply Rmult_le_compat_r; lra); lra).
    all: try (assert (Q : (val t - s) ^ 2 <= 36 * ulp1 * IZR N * (36 * ulp1 * IZR N)) by
        (rewrite <- (Rsqr_pow2 (val t - s)), Rsqr_abs; unfold Rsqr; apply Rmult_le_compat; auto using Rabs_pos);
      assert (UN : ulp1 * (IZR N * IZR N) <= / 2 ^ 13) by
        (apply Rle_trans with (/ 2 ^ 53 * (1048576 * 1048576)); [unfold ulp1; apply Rmult_le_compat_l; [left; apply Rinv_0_lt_compat; lra|]; apply Rmult_le_compat; lra | lra]);
      apply Rle_trans with (2 * (24 * M) * (36 * ulp1 * IZR N * (36 * ulp1 * IZR N))); [apply Rmult_le_compat_l; lra|];
      replace (2 * (24 * M) * (36 * ulp1 * IZR N * (36 * ulp1 * IZR N))) with (62208 * (ulp1 * (IZR N * IZR N)) * (ulp1 * M)) by ring;
      replace (8 * ulp1 * M) with (8 * (ulp1 * M)) by ring; apply Rmult_le_compat_r; lra).
    all: destruct (Rlt_or_le (val v) 0) as [L0|L0]; [exists (bofZ 0); split; [right; now left | apply Dom; rewrite Vz; apply Rabs_le_inv in Ev; apply Rabs_le; lra]|].
    all: destruct (Rlt_or_le 1 (val v)) as [L1|L1]; [exists (bofZ 1); split; [right; now right | apply Dom; rewrite Vo; apply Rabs_le_inv in Ev; apply Rabs_le; lra]|].
    all: exists v; split; [left; apply unit_in; auto | apply Dom, Ev].
  Qed.

  Lemma cubic_close (b : bezier b64) d e N : length (cps b) = 4%nat -> Forall (dyp e N) (cps b) -> (1 <= N <= 2 ^ 20)%Z -> (e <= 400)%nat ->
    close b d (8 * ulp1 * (IZR N * / 2 ^ e)).
  Proof.
    intros L A HN He. destruct b as [c u v]; cbn [cps] in *. destruct c as [|c0 [|c1 [|c2 [|c3 [|]]]]]; try (simpl in L; lia).
    inversion A as [|? ? S0 A1]. inversion A1 as [|? ? S1 A2]. inversion A2 as [|? ? S2 A3]. inversion A3 as [|? ? S3 _]. subst. clear A A1 A2 A3 L.
    destruct (coord_dyp d _ _ _ S0) as (z0 & D0 & B0). destruct (coord_dyp d _ _ _ S1) as (z1 & D1 & B1).
    destruct (coord_dyp d _ _ _ S2) as (z2 & D2 & B2). destruct (coord_dyp d _ _ _ S3) as (z3 & D3 & B3).
    set (p := nmul (bofZ 3) (nsub (coord d c1) (coord d c0))). set (q := nmul (bofZ 3) (nsub (coord d c2) (coord d c1))). set (r := nmul (bofZ 3) (nsub (coord d c3) (coord d c2))).
    assert (Ex : exists l2, extremaDim (mkBez [c0; c1; c2; c3] u v) d = Ok (inUnit (droots [p; q; r] ++ l2))).
    { unfold extremaDim, order, dcPoints. cbn [cps length dcPointsFrom idx nth_error bind Nat.sub Nat.eqb dcLevel map].
      assert (Cd : forall a b, coord d (diffStep 3 a b) = nmul (bofZ 3) (nsub (coord d b) (coord d a))) by (intros a b; unfold coord, diffStep; destruct (Nat.eqb d 0); reflexivity).
      rewrite !Cd. eexists. reflexivity. }
    destruct Ex as (l2 & Ex). exists (inUnit (droots [p; q; r] ++ l2)). split; [exact Ex|]. clear Ex.
    assert (Mono : forall t, tried (inUnit (droots [p; q; r])) t -> tried (inUnit (droots [p; q; r] ++ l2)) t).
    { intros t [H|H]; [left | now right]. unfold inUnit in *. rewrite flat_map_app. apply in_or_app. now left. }
    destruct (val_int 0) as [Fz Vz]; [lia|]. destruct (val_int 1) as [Fo Vo]; [lia|]. pose proof ulp1_pos as Pu.
    assert (P : 0 <= 8 * ulp1 * (IZR N * / 2 ^ e)).
    { apply Rmult_le_pos; [lra|]. apply Rmult_le_pos; [apply IZR_le; lia|]. left. apply Rinv_0_lt_compat, pow_lt. lra. }
    set (dl := 8 * ulp1 * (IZR N * / 2 ^ e)) in *.
    set (x0 := coord d c0) in *. set (x1 := coord d c1) in *. set (x2 := coord d c2) in *. set (x3 := coord d c3) in *.
    assert (Fc : forall s, coord d (curve (map vpt [c0; c1; c2; c3]) s) = f3 (val x0) (val x1) (val x2) (val x3) s).
    { intros s. cbn [map]. rewrite coord4. unfold x0, x1, x2, x3. now rewrite !coord_val. }
    assert (Best : forall s, s = 0 \/ s = 1 \/ (0 < s < 1 /\
        (1 - s) ^ 2 * (3 * (val x1 - val x0)) + 2 * (1 - s) * s * (3 * (val x2 - val x1)) + s ^ 2 * (3 * (val x3 - val x2)) = 0) ->
      exists t, tried (inUnit (droots [p; q; r] ++ l2)) t /\ Rabs (f3 (val x0) (val x1) (val x2) (val x3) s - f3 (val x0) (val x1) (val x2) (val x3) (val t)) <= dl).
    { intros s [->|[->|[Hs Hz]]].
      - exists (bofZ 0). split; [right; now left|]. rewrite Vz, Rminus_eq_0, Rabs_R0. exact P.
      - exists (bofZ 1). split; [right; now right|]. rewrite Vo, Rminus_eq_0, Rabs_R0. exact P.
      - destruct (flat_spot e N z0 z1 z2 z3 x0 x1 x2 x3 s HN He D0 D1 D2 D3 B0 B1 B2 B3 Hs Hz) as (t & Ht & Et). exists t. split; [apply Mono, Ht | exact Et]. }
    intros s Hs. split.
    - destruct (crit_max _ _ (f3_deriv (val x0) (val x1) (val x2) (val x3)) s Hs) as (m & Hm & Km). destruct (Best m Km) as (t & Ht & Et).
      exists t. split; [exact Ht|]. rewrite !Fc. apply Rabs_le_inv in Et. lra.
    - destruct (crit_max (fun s => - f3 (val x0) (val x1) (val x2) (val x3) s) _ (fun t => derivable_pt_lim_opp _ _ _ (f3_deriv (val x0) (val x1) (val x2) (val x3) t)) s Hs) as (m & Hm & Km).
      cbv beta in Hm, Km. destruct (Best m) as (t & Ht & Et); [destruct Km as [K|[K|[K1 K2]]]; auto; right; right; split; [exact K1 | lra]|].
      exists t. split; [exact Ht|]. rewrite !Fc. apply Rabs_le_inv in Et. lra.
  Qed.
End Cubic.


