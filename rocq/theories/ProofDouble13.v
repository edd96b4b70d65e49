(** Roots of quadratics in double precision. *)
From Coq Require Import List ZArith Bool Reals Lra Lia Psatz.
From Flocq Require Import Core BinarySingleNaN Relative.
From Verif Require Import Py Inst InstFloat SpecGeom SpecFit SpecBezier SpecCurve SpecDouble SpecDouble3 MTransform MBounds MBezUtil MBezier MContour
  ProofBezier ProofDouble ProofDouble2 ProofDouble3 ProofDouble4 ProofDouble5 ProofDouble9 ProofDouble10 ProofDouble11.
Import ListNotations.
Local Open Scope R_scope.
#[local] Existing Instance InstFloat.prec_gt_0.
#[local] Existing Instance InstFloat.prec_lt_emax.

(** ** The filter of roots *)
Lemma eps_val : fin (epsilon : b64) /\ Rabs (val (epsilon : b64) - / 1000000) <= / 1000000000000.
Proof.
  match goal with |- fin ?x /\ _ => let y := eval vm_compute in (B2SF x) in
    match y with SpecFloat.S754_finite ?s ?m ?e =>
      assert (E : x = @B754_finite prec emax s m e eq_refl) by (apply B2SF_inj; vm_compute; reflexivity) end end.
  rewrite E. split; [reflexivity|]. rewrite val_lit. cbn [bpow Z.pow_pos Pos.iter Z.mul radix_val radix2 Pos.mul]. apply Rabs_le. lra.
Qed.
Lemma abs_le_val (x y : b64) : fin x -> fin y -> nleb (nabs x) y = true <-> Rabs (val x) <= val y.
Proof. intros Fx Fy. destruct (abs_val x Fx) as [Fa Va]. rewrite leb_val by auto. now rewrite Va. Qed.
Lemma sub_one (v : b64) : fin v -> Rabs (val v) <= 2 ^ 40 -> fin (nsub v (bofZ 1)) /\ exists d, Rabs d <= ulp1 /\ val (nsub v (bofZ 1)) = (val v - 1) * (1 + d).
Proof.
  intros F L. destruct lit01 as (_ & _ & F1 & V1). destruct (sub_double v (bofZ 1) (2 ^ 40)) as (A & d & B & C); auto.
  - rewrite V1, Rabs_R1. apply pow_R1_Rle. lra.
  - apply Rle_pow; [lra | lia].
  - rewrite V1 in C. split; [exact A | exists d; auto].
Qed.
Lemma rootOk_in (v : b64) : fin v -> - / 2000000 <= val v <= 1 + / 2000000 -> rootOk v = true.
Proof.
  intros F B. destruct lit01 as (F0 & V0 & F1 & V1). destruct eps_val as [Fe Ve]. apply Rabs_le_inv in Ve. unfold rootOk, approximately, approximatelyP. change (nofZ 0 : b64) with (bofZ 0). change (nofZ 1 : b64) with (bofZ 1).
  destruct (Rle_dec (val v) (/ 2000000)) as [L|L].
  - destruct (sub_zero v F) as [Fs Vs]. assert (K : nleb (nabs (nsub v (bofZ 0))) epsilon = true) by (apply abs_le_val; auto; rewrite Vs; apply Rabs_le; lra).
    rewrite K. now rewrite Bool.orb_true_r.
  - destruct (sub_one v F) as (Fs & d & Ld & Vs). { apply Rle_trans with 2; [apply Rabs_le; lra|]. apply Rle_trans with (2 ^ 1); [lra | apply Rle_pow; [lra | lia]]. }
    destruct (Rle_dec (val v) 1) as [L1|L1].
    + assert (K : nleb (bofZ 0) v && nleb v (bofZ 1) = true) by (apply andb_true_intro; split; apply leb_val; auto; lra). rewrite K. reflexivity.
    + assert (K : nleb (nabs (nsub v (bofZ 1))) epsilon = true).
      { apply abs_le_val; auto. rewrite Vs, Rabs_mult. pose proof ulp1_small. apply Rabs_le_inv in Ld. rewrite (Rabs_pos_eq (val v - 1)), (Rabs_pos_eq (1 + d)) by lra.
        assert ((val v - 1) * (1 + d) <= / 2000000 * (3 / 2)) by (apply Rmult_le_compat; lra). lra. }
      rewrite K. now rewrite !Bool.orb_true_r.
Qed.
Lemma rootOk_out (v : b64) : fin v -> Rabs (val v) <= 2 ^ 40 -> rootOk v = true -> - (2 / 1000000) <= val v <= 1 + 2 / 1000000.
Proof.
  intros F L R. destruct lit01 as (F0 & V0 & F1 & V1). destruct eps_val as [Fe Ve]. apply Rabs_le_inv in Ve. unfold rootOk, approximately, approximatelyP in R. change (nofZ 0 : b64) with (bofZ 0) in R. change (nofZ 1 : b64) with (bofZ 1) in R.
  apply orb_prop in R as [R|R]; [apply orb_prop in R as [R|R]|].
  - apply andb_prop in R as [A B]. apply leb_val in A, B; auto. lra.
  - destruct (sub_zero v F) as [Fs Vs]. apply abs_le_val in R; auto. rewrite Vs in R. apply Rabs_le_inv in R. lra.
  - destruct (sub_one v F L) as (Fs & d & Ld & Vs). apply abs_le_val in R; auto. rewrite Vs, Rabs_mult in R. pose proof ulp1_small. apply Rabs_le_inv in Ld.
    rewrite (Rabs_pos_eq (1 + d)) in R by lra. pose proof (Rabs_pos (val v - 1)) as P.
    assert (K : Rabs (val v - 1) * (999999 / 1000000) <= Rabs (val v - 1) * (1 + d)) by (apply Rmult_le_compat_l; lra).
    assert (K2 : Rabs (val v - 1) <= 2 / 1000000) by lra. apply Rabs_le_inv in K2. lra.
Qed.

Lemma in_one {A} (c : bool) (v u : A) : In u (if c then [v] else []) -> c = true /\ v = u.
Proof. destruct c; [intros [K|[]]; auto | intros []]. Qed.

Section Quad.
  Context {TO : TrigOps b64} (HS : forall x : b64, tsqrt x = Bsqrt mode_NE x).
  Context (e : nat) (N za zb zc : Z) (a b c : b64).
  Hypothesis HN : (1 <= N <= 2 ^ 25)%Z.
  Hypothesis He : (e <= 400)%nat.
  Hypothesis Da : dy e a za.
  Hypothesis Db : dy e b zb.
  Hypothesis Dc : dy e c zc.
  Hypothesis Ba : (Z.abs za <= N)%Z.
  Hypothesis Bb : (Z.abs zb <= N)%Z.
  Hypothesis Bc : (Z.abs zc <= N)%Z.
  Let q : R := / 2 ^ e.
  Let zd : Z := (za - 2 * zb + zc)%Z.
  Let B : R := 10 * ulp1 * IZR N.

  Lemma q_pos : 0 < q <= 1.
  Proof. unfold q. split; [apply Rinv_0_lt_compat, pow_lt; lra|]. rewrite <- Rinv_1. apply Rinv_le_contravar; [lra|]. apply pow_R1_Rle. lra. Qed.
  Lemma N_real : 1 <= IZR N <= 33554432.
  Proof. split; [apply IZR_le; lia | apply (IZR_le N 33554432); lia]. Qed.
  Lemma tiny_q : tiny <= / 1000 * (ulp1 * q).
  Proof.
    unfold tiny, ulp1, q. replace 1075%nat with (53 + (10 + (e + (1012 - e))))%nat by lia. rewrite !pow_add, !Rinv_mult.
    assert (/ 2 ^ (1012 - e) <= 1) by (rewrite <- Rinv_1; apply Rinv_le_contravar; [lra | apply pow_R1_Rle; lra]).
    assert (P1 : 0 < / 2 ^ 53) by (apply Rinv_0_lt_compat, pow_lt; lra). assert (P2 : 0 < / 2 ^ e) by (apply Rinv_0_lt_compat, pow_lt; lra).
    assert (P3 : / 2 ^ 10 <= / 1000) by (apply Rinv_le_contravar; lra). assert (P4 : 0 < / 2 ^ 10) by (apply Rinv_0_lt_compat; lra).
    replace (/ 1000 * (/ 2 ^ 53 * / 2 ^ e)) with (/ 2 ^ 53 * (/ 1000 * (/ 2 ^ e * 1))) by ring.
    apply Rmult_le_compat_l; [lra|]. apply Rmult_le_compat; [lra | | exact P3 | apply Rmult_le_compat_l; lra].
    apply Rmult_le_pos; [lra|]. left. apply Rinv_0_lt_compat, pow_lt; lra.
  Qed.
  Lemma D2b : dy e (nmul (nofZ 2) b) (2 * zb).
  Proof. exact (dy_mul 0 e _ _ _ _ (proj1 (dy_int _ _) (int_lit 2 ltac:(lia))) Db ltac:(lia) ltac:(lia)). Qed.
  Lemma Dd : dy e (nadd (nsub a (nmul (nofZ 2) b)) c) zd.
  Proof. exact (dy_add e _ _ _ _ (dy_sub e _ _ _ _ Da D2b ltac:(lia) ltac:(lia)) Dc ltac:(lia) ltac:(lia)). Qed.

  (** One of the two quotients. *)
  Lemma quotient_near (sg : R) (sig : R) (S w : b64) : sg = 1 \/ sg = -1 -> 0 <= sig <= 3 / 2 * IZR N -> fin S -> Rabs (val S - sig * q) <= ulp1 * (3 / 2 * IZR N * q) + tiny ->
    let m2 := nadd (nopp a) b in let d := nadd (nsub a (nmul (nofZ 2) b)) c in zd <> 0%Z ->
    (Rabs (fl (sg * val S + val m2)) < ProofDouble.top -> fin w /\ val w = fl (sg * val S + val m2)) ->
    fin (nquot (nopp w) d) /\ Rabs (val (nquot (nopp w) d) - - (sg * sig + IZR (zb - za)) / IZR zd) <= B.
  Proof.
    intros Hsg Bs FS ES m2 d E0 Ov. destruct q_pos as [Q0 Q1]. destruct N_real as [N1 N2]. pose proof tiny_q as TQ.
    pose proof ulp1_pos as Pu. pose proof tiny_pos as Pt. pose proof ulp1_small as Su.
    pose proof (dy_add e _ _ _ _ (dy_opp _ _ _ Da) Db ltac:(lia) ltac:(lia)) as Dm. destruct Dm as [Fm Vm]. fold q in Vm. fold m2 in Fm, Vm.
    destruct Dd as [Fd Vd]. fold q in Vd. fold d in Fd, Vd.
    assert (NQ : 0 < IZR N * q) by (apply Rmult_lt_0_compat; lra).
    assert (UQ : 0 < ulp1 * q) by (apply Rmult_lt_0_compat; lra).
    assert (QN : q <= IZR N * q) by (rewrite <- (Rmult_1_l q) at 1; apply Rmult_le_compat_r; lra).
    assert (UQN : ulp1 * q <= ulp1 * (IZR N * q)) by (apply Rmult_le_compat_l; lra).
    assert (UNQ : ulp1 * (IZR N * q) <= / 1000000 * (IZR N * q)) by (apply Rmult_le_compat_r; lra).
    assert (Bm : Rabs (val m2) <= 2 * (IZR N * q)).
    { rewrite Vm, Rabs_mult, (Rabs_pos_eq q) by lra. rewrite <- Rmult_assoc. apply Rmult_le_compat_r; [lra|]. rewrite <- abs_IZR, <- mult_IZR. apply IZR_le. lia. }
    assert (A1 : Rabs sg = 1) by (destruct Hsg as [->| ->]; [rewrite Rabs_pos_eq | rewrite Rabs_left1]; lra).
    assert (SQ : 0 <= sig * q <= 3 / 2 * (IZR N * q)).
    { split; [apply Rmult_le_pos; lra|]. rewrite <- Rmult_assoc. apply Rmult_le_compat_r; lra. }
    assert (VS : Rabs (val S) <= 16 / 10 * (IZR N * q)).
    { pose proof (Rabs_triang (val S - sig * q) (sig * q)) as T. replace (val S - sig * q + sig * q) with (val S) in T by ring. rewrite (Rabs_pos_eq (sig * q)) in T by lra. lra. }
    assert (Sz : Rabs (sg * val S + val m2) <= 36 / 10 * (IZR N * q)).
    { eapply Rle_trans; [apply Rabs_triang|]. rewrite Rabs_mult, A1. lra. }
    pose proof (fl_bound _ _ Sz) as EW. pose proof (fl_size _ _ Sz) as SW.
    assert (Tl : 4294967296 <= ProofDouble.top).
    { unfold ProofDouble.top. apply Rle_trans with (bpow radix2 32); [change (bpow radix2 32) with (IZR (2 ^ 32)); apply IZR_le; lia | apply bpow_le; unfold emax; lia]. }
    assert (NQ2 : IZR N * q <= 33554432) by (rewrite <- (Rmult_1_r 33554432); apply Rmult_le_compat; lra).
    pose proof tiny_60 as T60.
    destruct (Ov ltac:(lra)) as [Fw Hw].
    assert (Ew : Rabs (val w - (sg * (sig * q) + val m2)) <= 52 / 10 * ulp1 * (IZR N * q)).
    { rewrite Hw. replace (fl (sg * val S + val m2) - (sg * (sig * q) + val m2)) with ((fl (sg * val S + val m2) - (sg * val S + val m2)) + sg * (val S - sig * q)) by ring.
      eapply Rle_trans; [apply Rabs_triang|]. rewrite Rabs_mult, A1. lra. }
    assert (Bd : q <= Rabs (val d)).
    { rewrite Vd, Rabs_mult, (Rabs_pos_eq q) by lra. rewrite <- (Rmult_1_l q) at 1. apply Rmult_le_compat_r; [lra|]. rewrite <- abs_IZR. apply IZR_le. lia. }
    assert (d0 : val d <> 0) by (intros K; rewrite K, Rabs_R0 in Bd; lra).
    assert (zd0 : IZR zd <> 0) by (intros K; apply eq_IZR in K; lia).
    destruct (opp_val w Fw) as [Fo Vo].
    set (r := - (sg * sig + IZR (zb - za)) / IZR zd).
    assert (Er0 : - (sg * (sig * q) + val m2) / val d = r).
    { unfold r. rewrite Vm, Vd. replace (- za + zb)%Z with (zb - za)%Z by ring. field. split; lra. }
    assert (Div : forall x K, Rabs x <= K * (IZR N * q) -> 0 <= K -> Rabs (x / val d) <= K * IZR N).
    { intros x K HX K0. unfold Rdiv. rewrite Rabs_mult, Rabs_inv. apply (Rmult_le_reg_r (Rabs (val d))); [lra|].
      rewrite Rmult_assoc, Rinv_l, Rmult_1_r by lra. apply Rle_trans with (1 := HX). rewrite <- Rmult_assoc. apply Rmult_le_compat_l; [apply Rmult_le_pos; lra | exact Bd]. }
    assert (Er : Rabs (val (nopp w) / val d - r) <= 52 / 10 * ulp1 * IZR N).
    { rewrite Vo. replace (- val w / val d - r) with (- (val w - (sg * (sig * q) + val m2)) / val d) by (rewrite <- Er0; field; exact d0).
      apply Div; [rewrite Rabs_Ropp; exact Ew | apply Rmult_le_pos; lra]. }
    assert (Bq : Rabs (val (nopp w) / val d) <= 37 / 10 * IZR N).
    { apply Div; [|lra]. rewrite Vo, Rabs_Ropp, Hw. lra. }
    pose proof (fl_bound _ _ Bq) as EB. pose proof (fl_size _ _ Bq) as SB. destruct (div_fl (nopp w) d Fo d0) as [Fv Vv]; [lra|].
    split; [exact Fv|]. rewrite Vv. replace (fl (val (nopp w) / val d) - r) with ((fl (val (nopp w) / val d) - val (nopp w) / val d) + (val (nopp w) / val d - r)) by ring.
    eapply Rle_trans; [apply Rabs_triang|]. pose proof ulp_tiny as UT.
    assert (ulp1 <= ulp1 * IZR N) by (rewrite <- (Rmult_1_r ulp1) at 1; apply Rmult_le_compat_l; lra). unfold B. lra.
  Qed.

  Definition disc : Z := (zb * zb - za * zc)%Z.
  Lemma disc_bound : (Z.abs disc <= 2 * (N * N))%Z /\ (N * N <= 2 ^ 50)%Z.
  Proof.
    unfold disc. assert (Z.abs (zb * zb) <= N * N)%Z by (rewrite Z.abs_mul; nia). assert (Z.abs (za * zc) <= N * N)%Z by (rewrite Z.abs_mul; nia). split; [lia | nia].
  Qed.
  Lemma Dx : dy (e + e) (nsub (nmul b b) (nmul a c)) disc.
  Proof.
    destruct disc_bound as [A NN]. unfold disc in *. assert (Z.abs (zb * zb) <= N * N)%Z by (rewrite Z.abs_mul; nia). assert (Z.abs (za * zc) <= N * N)%Z by (rewrite Z.abs_mul; nia).
    exact (dy_sub (e + e) _ _ _ _ (dy_mul e e _ _ _ _ Db Db ltac:(lia) ltac:(lia)) (dy_mul e e _ _ _ _ Da Dc ltac:(lia) ltac:(lia)) ltac:(lia) ltac:(lia)).
  Qed.

  Definition qroot (t : R) : Prop := (1 - t) ^ 2 * val a + 2 * (1 - t) * t * val b + t ^ 2 * val c = 0.
  Lemma qroot_int (t : R) : qroot t <-> IZR zd * t ^ 2 + 2 * IZR (zb - za) * t + IZR za = 0.
  Proof.
    unfold qroot, zd. destruct q_pos as [Q0 Q1]. destruct Da as [_ Va]. destruct Db as [_ Vb]. destruct Dc as [_ Vc]. fold q in Va, Vb, Vc. rewrite Va, Vb, Vc.
    rewrite plus_IZR, !minus_IZR, mult_IZR.
    split; intros K.
    - apply (Rmult_eq_reg_r q); [|lra]. rewrite Rmult_0_l, <- K. ring.
    - transitivity (((IZR za - 2 * IZR zb + IZR zc) * t ^ 2 + 2 * (IZR zb - IZR za) * t + IZR za) * q); [ring | rewrite K; ring].
  Qed.
  (** The roots in closed form. *)
  Lemma qroot_disc (t : R) : zd <> 0%Z -> qroot t <-> (IZR zd * t + IZR (zb - za)) ^ 2 = IZR disc.
  Proof.
    intros E0. assert (zd0 : IZR zd <> 0) by (intros K; apply eq_IZR in K; lia). rewrite qroot_int.
    assert (I : (IZR zd * t + IZR (zb - za)) ^ 2 = IZR zd * (IZR zd * t ^ 2 + 2 * IZR (zb - za) * t + IZR za) + IZR disc).
    { unfold disc, zd. rewrite !minus_IZR, !plus_IZR, !mult_IZR, !minus_IZR, !mult_IZR. ring. }
    rewrite I. split; intros K; [rewrite K; ring|]. assert (K2 : IZR zd * (IZR zd * t ^ 2 + 2 * IZR (zb - za) * t + IZR za) = 0) by lra. apply Rmult_integral in K2 as [K2|K2]; [contradiction | exact K2].
  Qed.

  Theorem quadRoots_near : (za <> 0 \/ zb <> 0 \/ zc <> 0)%Z ->
    (forall t, 0 <= t <= 1 -> qroot t -> exists u, In u (quadRoots a b c) /\ Rabs (val u - t) <= B) /\
    (forall u, In u (quadRoots a b c) -> fin u /\ exists t, qroot t /\ Rabs (val u - t) <= B /\ - (3 / 1000000) <= t <= 1 + 3 / 1000000).
  Proof.
    intros NZ. destruct q_pos as [Q0 Q1]. destruct N_real as [N1 N2]. pose proof tiny_q as TQ. pose proof ulp1_pos as Pu. pose proof tiny_pos as Pt. pose proof ulp1_small as Su.
    assert (BB : 0 <= B <= / 2000000).
    { unfold B. split; [apply Rmult_le_pos; lra|]. rewrite ulp_num. apply Rle_trans with (10 * / 9007199254740992 * 33554432); [apply Rmult_le_compat_l; lra | lra]. }
    assert (keep_in : forall v t, fin v -> 0 <= t <= 1 -> Rabs (val v - t) <= B -> rootOk v = true) by (intros v t F T K; apply rootOk_in; auto; apply Rabs_le_inv in K; lra).
    assert (keep_out : forall v t, fin v -> Rabs t <= 4 * IZR N -> Rabs (val v - t) <= B -> rootOk v = true -> - (3 / 1000000) <= t <= 1 + 3 / 1000000).
    { intros v t F T K R. apply rootOk_out in R; auto; [apply Rabs_le_inv in K; lra|].
      pose proof (Rabs_triang (val v - t) t) as T2. replace (val v - t + t) with (val v) in T2 by ring. apply Rle_trans with (4 * 33554432 + 1); [lra|]. apply Rle_trans with (2 ^ 28); [lra | apply Rle_pow; [lra | lia]]. }
    destruct (val_int 0) as [Fz Vz]; [lia|]. change (bofZ 0) with (nofZ 0 : b64) in Fz, Vz.
    pose proof Dd as DD. destruct DD as [Fd Vd]. fold q in Vd. unfold quadRoots. set (d := nadd (nsub a (nmul (nofZ 2) b)) c) in *.
    destruct (Z.eq_dec zd 0) as [E0|E0].
    - assert (Vd0 : val d = val (nofZ 0 : b64)) by (rewrite Vd, E0, Vz; ring). rewrite (val_neqb d (nofZ 0) Fd Fz Vd0). cbn [negb].
      destruct (Z.eq_dec zb zc) as [Ebc|Ebc].
      + assert (Vbc : val b = val c). { destruct Db as [_ Vb]. destruct Dc as [_ Vc]. rewrite Vb, Vc, Ebc. reflexivity. }
        rewrite (val_neqb b c (proj1 Db) (proj1 Dc) Vbc). cbn [negb andb]. split; [|intros u []].
        intros t _ K. apply qroot_int in K. exfalso. unfold zd in *. assert (za = zb) by lia. replace (zb - za)%Z with 0%Z in K by lia. rewrite E0 in K. assert (IZR za = 0) by lra. apply eq_IZR in H0. lia.
      + assert (Nv : val b <> val c). { destruct Db as [_ Vb]. destruct Dc as [_ Vc]. rewrite Vb, Vc. fold q. intros K. apply Ebc. apply eq_IZR. apply (Rmult_eq_reg_r q); [exact K | lra]. }
        rewrite (neqb_val b c (proj1 Db) (proj1 Dc) Nv). cbn [negb andb].
        pose proof (dy_sub e _ _ _ _ D2b Dc ltac:(lia) ltac:(lia)) as Dn.
        pose proof (dy_mul 0 e _ _ _ _ (proj1 (dy_int _ _) (int_lit 2 ltac:(lia))) Dc ltac:(lia) ltac:(lia)) as D2c. cbn [plus] in D2c. change (bofZ 2) with (nofZ 2 : b64) in D2c.
        pose proof (dy_sub e _ _ _ _ D2b D2c ltac:(lia) ltac:(lia)) as Dm.
        set (n := nsub (nmul (nofZ 2) b) c) in *. set (m := nsub (nmul (nofZ 2) b) (nmul (nofZ 2) c)) in *.
        destruct Dn as [Fn Vn]. destruct Dm as [Fm Vm]. fold q in Vn, Vm.
        assert (M0 : IZR (2 * zb - 2 * zc) <> 0) by (intros K; apply eq_IZR in K; lia).
        assert (Mv : val m <> 0) by (rewrite Vm; apply Rmult_integral_contrapositive_currified; lra).
        set (r := IZR za / IZR (2 * zb - 2 * zc)).
        assert (Er : val n / val m = r). { rewrite Vn, Vm. unfold r. replace (2 * zb - zc)%Z with za by (unfold zd in E0; lia). field. split; lra. }
        assert (Br : Rabs r <= IZR N).
        { unfold r, Rdiv. rewrite Rabs_mult, Rabs_inv. apply (Rmult_le_reg_r (Rabs (IZR (2 * zb - 2 * zc)))); [now apply Rabs_pos_lt|].
          rewrite Rmult_assoc, Rinv_l, Rmult_1_r by (now apply Rabs_no_R0). rewrite <- !abs_IZR, <- mult_IZR. apply IZR_le. nia. }
        assert (Root : forall t, qroot t <-> t = r).
        { intros t. rewrite qroot_int, E0. unfold r. assert (IZR (zb - za) * 2 = - IZR (2 * zb - 2 * zc)). { rewrite <- opp_IZR. change 2 with (IZR 2) at 1. rewrite <- mult_IZR. f_equal. unfold zd in E0. lia. }
          split; intros K.
          - apply (Rmult_eq_reg_r (IZR (2 * zb - 2 * zc))); [|exact M0]. unfold Rdiv. rewrite Rmult_assoc, Rinv_l by exact M0. nra.
          - assert (t * IZR (2 * zb - 2 * zc) = IZR za) by (rewrite K; field; exact M0). nra. }
        pose proof (fl_bound _ _ Br) as EB. pose proof (fl_size _ _ Br) as SB.
        assert (Tl : 4294967296 <= ProofDouble.top).
        { unfold ProofDouble.top. apply Rle_trans with (bpow radix2 32); [change (bpow radix2 32) with (IZR (2 ^ 32)); apply IZR_le; lia | apply bpow_le; unfold emax; lia]. }
        pose proof tiny_60 as T60. destruct (div_fl n m Fn Mv) as [Fv Vv]; [rewrite Er; lra|].
        assert (Ev : Rabs (val (nquot n m) - r) <= B). { rewrite Vv, Er. pose proof ulp_tiny. assert (ulp1 <= ulp1 * IZR N) by (rewrite <- (Rmult_1_r ulp1) at 1; apply Rmult_le_compat_l; lra). unfold B. lra. }
        cbn [keepRoots flat_map]. split.
        * intros t T K. apply Root in K. subst t. rewrite (keep_in _ _ Fv T Ev). exists (nquot n m). split; [now left | exact Ev].
        * intros u K. destruct (rootOk (nquot n m)) eqn:R; [|destruct K]. destruct K as [<-|[]]. split; [exact Fv|]. exists r. split; [now apply Root|]. split; [exact Ev|]. apply keep_out with (nquot n m); auto. lra.
    - assert (Nd : val d <> val (nofZ 0 : b64)).
      { rewrite Vd, Vz. intros K. apply E0, eq_IZR. apply (Rmult_eq_reg_r q); [|lra]. rewrite K. ring. }
      rewrite (neqb_val d (nofZ 0) Fd Fz Nd). cbn [negb]. assert (zd0 : IZR zd <> 0) by (intros K; apply eq_IZR in K; lia).
      destruct Dx as [Fx Vx]. set (x := nsub (nmul b b) (nmul a c)) in *. rewrite pow_add, Rinv_mult in Vx. fold q in Vx.
      assert (QQ : 0 < q * q) by (apply Rmult_lt_0_compat; lra).
      destruct (Z_lt_le_dec disc 0) as [Neg|Pos].
      + assert (Lx : nltb x (nofZ 0) = true). { apply ltb_val; auto. rewrite Vz, Vx. assert (IZR disc < 0) by (apply (IZR_lt disc 0); lia). nra. }
        unfold bsqrt. rewrite Lx. cbn [keepRoots flat_map app]. split; [|intros u []].
        intros t _ K. apply qroot_disc in K; [|exact E0]. exfalso. pose proof (pow2_ge_0 (IZR zd * t + IZR (zb - za))). rewrite K in H. assert (IZR disc < 0) by (apply (IZR_lt disc 0); lia). lra.
      + assert (P : 0 <= IZR disc) by (apply (IZR_le 0); lia).
        assert (Px : 0 <= val x) by (rewrite Vx; apply Rmult_le_pos; lra).
        destruct (sqrt_val HS x Fx Px) as (Eq & Fs & Vs). rewrite Eq. set (S := Bsqrt mode_NE x) in *. set (sig := sqrt (IZR disc)).
        assert (Ssq : sig * sig = IZR disc) by (apply sqrt_sqrt; exact P). assert (S0 : 0 <= sig) by apply sqrt_pos.
        assert (Sx : sqrt (val x) = sig * q). { rewrite Vx. rewrite sqrt_mult_alt by exact P. rewrite sqrt_square by lra. reflexivity. }
        assert (SB : sig <= 3 / 2 * IZR N).
        { apply Rnot_lt_le. intros L. destruct disc_bound as [DB _]. assert (IZR disc <= 2 * (IZR N * IZR N)) by (rewrite <- !mult_IZR; apply IZR_le; lia).
          assert (3 / 2 * IZR N * (3 / 2 * IZR N) <= sig * sig) by (apply Rmult_le_compat; lra). assert (0 < IZR N * IZR N) by (apply Rmult_lt_0_compat; lra). lra. }
        assert (ES : Rabs (val S - sig * q) <= ulp1 * (3 / 2 * IZR N * q) + tiny).
        { rewrite Vs, Sx. apply fl_bound. rewrite Rabs_pos_eq by (apply Rmult_le_pos; lra). apply Rmult_le_compat_r; lra. }
        destruct (opp_val S Fs) as [Fo Vo]. destruct (opp_val _ Fo) as [Foo Voo].
        pose proof (dy_add e _ _ _ _ (dy_opp _ _ _ Da) Db ltac:(lia) ltac:(lia)) as Dm. destruct Dm as [Fm _].
        destruct (quotient_near (-1) sig S (nadd (nopp S) (nadd (nopp a) b)) (or_intror eq_refl) (conj S0 SB) Fs ES E0) as [F1 E1].
        { pose proof (plus_fl _ (nadd (nopp a) b) Fo Fm) as K. rewrite Vo in K. replace (-1 * val S) with (- val S) by ring. exact K. }
        destruct (quotient_near 1 sig S (nadd (nopp (nopp S)) (nadd (nopp a) b)) (or_introl eq_refl) (conj S0 SB) Fs ES E0) as [F2 E2].
        { pose proof (plus_fl _ (nadd (nopp a) b) Foo Fm) as K. rewrite Voo, Vo in K. replace (1 * val S) with (- - val S) by ring. exact K. }
        fold d in F1, E1, F2, E2. set (v1 := nquot (nopp (nadd (nopp S) (nadd (nopp a) b))) d) in *. set (v2 := nquot (nopp (nadd (nopp (nopp S)) (nadd (nopp a) b))) d) in *.
        set (r1 := - (-1 * sig + IZR (zb - za)) / IZR zd) in *. set (r2 := - (1 * sig + IZR (zb - za)) / IZR zd) in *.
        assert (Root : forall t, qroot t <-> t = r1 \/ t = r2).
        { intros t. rewrite qroot_disc by exact E0. rewrite <- Ssq. split; intros K.
          - assert (K2 : (IZR zd * t + IZR (zb - za) - sig) * (IZR zd * t + IZR (zb - za) + sig) = 0) by nra.
            apply Rmult_integral in K2 as [K2|K2]; [left | right]; unfold r1, r2; apply (Rmult_eq_reg_r (IZR zd)); auto; unfold Rdiv; rewrite Rmult_assoc, Rinv_l by exact zd0; lra.
          - destruct K as [-> | ->]; unfold r1, r2; field; exact zd0. }
        assert (Rb : forall sg, Rabs sg = 1 -> Rabs (- (sg * sig + IZR (zb - za)) / IZR zd) <= 4 * IZR N).
        { intros sg A. unfold Rdiv. rewrite Rabs_mult, Rabs_inv, Rabs_Ropp. apply (Rmult_le_reg_r (Rabs (IZR zd))); [now apply Rabs_pos_lt|].
          rewrite Rmult_assoc, Rinv_l, Rmult_1_r by (now apply Rabs_no_R0). eapply Rle_trans; [apply Rabs_triang|]. rewrite Rabs_mult, A, (Rabs_pos_eq sig) by exact S0.
          assert (Rabs (IZR (zb - za)) <= 2 * IZR N) by (rewrite <- abs_IZR, <- mult_IZR; apply IZR_le; lia).
          assert (1 <= Rabs (IZR zd)) by (rewrite <- abs_IZR; apply IZR_le; lia).
          assert (4 * IZR N * 1 <= 4 * IZR N * Rabs (IZR zd)) by (apply Rmult_le_compat_l; lra). lra. }
        assert (R1 : Rabs r1 <= 4 * IZR N) by (apply Rb; rewrite Rabs_left1; lra). assert (R2 : Rabs r2 <= 4 * IZR N) by (apply Rb, Rabs_R1).
        cbn [keepRoots flat_map]. rewrite app_nil_r. change (nquot (nopp (nadd (nopp S) (nadd (nopp a) b))) d) with v1. change (nquot (nopp (nadd (nopp (nopp S)) (nadd (nopp a) b))) d) with v2. split.
        * intros t T K. apply Root in K as [K|K].
          -- rewrite K in T. rewrite (keep_in v1 r1 F1 T E1). exists v1. split; [now left | rewrite K; exact E1].
          -- rewrite K in T. rewrite (keep_in v2 r2 F2 T E2). exists v2. split; [apply in_or_app; right; now left | rewrite K; exact E2].
        * intros u K. apply in_app_or in K as [K|K].
          -- destruct (in_one _ _ _ K) as [R <-]. split; [exact F1|]. exists r1. split; [apply Root; now left|]. split; [exact E1|]. now apply keep_out with v1.
          -- destruct (in_one _ _ _ K) as [R <-]. split; [exact F2|]. exists r2. split; [apply Root; now right|]. split; [exact E2|]. now apply keep_out with v2.
  Qed.
End Quad.

(** ** roots() of a quadratic on a grid *)
Section RootsQ.
  Context {TO : TrigOps b64} (HS : forall x : b64, tsqrt x = Bsqrt mode_NE x).
  Theorem roots_quadratic_grid (b : bezier b64) (e : nat) (N : Z) (seg : option (segment b64)) : length (cps b) = 3%nat -> Forall (on_grid e N) (cps b) ->
    (1 <= N <= 2 ^ 25)%Z -> (e <= 400)%nat -> seg = None \/ seg = Some [] -> (exists p, In p (cps b) /\ val (snd p) <> 0) ->
    exists l, roots b seg = Ok l /\
      (forall t, 0 <= t <= 1 -> snd (curve (map vpt (cps b)) t) = 0 -> exists u, In u l /\ Rabs (val u - t) <= 10 * ulp1 * IZR N) /\
      (forall u, In u l -> fin u /\ exists t, snd (curve (map vpt (cps b)) t) = 0 /\ Rabs (val u - t) <= 10 * ulp1 * IZR N /\ - (3 / 1000000) <= t <= 1 + 3 / 1000000).
  Proof.
    intros L G HN He Hseg NZ. destruct b as [ps u v]. cbn [cps] in *. destruct ps as [|p0 [|p1 [|p2 [|]]]]; try discriminate.
    inversion G as [|? ? G0 G']; subst. inversion G' as [|? ? G1 G'']; subst. inversion G'' as [|? ? G2 _]; subst. clear G G' G''.
    destruct G0 as (? & za & _ & Da & _ & Ba). destruct G1 as (? & zb & _ & Db & _ & Bb). destruct G2 as (? & zc & _ & Dc & _ & Bc).
    assert (ER : roots (mkBez [p0; p1; p2] u v) seg = Ok (quadRoots (snd p0) (snd p1) (snd p2))) by (destruct Hseg as [-> | ->]; reflexivity).
    rewrite ER. eexists. split; [reflexivity|].
    assert (NZ' : (za <> 0 \/ zb <> 0 \/ zc <> 0)%Z).
    { destruct (Z.eq_dec za 0) as [A|A]; [|auto]. destruct (Z.eq_dec zb 0) as [B|B]; [|auto]. destruct (Z.eq_dec zc 0) as [C|C]; [|auto].
      exfalso. destruct NZ as (p & [<-|[<-|[<-|[]]]] & K); apply K; [rewrite (proj2 Da), A | rewrite (proj2 Db), B | rewrite (proj2 Dc), C]; ring. }
    destruct (quadRoots_near HS e N za zb zc (snd p0) (snd p1) (snd p2) HN He Da Db Dc Ba Bb Bc NZ') as [A B].
    cbn [map]. assert (CV : forall t, snd (curve [vpt p0; vpt p1; vpt p2] t) = 0 <-> qroot (snd p0) (snd p1) (snd p2) t) by (intros t; rewrite curve3; cbn [snd vpt]; unfold qroot; reflexivity).
    split.
    - intros t T K. apply CV in K. exact (A t T K).
    - intros w W. destruct (B w W) as (F & t & K & E). split; [exact F|]. exists t. split; [now apply CV | exact E].
  Qed.
End RootsQ.

(** Off the grid: the discriminant 1 + 2^-52 has the square root 1 in doubles, and the root near 1/2
    comes out as 0. *)
Section OffGrid.
  Context {TO : TrigOps b64} (HS : forall x : b64, tsqrt x = Bsqrt mode_NE x).
  Definition next_one : b64 := @B754_finite prec emax false 4503599627370497 (-52) eq_refl.
  Definition flat_one : bezier b64 := mkBez [(bofZ 0, bofZ (-1)); (bofZ 1, bofZ 0); (bofZ 2, next_one)] (bofZ 0) (bofZ 1).
  Lemma next_val : fin next_one /\ val next_one = 1 + / 4503599627370496.
  Proof. split; [reflexivity|]. unfold next_one. rewrite val_lit. cbn [bpow Z.pow_pos Pos.iter Z.mul radix_val radix2 Pos.mul]. lra. Qed.
  Theorem off_grid : exists b : bezier b64, length (cps b) = 3%nat /\ Forall (sized 2) (cps b) /\
    (exists t, 2 / 5 <= t <= 1 / 2 /\ snd (curve (map vpt (cps b)) t) = 0) /\
    exists u, roots b None = Ok [u] /\ val u = 0 /\ snd (curve (map vpt (cps b)) (val u)) = -1.
  Proof.
    destruct next_val as [Fn Vn]. destruct (val_int (-1)) as [Fm Vm]; [lia|]. destruct lit01 as (F0 & V0 & F1 & V1). destruct (val_int 2) as [F2 V2]; [lia|].
    exists flat_one. split; [reflexivity|]. split; [|split].
    - cbn [flat_one cps]. apply Forall_cons; [|apply Forall_cons; [|apply Forall_cons; [|apply Forall_nil]]]; repeat split; cbn [fst snd]; auto; rewrite ?V0, ?V1, ?V2, ?Vn, ?Vm; apply Rabs_le; lra.
    - set (s := sqrt (1 + / 4503599627370496)). assert (P : 0 <= s) by apply sqrt_pos. assert (SS : s * s = 1 + / 4503599627370496) by (apply sqrt_sqrt; lra).
      assert (S1 : 1 <= s) by (rewrite <- sqrt_1; apply sqrt_le_1; lra). assert (S2 : s <= 3 / 2) by nra.
      exists (/ (1 + s)). split.
      + split; [replace (2 / 5) with (/ (5 / 2)) by lra | replace (1 / 2) with (/ 2) by lra]; apply Rinv_le_contravar; lra.
      + cbn [flat_one cps map]. rewrite curve3. cbn [snd vpt]. rewrite Vm, V0, Vn, <- SS. field. lra.
    - exists (@B754_zero prec emax true). split; [|split; [reflexivity|]].
      + cbn [roots flat_one cps].
        assert (ER : roots flat_one None = Ok (quadRoots (bofZ (-1)) (bofZ 0) next_one)) by reflexivity. rewrite ER. f_equal.
        unfold quadRoots. cbv zeta.
        match goal with |- (if ?g then _ else _) = _ => assert (G : g = true) by (vm_compute; reflexivity); rewrite G end.
        unfold bsqrt.
        match goal with |- context [nltb ?x ?y] => assert (L : nltb x y = false) by (vm_compute; reflexivity); rewrite L end. rewrite HS.
        match goal with |- context [Bsqrt mode_NE ?x] => assert (Q : Bsqrt mode_NE x = bofZ 1) by (apply B2SF_inj; vm_compute; reflexivity); rewrite Q end.
        cbn [keepRoots flat_map app].
        match goal with |- (if rootOk ?v then _ else _) ++ (if rootOk ?w then _ else _) ++ _ = _ => 
          assert (K1 : v = @B754_zero prec emax true) by (apply B2SF_inj; vm_compute; reflexivity); assert (K2 : rootOk w = false) by (vm_compute; reflexivity) end.
        rewrite K1, K2. vm_compute. reflexivity.
      + replace (val (@B754_zero prec emax true)) with 0 by reflexivity. cbn [flat_one cps map]. rewrite curve3. cbn [snd vpt]. rewrite Vm. ring.
  Qed.
End OffGrid.
