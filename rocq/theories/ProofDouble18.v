(** Curve fitting parameters in double precision. *)
From Coq Require Import List ZArith Bool Reals Lra Lia Psatz.
From Flocq Require Import Core BinarySingleNaN Relative.
From Verif Require Import Py Inst InstFloat SpecGeom SpecMatrix SpecFit SpecDouble SpecDouble3 SpecDouble4 MTransform MCurveFit
  ProofFit ProofClosest ProofDouble ProofDouble2 ProofDouble3 ProofDouble4 ProofDouble5 ProofDouble9 ProofDouble10 ProofDouble11 ProofDouble12 ProofDouble16 ProofDouble17.
Import ListNotations.
Local Open Scope R_scope.
#[local] Existing Instance InstFloat.prec_gt_0.
#[local] Existing Instance InstFloat.prec_lt_emax.

(** ** The chord lengths *)
Section Chords.
  Context {TO : TrigOps b64} (p : list (point b64)).
  Definition at_ (i : nat) : point b64 := nth i p (bofZ 0, bofZ 0).
  Fixpoint along (i : nat) : b64 := match i with O => bofZ 0 | S j => nadd (along j) (MCurveFit.dist (at_ j) (at_ (S j))) end.
  Lemma along_steps : forall k, (S k <= length p)%nat ->
    foldM (fun d i => let* di := idx d (i - 1) in let* a := idx p (i - 1) in let* b := idx p i in Ok (d ++ [(di + MCurveFit.dist a b)%num])) (seq 1 k) [nofZ 0] = Ok (map along (seq 0 (S k))).
  Proof.
    induction k as [|k IH]; intros L; [reflexivity|]. rewrite seq_S, foldM_app, IH by lia. cbn [bind plus foldM]. replace (S k - 1)%nat with k by lia.
    rewrite (idx_nth _ k (along 0)) by (rewrite map_length, seq_length; lia). rewrite map_nth, seq_nth by lia. cbn [bind plus].
    rewrite (idx_nth p k (bofZ 0, bofZ 0)), (idx_nth p (S k) (bofZ 0, bofZ 0)) by lia. cbn [bind]. rewrite (seq_S (S k)), map_app. reflexivity.
  Qed.
  Lemma along_list : p <> [] -> chordLengths p (length p) = Ok (map along (seq 0 (length p))).
  Proof. intros N. unfold chordLengths. destruct p as [|x q] eqn:E; [congruence|]. rewrite <- E. replace (length p - 1)%nat with (length q) by (rewrite E; simpl; lia). replace (length p) with (S (length q)) by (rewrite E; reflexivity). apply along_steps. rewrite E. simpl. lia. Qed.
  Lemma times_list : p <> [] -> computeTimeValues p true = mapM (fun v => ndiv v (along (length p - 1))) (map along (seq 0 (length p))).
  Proof.
    intros N. unfold computeTimeValues, computeTimeValuesN. change (orLen 0 (length p)) with (length p). cbv zeta. rewrite along_list by exact N. cbn [bind].
    destruct (length p) as [|k] eqn:L; [destruct p; [congruence | discriminate]|]. rewrite (idx_nth _ k (along 0)) by (rewrite map_length, seq_length; lia). rewrite map_nth, seq_nth by lia. cbn [bind plus]. replace (S k - 1)%nat with k by lia. reflexivity.
  Qed.
  (** The same with exact arithmetic. *)
  Definition road (i : nat) : R := chord (map vpt p) i.
  Lemma road_step (i : nat) : (S i < length p)%nat -> road (S i) = road i + vdist (vpt (at_ i)) (vpt (at_ (S i))).
  Proof.
    intros H. unfold road. rewrite chord_step. unfold ptn. assert (Z : vpt (bofZ 0, bofZ 0) = (0, 0)) by (unfold vpt; cbn [fst snd]; destruct (val_int 0 eq_refl) as [_ ->]; reflexivity).
    rewrite <- Z, !map_nth. reflexivity.
  Qed.
End Chords.

Section Times.
  Context {TO : TrigOps b64} (e M : R) (He : 0 <= e <= / 100) (HH : hypot_within e thypot) (HZ : hypot_sane thypot) (p : list (point b64)) (SZ : Forall (sized M) p) (HM : M <= 2 ^ 900) (Np : INR (length p) <= 1000000).
  Let S0 := road p.
  Lemma at_sized (i : nat) : (i < length p)%nat -> sized M (at_ p i).
  Proof. intros H. apply (proj1 (Forall_forall _ _) SZ). now apply nth_In. Qed.
  Lemma M_pos (i : nat) : (i < length p)%nat -> 0 <= M.
  Proof. intros H. destruct (at_sized i H) as (_ & _ & X & _). pose proof (Rabs_pos (val (fst (at_ p i)))). lra. Qed.
  Lemma M_1000 : M <= 2 ^ 1000 /\ 0 < 2 ^ 900 /\ 1000 * 2 ^ 900 * 2 ^ 80 <= 2 ^ 1000.
  Proof.
    split; [eapply Rle_trans; [exact HM|]; apply Rle_pow; [lra | lia]|]. split; [apply pow_lt; lra|]. replace (2 ^ 1000) with (2 ^ 20 * 2 ^ 900 * 2 ^ 80) by (rewrite <- !pow_add; reflexivity).
    apply Rmult_le_compat_r; [left; apply pow_lt; lra|]. apply Rmult_le_compat_r; [left; apply pow_lt; lra|]. cbn [pow]. lra.
  Qed.
  Lemma hop (i : nat) : (S i < length p)%nat -> let h := vdist (vpt (at_ p i)) (vpt (at_ p (S i))) in let q := MCurveFit.dist (at_ p i) (at_ p (S i)) in
    fin q /\ 0 <= val q /\ Rabs (val q - h) <= (e + 16 / 10 * ulp1) * h + 5 * tiny /\ 0 <= h <= 4 * M.
  Proof.
    intros H h q. destruct (at_sized i ltac:(lia)) as (F1 & F2 & B1 & B2). destruct (at_sized (S i) H) as (F3 & F4 & B3 & B4). pose proof (M_pos i ltac:(lia)) as M0. destruct M_1000 as (ML & P9 & P10).
    pose proof (pow_1010 M ML) as L'. pose proof ulp_num as Un. pose proof ulp1_pos as Up. pose proof tiny_pos as Tp. pose proof tiny_60 as T6. pose proof ulp_tiny as Ut.
    set (a := at_ p i) in *. set (b := at_ p (S i)) in *.
    assert (Sub : forall x y, fin x -> fin y -> Rabs (val x) <= M -> Rabs (val y) <= M -> fin (nsub x y) /\ Rabs (val (nsub x y) - (val x - val y)) <= ulp1 * Rabs (val x - val y) + tiny /\ Rabs (val (nsub x y)) <= 2 ^ 1000).
    { intros x y Fx Fy Bx By. assert (B : Rabs (val x - val y) <= 2 * M) by (unfold Rminus; eapply Rle_trans; [apply Rabs_triang|]; rewrite Rabs_Ropp; lra).
      destruct (minus_fl x y Fx Fy) as [F V]; [eapply top_of; [exact B | lra]|]. split; [exact F|]. rewrite V. split; [apply fl_err|]. eapply Rle_trans; [apply fl_size; exact B|].
      assert (2 ^ 80 >= 1000) by (cbn [pow]; lra). assert (1000 * 2 ^ 900 * 1000 <= 1000 * 2 ^ 900 * 2 ^ 80) by (apply Rmult_le_compat_l; lra).
      assert (1 <= 2 ^ 900) by (apply pow_R1_Rle; lra). set (w := 2 ^ 900) in *. set (w' := 2 ^ 1000) in *. lra. }
    destruct (Sub _ _ F1 F3 B1 B3) as (G1 & E1 & Z1). destruct (Sub _ _ F2 F4 B2 B4) as (G2 & E2 & Z2). destruct (HZ _ _ G1 G2 Z1 Z2) as [Q0 _]. destruct (HH _ _ G1 G2 Z1 Z2) as [Fq Eq]. cbv zeta in Eq.
    unfold q, MCurveFit.dist. split; [exact Fq|]. split; [exact Q0|].
    set (dx := val (nsub (fst a) (fst b))) in *. set (dy := val (nsub (snd a) (snd b))) in *.
    assert (Hl : sqrt (dx ^ 2 + dy ^ 2) = len (dx, dy)) by (unfold len, vdot; cbn [fst snd]; f_equal; ring). rewrite Hl in Eq.
    set (D := (val (fst a) - val (fst b), val (snd a) - val (snd b)) : pt).
    assert (Eh : h = len D) by (unfold h, vdist, dist2, len, vdot, vpt, D; cbn [fst snd]; f_equal; ring).
    assert (Sum : Rabs (fst D) + Rabs (snd D) <= 3 / 2 * h).
    { rewrite Eh. pose proof (len_sq D) as Q. pose proof (len_pos D) as QP. unfold vdot in Q.
      assert (A : forall u, Rabs u * Rabs u = u * u) by (intros u; rewrite <- Rabs_mult; apply Rabs_pos_eq; nra). rewrite <- (A (fst D)), <- (A (snd D)) in Q.
      pose proof (Rabs_pos (fst D)) as A1. pose proof (Rabs_pos (snd D)) as A2. clear - Q QP A1 A2. set (u := Rabs (fst D)) in *. set (v := Rabs (snd D)) in *. set (l := len D) in *. clearbody u v l. apply Rsqr_incr_0_var; [unfold Rsqr|lra]. pose proof (Rle_0_sqr (u - v)) as S1. pose proof (Rle_0_sqr l) as S2. unfold Rsqr in S1, S2. lra. }
    assert (Dl : Rabs (len (dx, dy) - h) <= 3 / 2 * ulp1 * h + 2 * tiny).
    { rewrite Eh, !len_vdist. pose proof (dist_taxi (dx, dy) D) as T. pose proof (ProofClosest.dist_tri (dx, dy) D (0, 0)) as T1. pose proof (ProofClosest.dist_tri D (dx, dy) (0, 0)) as T2. rewrite (ProofClosest.dist_sym D (dx, dy)) in T2.
      rewrite <- !len_vdist in *. rewrite <- Eh in *. cbn [fst snd] in T. unfold D in Sum. cbn [fst snd D] in Sum, T. unfold D in T. cbn [fst snd] in T.
      assert (ulp1 * Rabs (val (fst a) - val (fst b)) + ulp1 * Rabs (val (snd a) - val (snd b)) <= ulp1 * (3 / 2 * h)) by (rewrite <- Rmult_plus_distr_l; apply Rmult_le_compat_l; lra).
      fold D in T, T1, T2. apply Rabs_le. lra. }
    assert (H0 : 0 <= h) by (rewrite Eh; apply len_pos).
    split.
    - apply Rabs_le_inv in Dl, Eq. assert (X1 : e * len (dx, dy) <= e * h + (/ 100 * (3 / 2 * ulp1 * h + 2 * tiny))).
      { assert (e * (len (dx, dy) - h) <= / 100 * (3 / 2 * ulp1 * h + 2 * tiny)); [|lra]. assert (W : 0 <= 3 / 2 * ulp1 * h + 2 * tiny) by (assert (0 <= ulp1 * h) by (apply Rmult_le_pos; lra); lra).
        apply Rle_trans with (e * (3 / 2 * ulp1 * h + 2 * tiny)); [apply Rmult_le_compat_l; lra | apply Rmult_le_compat_r; lra]. }
      assert (0 <= ulp1 * h) by (apply Rmult_le_pos; lra). apply Rabs_le. lra.
    - split; [exact H0|]. rewrite Eh. pose proof (dist_taxi D (0, 0)) as T. rewrite <- len_vdist in T. cbn [fst snd] in T. rewrite !Rminus_0_r in T. unfold D in T at 2 3. cbn [fst snd] in T.
      assert (B5 : Rabs (val (fst a) - val (fst b)) <= 2 * M) by (unfold Rminus; eapply Rle_trans; [apply Rabs_triang|]; rewrite Rabs_Ropp; lra).
      assert (B6 : Rabs (val (snd a) - val (snd b)) <= 2 * M) by (unfold Rminus; eapply Rle_trans; [apply Rabs_triang|]; rewrite Rabs_Ropp; lra). lra.
  Qed.
  Definition drift (i : nat) : R := e + 16 / 10 * ulp1 + 105 / 100 * INR i * ulp1.
  Lemma INR_bound (i : nat) : (i < length p)%nat -> 0 <= INR i <= 1000000.
  Proof. intros H. split; [apply pos_INR|]. eapply Rle_trans; [|exact Np]. apply le_INR. lia. Qed.
  Lemma along_near (i : nat) : (i < length p)%nat -> let d := along p i in
    fin d /\ 0 <= val d /\ Rabs (val d - S0 i) <= drift i * S0 i + 7 * INR i * tiny /\ 0 <= S0 i <= 4 * INR i * M.
  Proof.
    pose proof ulp_num as Un. pose proof ulp1_pos as Up. pose proof tiny_pos as Tp. pose proof tiny_60 as T6. pose proof ulp_tiny as Ut. destruct M_1000 as (ML & P9 & P10).
    induction i as [|i IH]; intros H d.
    - destruct (val_int 0 eq_refl) as [F0 V0]. unfold d. cbn [along]. split; [exact F0|]. rewrite V0. split; [lra|]. change (S0 0) with 0. simpl INR. rewrite Rminus_0_r, Rabs_R0. lra.
    - specialize (IH ltac:(lia)). cbv zeta in IH. destruct IH as (F & P & E & Q). destruct (hop i H) as (Fq & Pq & Eq & Bq). pose proof (M_pos i ltac:(lia)) as M0. unfold d. cbn [along]. set (x := along p i) in *. set (q := MCurveFit.dist (at_ p i) (at_ p (S i))) in *.
      unfold S0 in *. rewrite (road_step p i H). set (h := vdist _ _) in *. set (s := road p i) in *. pose proof (INR_bound (S i) H) as [_ NB]. pose proof (pos_INR i) as N0. rewrite S_INR in *. set (n := INR i) in *.
      assert (Dr : 0 <= drift i <= / 90) by (unfold drift; fold n; split; [assert (0 <= n * ulp1) by (apply Rmult_le_pos; lra); lra|]; assert (n * ulp1 <= 1000000 * ulp1) by (apply Rmult_le_compat_r; lra); lra).
      assert (D1 : drift (S i) = drift i + 105 / 100 * ulp1) by (unfold drift; rewrite S_INR; ring). assert (De : e + 16 / 10 * ulp1 <= drift i) by (unfold drift; fold n; assert (0 <= n * ulp1) by (apply Rmult_le_pos; lra); lra).
      set (k := drift i) in *. rewrite D1. clearbody k.
      assert (Nt : 0 <= n * tiny <= / 1000) by (split; [apply Rmult_le_pos; lra | assert (n * tiny <= 1000000 * tiny) by (apply Rmult_le_compat_r; lra); lra]).
      apply Rabs_le_inv in E, Eq. assert (KH : (e + 16 / 10 * ulp1) * h <= k * h) by (apply Rmult_le_compat_r; lra). assert (K1 : k * s <= / 90 * s) by (apply Rmult_le_compat_r; lra). assert (K2 : k * h <= / 90 * h) by (apply Rmult_le_compat_r; lra). assert (K3 : 0 <= k * s) by (apply Rmult_le_pos; lra). assert (K4 : 0 <= k * h) by (apply Rmult_le_pos; lra).
      assert (Sm : Rabs (val x + val q - (s + h)) <= k * (s + h) + (7 * n + 5) * tiny) by (apply Rabs_le; lra). apply Rabs_le_inv in Sm.
      assert (NM : n * M <= 1000000 * M) by (apply Rmult_le_compat_r; lra).
      assert (B : Rabs (val x + val q) <= (1 + / 90) * (s + h) + (7 * n + 5) * tiny) by (rewrite Rabs_pos_eq by lra; lra).
      assert (W9 : 1 <= 2 ^ 900) by (apply pow_R1_Rle; lra). assert (W8 : 1000000 <= 2 ^ 80) by (cbn [pow]; lra). assert (W : 1000 * 2 ^ 900 * 1000000 <= 1000 * 2 ^ 900 * 2 ^ 80) by (apply Rmult_le_compat_l; lra).
      assert (W10 : 2 ^ 1000 <= 2 ^ 1010) by (apply Rle_pow; [lra | lia]).
      destruct (plus_fl x q F Fq) as [Fs Vs]; [eapply top_of; [exact B|]; clear - Nt NM B W W9 W10 P10 HM Q Bq M0 T6 N0 NB; set (w := 2 ^ 900) in *; set (w1 := 2 ^ 1000) in *; set (w2 := 2 ^ 1010) in *; lra|].
      pose proof (fl_bound _ _ B) as Er. rewrite <- Vs in Er. split; [exact Fs|]. split; [rewrite Vs, <- fl0; apply fl_mono; lra|].
      assert (US : 0 <= ulp1 * (s + h)) by (apply Rmult_le_pos; lra). assert (UN : ulp1 * ((7 * n + 5) * tiny) <= / 2 * tiny).
      { rewrite <- Rmult_assoc. apply Rmult_le_compat_r; [lra|]. assert (ulp1 * n <= ulp1 * 1000000) by (apply Rmult_le_compat_l; lra). lra. }
      split; [|lra]. apply Rabs_le_inv in Er. apply Rabs_le.
      replace (ulp1 * ((1 + / 90) * (s + h) + (7 * n + 5) * tiny)) with ((1 + / 90) * (ulp1 * (s + h)) + ulp1 * ((7 * n + 5) * tiny)) in Er by ring. lra.
  Qed.
  Lemma along_grows (i : nat) : (S i < length p)%nat -> val (along p i) <= val (along p (S i)).
  Proof.
    intros H. destruct (along_near i ltac:(lia)) as (F & P & _ & _). destruct (hop i H) as (Fq & Pq & _ & _). cbn [along]. destruct M_1000 as (ML & P9 & P10).
    destruct (along_near (S i) H) as (F' & _). cbn [along] in F'. set (x := along p i) in *. set (q := MCurveFit.dist (at_ p i) (at_ p (S i))) in *.
    pose proof (Bplus_correct prec emax _ _ mode_NE x q F Fq) as C. destruct (Rlt_bool _ _) in C.
    - destruct C as (V & _ & _). change (nadd x q) with (Bplus mode_NE x q). unfold val at 2. rewrite V. change (val x <= fl (val x + val q)). rewrite <- (fl_val x) at 1. apply fl_mono. lra.
    - exfalso. change (nadd x q) with (Bplus mode_NE x q) in F'. destruct C as (C & _). unfold fin in F'. destruct (Bplus mode_NE x q); try discriminate F'; discriminate C.
  Qed.
  Lemma along_mono (i j : nat) : (i <= j)%nat -> (j < length p)%nat -> val (along p i) <= val (along p j).
  Proof. induction 1; intros H'; [lra|]. eapply Rle_trans; [apply IHle; lia | apply along_grows; exact H']. Qed.
  Lemma mapM_fun {A B} (f : A -> res B) (g : A -> B) (l : list A) : (forall x, In x l -> f x = Ok (g x)) -> mapM f l = Ok (map g l).
  Proof. induction l as [|x l IH]; intros H; [reflexivity|]. cbn [mapM map]. rewrite H by (left; reflexivity). cbn [bind]. rewrite IH by (intros y Hy; apply H; right; exact Hy). reflexivity. Qed.
  Theorem times_double : / 2 ^ 900 <= S0 (length p - 1) -> exists s, computeTimeValues p true = Ok s /\ length s = length p /\ Forall fin s /\
    let v i := val (nth i s (bofZ 0)) in v 0%nat = 0 /\ v (length p - 1)%nat = 1 /\ (forall i j, (i <= j < length p)%nat -> v i <= v j) /\
    forall i, (i < length p)%nat -> Rabs (v i - S0 i / S0 (length p - 1)) <= 3 * (e + (INR (length p) + 3) * ulp1).
  Proof.
    intros L. pose proof ulp_num as Un. pose proof ulp1_pos as Up. pose proof tiny_pos as Tp. pose proof tiny_60 as T6. pose proof ulp_tiny as Ut.
    assert (N : (0 < length p)%nat).
    { destruct p as [|x q]; [|simpl; lia]. exfalso. change (S0 (length (@nil (point b64)) - 1)) with 0 in L. assert (0 < / 2 ^ 900) by (apply Rinv_0_lt_compat, pow_lt; lra). lra. }
    assert (Np0 : p <> []) by (intros E; rewrite E in N; simpl in N; lia). rewrite (times_list p Np0). set (n := (length p - 1)%nat) in *. set (q := along p n) in *. set (Y := S0 n) in *.
    destruct (along_near n ltac:(lia)) as (Fq & Pq & Eq & Sq). fold q Y in Fq, Pq, Eq, Sq.
    assert (YP : 0 < Y) by (assert (0 < / 2 ^ 900) by (apply Rinv_0_lt_compat, pow_lt; lra); lra).
    assert (TY : 7000000 * tiny <= / 100 * ulp1 * Y).
    { assert (W : tiny * 2 ^ 40 <= / 2 ^ 20 * ulp1 * / 2 ^ 900).
      { rewrite tiny_bpow, ulp1_bpow, !two_pow, <- !bpow_opp, <- !bpow_plus. apply bpow_le. cbn. lia. }
      assert (W2 : / 2 ^ 20 * ulp1 * / 2 ^ 900 <= / 100 * ulp1 * Y).
      { apply Rmult_le_compat; [assert (0 < / 2 ^ 20) by (apply Rinv_0_lt_compat, pow_lt; lra); nra | left; apply Rinv_0_lt_compat, pow_lt; lra | apply Rmult_le_compat_r; [lra|]; cbn [pow]; lra | exact L]. }
      eapply Rle_trans; [|exact W2]. eapply Rle_trans; [|exact W]. rewrite Rmult_comm. apply Rmult_le_compat_l; [lra|]. cbn [pow]. lra. }
    assert (NI : forall i, (i < length p)%nat -> 0 <= INR i <= INR (length p) - 1 /\ 7 * INR i * tiny <= / 100 * ulp1 * Y /\ 0 <= drift i <= drift n /\ drift n <= / 80).
    { intros i Hi. pose proof (INR_bound i Hi) as [I0 I1]. pose proof (INR_bound n ltac:(lia)) as [I2 I3]. assert (Ii : INR i <= INR n) by (apply le_INR; lia). assert (In : INR n = INR (length p) - 1) by (unfold n; rewrite minus_INR by lia; simpl; lra).
      split; [lra|]. split; [eapply Rle_trans; [|exact TY]; apply Rmult_le_compat_r; lra|]. unfold drift. assert (0 <= INR i * ulp1 <= INR n * ulp1) by (split; [apply Rmult_le_pos; lra | apply Rmult_le_compat_r; lra]). assert (INR n * ulp1 <= 1000000 * ulp1) by (apply Rmult_le_compat_r; lra). lra. }
    destruct (NI n ltac:(lia)) as (I1 & I2 & _ & I4). set (k := drift n) in *.
    assert (Kp : 0 <= k) by (destruct (NI n ltac:(lia)) as (_ & _ & K & _); lra).
    assert (UY : 0 <= ulp1 * Y) by (apply Rmult_le_pos; lra). assert (KY : 0 <= k * Y <= / 80 * Y) by (split; [apply Rmult_le_pos; lra | apply Rmult_le_compat_r; lra]). assert (UY2 : ulp1 * Y <= / 1000 * Y) by (apply Rmult_le_compat_r; lra).
    apply Rabs_le_inv in Eq. assert (Q9 : 98 / 100 * Y <= val q) by lra. assert (Q0 : 0 < val q) by lra.
    assert (Le : forall i, (i < length p)%nat -> 0 <= S0 i <= Y) by (intros i Hi; split; [apply (along_near i Hi) | apply chord_mono; unfold n; lia]).
    assert (Len : forall i, (i < length p)%nat -> fin (along p i) /\ 0 <= val (along p i) <= val q).
    { intros i Hi. destruct (along_near i Hi) as (F & P & _ & _). split; [exact F|]. split; [exact P|]. apply along_mono; unfold n; lia. }
    assert (Quo : forall i, (i < length p)%nat -> fin (nquot (along p i) q) /\ val (nquot (along p i) q) = fl (val (along p i) / val q)).
    { intros i Hi. destruct (Len i Hi) as (F & B). apply div_fl; [exact F | lra|]. apply below_top. assert (Z : 0 <= val (along p i) / val q <= 1).
      { split; [apply Rmult_le_pos; [lra | left; now apply Rinv_0_lt_compat]|]. apply Rmult_le_reg_r with (val q); [exact Q0|]. unfold Rdiv. rewrite Rmult_assoc, Rinv_l by lra. lra. }
      rewrite Rabs_pos_eq by lra. cbn [pow]. lra. }
    exists (map (fun d => nquot d q) (map (along p) (seq 0 (length p)))). split; [|split; [|split]].
    - apply mapM_fun. intros x Hx. now apply ndiv_ok; [|lra].
    - now rewrite !map_length, seq_length.
    - rewrite map_map. apply Forall_forall. intros x Hx. apply in_map_iff in Hx. destruct Hx as (i & <- & Hi). apply in_seq in Hi. apply Quo. lia.
    - assert (V : forall i, (i < length p)%nat -> val (nth i (map (fun d => nquot d q) (map (along p) (seq 0 (length p)))) (bofZ 0)) = fl (val (along p i) / val q)).
      { intros i Hi. rewrite map_map. set (g := fun x => nquot (along p x) q). rewrite (nth_indep _ (bofZ 0) (g 0%nat)) by (rewrite map_length, seq_length; exact Hi). rewrite map_nth, seq_nth by exact Hi. apply Quo. exact Hi. }
      cbv zeta. split; [|split; [|split]].
      + rewrite V by exact N. cbn [along]. destruct (val_int 0 eq_refl) as [_ ->]. unfold Rdiv. rewrite Rmult_0_l. apply fl0.
      + rewrite V by (unfold n; lia). fold q. replace (val q / val q) with (val (bofZ 1)); [destruct (val_int 1 eq_refl) as [_ V1]; rewrite fl_val; exact V1|]. destruct (val_int 1 eq_refl) as [_ ->]. field. lra.
      + intros i j Hij. rewrite !V by lia. apply fl_mono. apply Rmult_le_compat_r; [left; now apply Rinv_0_lt_compat|]. apply along_mono; lia.
      + intros i Hi. rewrite V by exact Hi. destruct (along_near i Hi) as (_ & _ & Ei & _). destruct (Len i Hi) as (_ & Bi). destruct (NI i Hi) as (_ & J2 & J3 & _). specialize (Le i Hi). set (x := val (along p i)) in *. set (X := S0 i) in *.
        assert (Ex : Rabs (x - X) <= (k + / 100 * ulp1) * Y).
        { eapply Rle_trans; [exact Ei|]. assert (drift i * X <= k * Y) by (apply Rmult_le_compat; lra). lra. }
        assert (EY : Rabs (Y - val q) <= (k + / 100 * ulp1) * Y) by (apply Rabs_le; lra).
        assert (Main : Rabs (x / val q - X / Y) <= 206 / 100 * (k + / 100 * ulp1)).
        { replace (x / val q - X / Y) with ((x - X) / val q + (X / Y) * ((Y - val q) / val q)) by (field; lra). pose proof (Rinv_0_lt_compat _ Q0) as IQ.
          assert (XY : Rabs (X / Y) <= 1).
          { rewrite Rabs_pos_eq by (apply Rmult_le_pos; [lra | left; now apply Rinv_0_lt_compat]). apply Rmult_le_reg_r with Y; [exact YP|]. unfold Rdiv. rewrite Rmult_assoc, Rinv_l by lra. lra. }
          assert (Z : forall z, Rabs z <= (k + / 100 * ulp1) * Y -> Rabs (z / val q) <= 103 / 100 * (k + / 100 * ulp1)).
          { intros z Hz. unfold Rdiv at 1. rewrite Rabs_mult, (Rabs_pos_eq (/ val q)) by lra. apply Rmult_le_reg_r with (val q); [exact Q0|]. rewrite Rmult_assoc, Rinv_l, Rmult_1_r by lra. eapply Rle_trans; [exact Hz|].
            replace (103 / 100 * (k + / 100 * ulp1) * val q) with ((k + / 100 * ulp1) * (103 / 100 * val q)) by ring. apply Rmult_le_compat_l; lra. }
          eapply Rle_trans; [apply Rabs_triang|]. rewrite Rabs_mult. pose proof (Z _ Ex) as Z1. pose proof (Z _ EY) as Z2.
          assert (Rabs (X / Y) * Rabs ((Y - val q) / val q) <= 1 * (103 / 100 * (k + / 100 * ulp1))) by (apply Rmult_le_compat; auto using Rabs_pos). lra. }
        assert (Bz : Rabs (x / val q) <= 1).
        { rewrite Rabs_pos_eq by (apply Rmult_le_pos; [lra | left; now apply Rinv_0_lt_compat]). apply Rmult_le_reg_r with (val q); [exact Q0|]. unfold Rdiv. rewrite Rmult_assoc, Rinv_l by lra. lra. }
        pose proof (fl_bound _ _ Bz) as Ef. replace (fl (x / val q) - X / Y) with ((fl (x / val q) - x / val q) + (x / val q - X / Y)) by ring. eapply Rle_trans; [apply Rabs_triang|].
        assert (Kv : k = e + 16 / 10 * ulp1 + 105 / 100 * (INR (length p) - 1) * ulp1) by (unfold k, drift, n; rewrite minus_INR by lia; simpl; ring).
        assert (NU : 0 <= INR (length p) * ulp1) by (apply Rmult_le_pos; [apply pos_INR | lra]). lra.
  Qed.
  Theorem times_coincide_double : p <> [] -> (forall x y, In x p -> In y p -> vpt x = vpt y) -> computeTimeValues p true = Err ZeroDivisionError.
  Proof.
    clear Np HM HH He. intros N C. assert (L : (0 < length p)%nat) by (destruct p; [congruence | simpl; lia]).
    assert (Z : forall i, (i < length p)%nat -> fin (along p i) /\ val (along p i) = 0).
    { induction i as [|i IH]; intros Hi; [cbn [along]; apply (val_int 0 eq_refl)|]. destruct (IH ltac:(lia)) as [F V]. cbn [along].
      assert (E : vpt (at_ p i) = vpt (at_ p (S i))) by (apply C; apply nth_In; lia). apply pair_equal_spec in E. destruct E as [EX EY]. destruct (at_sized i ltac:(lia)) as (F1 & F2 & _). destruct (at_sized (S i) Hi) as (F3 & F4 & _).
      destruct (zero_sub _ _ F1 F3 EX) as [G1 W1]. destruct (zero_sub _ _ F2 F4 EY) as [G2 W2]. assert (P0 : 0 <= 2 ^ 1000) by (left; apply pow_lt; lra). destruct (HZ _ _ G1 G2) as [_ K]; [rewrite W1, Rabs_R0; exact P0 | rewrite W2, Rabs_R0; exact P0|]. destruct (K W1 W2) as [G W]. apply zero_add; auto. }
    rewrite (times_list p N). destruct (Z (length p - 1)%nat ltac:(lia)) as [F V]. destruct (length p) as [|k] eqn:E; [lia|]. cbn [seq map mapM]. unfold ndiv at 1. destruct (val_int 0 eq_refl) as [F0 V0]. change (nofZ 0 : b64) with (bofZ 0).
    rewrite (val_neqb _ (bofZ 0) F F0) by (rewrite V, V0; reflexivity). reflexivity.
  Qed.
End Times.

(** ** Equally spaced parameters *)
Theorem uniform_double {TO : TrigOps b64} (p : list (point b64)) : (2 <= length p)%nat -> INR (length p) <= 1000000 ->
  exists s, computeTimeValues p false = Ok s /\ length s = length p /\ Forall fin s /\
    let v i := val (nth i s (bofZ 0)) in (forall i, (i < length p)%nat -> v i = fl (INR i / INR (length p - 1))) /\
    v 0%nat = 0 /\ v (length p - 1)%nat = 1 /\ forall i j, (i < j < length p)%nat -> v i < v j.
Proof.
  intros L B. pose proof ulp_num as Un. pose proof ulp1_pos as Up. pose proof tiny_pos as Tp. pose proof tiny_60 as T6. set (n := length p) in *. set (m := INR (n - 1)).
  assert (Bz : (Z.of_nat n <= 1000000)%Z) by (apply le_IZR; rewrite <- INR_IZR_INZ; exact B).
  destruct (val_int (Z.of_nat n - 1)) as [Fm Vm]; [lia|]. assert (Em : IZR (Z.of_nat n - 1) = m) by (unfold m; rewrite INR_IZR_INZ; f_equal; lia). rewrite Em in Vm.
  assert (M1 : 1 <= m) by (unfold m; change 1 with (INR 1); apply le_INR; lia). assert (M2 : m <= 1000000) by (unfold m; eapply Rle_trans; [apply le_INR; instantiate (1 := n); lia | exact B]).
  assert (Bi : forall i, (i < n)%nat -> fin (bofZ (Z.of_nat i)) /\ val (bofZ (Z.of_nat i)) = INR i /\ 0 <= INR i <= m).
  { intros i Hi. destruct (val_int (Z.of_nat i)) as [F V]; [lia|]. split; [exact F|]. split; [rewrite V, INR_IZR_INZ; reflexivity|]. split; [apply pos_INR | apply le_INR; lia]. }
  assert (I1 : forall x, 0 <= x <= m -> 0 <= x / m <= 1).
  { intros x Hx. split; [apply Rmult_le_pos; [lra | left; apply Rinv_0_lt_compat; lra]|]. apply Rmult_le_reg_r with m; [lra|]. unfold Rdiv. rewrite Rmult_assoc, Rinv_l by lra. lra. }
  assert (Quo : forall i, (i < n)%nat -> fin (nquot (bofZ (Z.of_nat i)) (bofZ (Z.of_nat n - 1))) /\ val (nquot (bofZ (Z.of_nat i)) (bofZ (Z.of_nat n - 1))) = fl (INR i / m)).
  { intros i Hi. destruct (Bi i Hi) as (F & V & Q). rewrite <- V, <- Vm. apply div_fl; [exact F | rewrite Vm; lra|]. apply below_top. rewrite V, Vm. specialize (I1 _ Q). rewrite Rabs_pos_eq by lra. cbn [pow]. lra. }
  set (s := map (fun i => nquot (bofZ (Z.of_nat i)) (bofZ (Z.of_nat n - 1))) (seq 0 n)). exists s.
  assert (V : forall i, (i < n)%nat -> val (nth i s (bofZ 0)) = fl (INR i / m)).
  { intros i Hi. unfold s. set (g := fun i => nquot _ _). rewrite (nth_indep _ (bofZ 0) (g 0%nat)) by (rewrite map_length, seq_length; exact Hi). rewrite map_nth, seq_nth by exact Hi. apply Quo. exact Hi. }
  split; [|split; [|split; [|split; [|split; [|split]]]]].
  - unfold computeTimeValues, computeTimeValuesN. change (orLen 0 (length p)) with n. cbv zeta. apply mapM_fun. intros i Hi. apply ndiv_ok; [exact Fm | rewrite Vm; lra].
  - unfold s. now rewrite map_length, seq_length.
  - apply Forall_forall. intros x Hx. apply in_map_iff in Hx. destruct Hx as (i & <- & Hi). apply in_seq in Hi. apply Quo. lia.
  - exact V.
  - rewrite V by lia. simpl INR. unfold Rdiv. rewrite Rmult_0_l. apply fl0.
  - rewrite V by lia. fold m. replace (m / m) with (val (bofZ 1)); [rewrite fl_val; apply (val_int 1 eq_refl)|]. destruct (val_int 1 eq_refl) as [_ ->]. field. lra.
  - intros i j Hij. rewrite !V by lia. destruct (Bi i ltac:(lia)) as (_ & _ & Qi). destruct (Bi j ltac:(lia)) as (_ & _ & Qj). assert (St : INR i + 1 <= INR j) by (rewrite <- S_INR; apply le_INR; lia).
    pose proof (I1 _ Qi) as Ji. pose proof (I1 _ Qj) as Jj. assert (Gap : INR i / m + / 1000000 <= INR j / m).
    { apply Rle_trans with (INR i / m + / m); [apply Rplus_le_compat_l, Rinv_le; lra|]. replace (INR i / m + / m) with ((INR i + 1) / m) by (field; lra). apply Rmult_le_compat_r; [left; apply Rinv_0_lt_compat; lra | exact St]. }
    assert (B1 : Rabs (INR i / m) <= 1) by (rewrite Rabs_pos_eq; lra). assert (B2 : Rabs (INR j / m) <= 1) by (rewrite Rabs_pos_eq; lra). pose proof (fl_bound _ _ B1) as F1. pose proof (fl_bound _ _ B2) as F2. apply Rabs_le_inv in F1, F2. lra.
Qed.
Lemma sane_exists : hypot_sane (fun x y => to_double (sqrt (val x ^ 2 + val y ^ 2))).
Proof.
  intros x y _ _ X Y. set (h := sqrt (val x ^ 2 + val y ^ 2)). assert (P : 0 <= h) by apply sqrt_pos.
  assert (B : h <= 2 * 2 ^ 1000).
  { pose proof (dist_taxi (val x, val y) (0, 0)) as D. unfold vdist, dist2 in D. cbn [fst snd] in D. rewrite !Rminus_0_r in D. fold h in D. lra. }
  destruct (to_double_val h) as [F V].
  { eapply top_of; [rewrite Rabs_pos_eq by exact P; exact B|]. replace (2 ^ 1010) with (2 ^ 1000 * 2 ^ 10) by (rewrite <- pow_add; reflexivity). assert (0 < 2 ^ 1000) by (apply pow_lt; lra). set (w := 2 ^ 1000) in *. clearbody w. cbn [pow]. lra. }
  split; [rewrite V, <- fl0; now apply fl_mono|]. intros X0 Y0. split; [exact F|]. rewrite V. unfold h. rewrite X0, Y0. replace (0 ^ 2 + 0 ^ 2) with 0 by ring. rewrite sqrt_0. apply fl0.
Qed.
