(** Proofs for C142: products and transposes of matrices of doubles. *)
From Coq Require Import List ZArith Bool Reals Lra Lia Psatz.
From Flocq Require Import Core BinarySingleNaN.
From Verif Require Import Py Inst InstFloat SpecGeom SpecMatrix SpecDouble SpecDouble7 MTransform MMatrix MCurveFit ProofMatrix ProofFit ProofDouble ProofDouble2 ProofDouble9 ProofDouble10 ProofDouble20.
Import ListNotations.
Local Open Scope R_scope.
#[local] Existing Instance InstFloat.prec_gt_0.
#[local] Existing Instance InstFloat.prec_lt_emax.

(** ** Matrices from functions *)
Definition dmat (r c : nat) (f : nat -> nat -> b64) : list (list b64) :=
  map (fun i => map (fun j => f i j) (seq 0 c)) (seq 0 r).
Lemma shape_dmat r c f : shape r c (dmat r c f).
Proof.
  unfold dmat. split; [now rewrite map_length, seq_length|]. rewrite Forall_forall.
  intros x Hx. apply in_map_iff in Hx as (i & <- & _). now rewrite map_length, seq_length.
Qed.
Lemma dentry_dmat r c f i j : (i < r)%nat -> (j < c)%nat -> dentry (dmat r c f) i j = f i j.
Proof.
  intros Hi Hj. unfold dentry, dmat.
  set (g := fun i => map _ _). rewrite (nth_indep _ [] (g 0%nat)) by (rewrite map_length, seq_length; auto).
  rewrite map_nth, seq_nth by auto. unfold g. simpl plus.
  rewrite (nth_indep _ _ (f i 0%nat)) by (rewrite map_length, seq_length; auto).
  rewrite (map_nth (fun j => f i j)), seq_nth by auto. reflexivity.
Qed.
Lemma dmat_ext r c f g : (forall i j, (i < r)%nat -> (j < c)%nat -> f i j = g i j) -> dmat r c f = dmat r c g.
Proof.
  intros E. unfold dmat. apply map_ext_in. intros i Hi. apply map_ext_in. intros j Hj. apply in_seq in Hi, Hj. apply E; lia.
Qed.
Lemma dmat_id r c M : shape r c M -> M = dmat r c (dentry M).
Proof.
  intros H. apply (nth_ext _ _ [] []); [destruct H as [-> _]; unfold dmat; now rewrite map_length, seq_length|].
  intros i Hi. assert (Hr : (i < r)%nat) by (destruct H; lia).
  apply (nth_ext _ _ (B754_zero false) (B754_zero false)).
  - transitivity c; [exact (shape_row r c M i H Hr) | symmetry; exact (shape_row r c _ i (shape_dmat r c _) Hr)].
  - intros j Hj. pose proof (Nat.lt_le_trans _ _ _ Hj (Nat.eq_le_incl _ _ (shape_row r c M i H Hr))) as Hc. symmetry. exact (dentry_dmat r c (dentry M) i j Hr Hc).
Qed.
Lemma drow r c (M : list (list b64)) i : shape r c M -> (i < r)%nat -> idx M i = Ok (nth i M []).
Proof. intros [L _] Hi. apply idx_nth. lia. Qed.
Lemma dentry_idx r c M i j : shape r c M -> (i < r)%nat -> (j < c)%nat -> idx (nth i M []) j = Ok (dentry M i j).
Proof. intros H Hi Hj. apply idx_nth. rewrite (shape_row r c M i H Hi). auto. Qed.
Lemma dcol r c M j : shape r c M -> (j < c)%nat -> col M j = Ok (map (fun i => dentry M i j) (seq 0 r)).
Proof.
  intros H Hj. unfold col.
  assert (E : M = map (fun i => nth i M []) (seq 0 r)).
  { destruct H as [L _]. apply (nth_ext _ _ [] []); [now rewrite map_length, seq_length|]. intros i Hi.
    rewrite (nth_indep (map _ _) [] (nth 0 M [])) by (rewrite map_length, seq_length; lia).
    rewrite (map_nth (fun i => nth i M [])), seq_nth by lia. reflexivity. }
  rewrite E at 1.
  assert (G : forall l, (forall i, In i l -> (i < r)%nat) -> mapM (fun r0 : list b64 => idx r0 j) (map (fun i => nth i M []) l) = Ok (map (fun i => dentry M i j) l)).
  { induction l as [|i l IH]; simpl; intros B; auto. rewrite (dentry_idx r c) by auto. cbn [bind]. rewrite IH by auto. reflexivity. }
  apply G. intros i Hi. apply in_seq in Hi. lia.
Qed.

(** ** The product *)
Fixpoint dsum (n : nat) (f g : nat -> b64) : b64 :=
  match n with O => bofZ 0 | S k => nadd (dsum k f g) (nmul (f k) (g k)) end.
Lemma dot_run n (F : b64 -> nat -> res b64) f g :
  (forall a i, (i < n)%nat -> F a i = Ok (nadd a (nmul (f i) (g i)))) -> foldM F (seq 0 n) (bofZ 0) = Ok (dsum n f g).
Proof.
  intros K. induction n as [|n IH]; [reflexivity|]. rewrite seq_S, foldM_app, IH by (intros; apply K; lia). cbn [bind plus foldM].
  rewrite K by lia. reflexivity.
Qed.
Theorem dmultiply a k c A B : (0 < k)%nat -> shape a k A -> shape k c B ->
  multiply A B = Ok (dmat a c (fun i j => dsum k (fun l => dentry B l j) (fun l => dentry A i l))).
Proof.
  intros Hk HA HB. unfold multiply. replace (length A) with a by (symmetry; apply HA).
  apply mapM_seq. intros i Hi. rewrite (drow a k) by auto. cbn [bind]. rewrite (drow k c) by auto. cbn [bind].
  rewrite (shape_row k c B 0 HB Hk). apply mapM_seq. intros j Hj. rewrite (dcol k c) by auto. cbn [bind].
  rewrite (shape_row a k A i HA Hi).
  apply (dot_run k _ (fun l => dentry B l j) (fun l => dentry A i l)).
  intros x l Hl. rewrite (idx_nth _ l (dentry B 0 j)) by (now rewrite map_length, seq_length). cbn [bind].
  rewrite (dentry_idx a k) by auto. cbn [bind]. rewrite (map_nth (fun i => dentry B i j)), seq_nth by auto. reflexivity.
Qed.
Theorem dtranspose r c M : (0 < r)%nat -> shape r c M -> transpose M = Ok (dmat c r (fun i j => dentry M j i)).
Proof.
  intros Hr H. unfold transpose. rewrite (drow r c) by auto. cbn [bind]. rewrite (shape_row r c M 0 H Hr).
  apply mapM_seq. intros j Hj. replace (length M) with r by (symmetry; apply H). apply mapM_seq. intros i Hi.
  rewrite (drow r c) by auto. cbn [bind]. apply (dentry_idx r c); auto.
Qed.

(** ** One entry *)
Section Dot.
  Variables (M : R).
  Hypothesis M0 : 0 <= M.
  Hypothesis Mtop : M <= 2 ^ 900.
  Lemma big_top (x : R) : Rabs x <= 2 ^ 1000 -> Rabs (fl x) < ProofDouble.top.
  Proof. intros H. eapply Rle_lt_trans; [apply (fl_pow x 1000); [lia | exact H] | apply below_top; lia]. Qed.
  Definition slack (n : nat) : R := 2 * ulp1 * (INR n * (INR n + 1)) * M + 4 * INR n * tiny.
  Lemma ulp_million : ulp1 * 2 ^ 20 <= / 1000000.
  Proof. unfold ulp1. replace (2 ^ 53) with (2 ^ 33 * 2 ^ 20) by (rewrite <- pow_add; reflexivity). rewrite Rinv_mult, Rmult_assoc, Rinv_l, Rmult_1_r by (apply pow_nonzero; lra). apply Rinv_le_contravar; lra. Qed.
  Lemma slack_step n (e : R) : INR n <= 2 ^ 20 -> 0 <= e <= slack n ->
    e + (ulp1 * M + tiny) + (ulp1 * ((INR n + 1) * M + (e + (ulp1 * M + tiny))) + tiny) <= slack (S n) /\
    (INR n + 1) * M + (e + (ulp1 * M + tiny)) <= 2 ^ 1000.
  Proof.
    intros N E. unfold slack in *. rewrite S_INR. set (x := INR n) in *. assert (X0 : 0 <= x) by apply pos_INR.
    clearbody x. pose proof ulp1_pos as U. pose proof tiny_pos as T. pose proof ulp_million as UM. pose proof ulp1_small as US.
    assert (T1 : tiny <= 1) by (pose proof tiny_small; lra).
    assert (UX : ulp1 * x <= / 1000000) by (eapply Rle_trans; [apply Rmult_le_compat_l; [lra | exact N] | exact UM]).
    assert (HE : ulp1 * e <= ulp1 * (/ 100 * (x + 1) * M) + / 100 * tiny).
    { eapply Rle_trans; [apply Rmult_le_compat_l; [lra | apply E]|].
      replace (ulp1 * (2 * ulp1 * (x * (x + 1)) * M + 4 * x * tiny)) with ((2 * (ulp1 * x)) * (ulp1 * ((x + 1) * M)) + (4 * (ulp1 * x)) * tiny) by ring.
      assert (0 <= ulp1 * ((x + 1) * M)) by (repeat apply Rmult_le_pos; lra).
      replace (ulp1 * (/ 100 * (x + 1) * M)) with (/ 100 * (ulp1 * ((x + 1) * M))) by ring.
      apply Rplus_le_compat; apply Rmult_le_compat_r; lra. }
    assert (HM : 0 <= ulp1 * M) by (apply Rmult_le_pos; lra).
    assert (HX : 0 <= ulp1 * M * x) by (apply Rmult_le_pos; lra).
    assert (HUU : ulp1 * (ulp1 * M) <= / 1000000 * (ulp1 * M)) by (apply Rmult_le_compat_r; lra).
    assert (HUT : ulp1 * tiny <= / 1000000 * tiny) by (apply Rmult_le_compat_r; lra).
    split; [lra|].
    assert (EE : e <= (x + 1) * M + tiny * 4 * x).
    { eapply Rle_trans; [apply E|]. apply Rplus_le_compat; [|lra].
      replace (2 * ulp1 * (x * (x + 1)) * M) with ((2 * (ulp1 * x)) * ((x + 1) * M)) by ring.
      replace ((x + 1) * M) with (1 * ((x + 1) * M)) at 2 by ring. apply Rmult_le_compat_r; [apply Rmult_le_pos; lra | lra]. }
    assert (P20 : 2 ^ 20 = 1048576) by lra. rewrite P20 in N.
    assert (tiny * 4 * x <= 1 * 4 * 1048576) by (apply Rmult_le_compat; lra).
    assert ((x + 1) * M <= 1048577 * M) by (apply Rmult_le_compat_r; lra).
    assert (ulp1 * M <= 1 * M) by (apply Rmult_le_compat_r; lra).
    replace (2 ^ 1000) with (2 ^ 100 * 2 ^ 900) by (rewrite <- pow_add; reflexivity).
    assert (Q : 1 <= 2 ^ 900) by (apply pow_R1_Rle; lra). set (q := 2 ^ 900) in *. clearbody q.
    assert (100000000 <= 2 ^ 100) by (apply Rle_trans with (2 ^ 40); [lra | apply Rle_pow; [lra | lia]]).
    assert (100000000 * q <= 2 ^ 100 * q) by (apply Rmult_le_compat_r; lra). lra.
  Qed.
  Variables (f g : nat -> b64) (n : nat).
  Hypothesis term : forall l, (l < n)%nat -> fin (f l) /\ fin (g l) /\ Rabs (val (f l)) * Rabs (val (g l)) <= M.
  Lemma dot_near : forall m, (m <= n)%nat -> INR m <= 2 ^ 20 ->
    fin (dsum m f g) /\ Rabs (val (dsum m f g) - rsum m (fun l => val (g l) * val (f l))) <= slack m /\
    Rabs (rsum m (fun l => val (g l) * val (f l))) <= INR m * M.
  Proof.
    induction m as [|m IH]; intros Hm N.
    - cbn [dsum rsum INR]. destruct (val_int 0 ltac:(lia)) as [F0 V0]. split; [exact F0|]. rewrite V0. unfold slack.
      cbn [INR]. rewrite Rminus_0_r, Rabs_R0. split; lra.
    - rewrite S_INR in *. destruct IH as (F & E & B); [lia|lra|]. destruct (term m ltac:(lia)) as (Ff & Fg & TM).
      cbn [dsum rsum].
      set (s := dsum m f g) in *. set (X := rsum m _) in *.
      assert (P1 : Rabs (val (f m) * val (g m)) <= M) by (now rewrite Rabs_mult).
      assert (T9 : 2 ^ 900 <= 2 ^ 1000) by (apply Rle_pow; [lra | lia]).
      destruct (mult_fl (f m) (g m) Ff Fg) as [Fp Vp]; [apply big_top; lra|].
      set (p := nmul (f m) (g m)) in *.
      assert (Ep : Rabs (val p - val (g m) * val (f m)) <= ulp1 * M + tiny).
      { rewrite Vp, (Rmult_comm (val (g m))). eapply Rle_trans; [apply fl_err|].
        apply Rplus_le_compat_r. apply Rmult_le_compat_l; [apply Rlt_le, ulp1_pos | exact P1]. }
      set (y := val (g m) * val (f m)) in *.
      assert (Y : Rabs y <= M) by (unfold y; rewrite Rmult_comm; exact P1).
      destruct (slack_step m (Rabs (val s - X)) ltac:(lra)) as [St Sz]; [split; [apply Rabs_pos | exact E]|].
      assert (D : Rabs (val s + val p - (X + y)) <= Rabs (val s - X) + (ulp1 * M + tiny)).
      { replace (val s + val p - (X + y)) with ((val s - X) + (val p - y)) by ring. eapply Rle_trans; [apply Rabs_triang|]. lra. }
      assert (XY : Rabs (X + y) <= (INR m + 1) * M) by (eapply Rle_trans; [apply Rabs_triang|]; lra).
      assert (SP : Rabs (val s + val p) <= (INR m + 1) * M + (Rabs (val s - X) + (ulp1 * M + tiny))).
      { replace (val s + val p) with ((X + y) + (val s + val p - (X + y))) by ring. eapply Rle_trans; [apply Rabs_triang|]. lra. }
      destruct (plus_fl s p F Fp) as [Fs Vs]; [apply big_top; lra|].
      split; [exact Fs|]. split; [|exact XY]. rewrite Vs.
      replace (fl (val s + val p) - (X + y)) with ((val s + val p - (X + y)) + (fl (val s + val p) - (val s + val p))) by ring.
      eapply Rle_trans; [apply Rabs_triang|]. pose proof (fl_err (val s + val p)) as FE.
      assert (ulp1 * Rabs (val s + val p) <= ulp1 * ((INR m + 1) * M + (Rabs (val s - X) + (ulp1 * M + tiny)))) by (apply Rmult_le_compat_l; [apply Rlt_le, ulp1_pos | exact SP]).
      lra.
  Qed.
  (** Whole numbers. *)
  Hypothesis whole : forall l, (l < n)%nat -> (exists z, val (f l) = IZR z) /\ (exists z, val (g l) = IZR z).
  Lemma dot_whole : forall m, (m <= n)%nat -> INR m * M < 2 ^ 53 ->
    fin (dsum m f g) /\ exists z, val (dsum m f g) = IZR z /\ IZR z = rsum m (fun l => val (g l) * val (f l)) /\ Rabs (IZR z) <= INR m * M.
  Proof.
    assert (P53 : 2 ^ 53 = IZR (2 ^ 53)) by (rewrite two_pow; reflexivity).
    assert (small : forall z, Rabs (IZR z) < 2 ^ 53 -> (Z.abs z < 2 ^ 53)%Z) by (intros z L; rewrite P53, <- abs_IZR in L; now apply lt_IZR).
    assert (T5 : 2 ^ 53 <= 2 ^ 1000) by (apply Rle_pow; [lra | lia]).
    induction m as [|m IH]; intros Hm N.
    - cbn [dsum rsum INR]. destruct (val_int 0 ltac:(lia)) as [F0 V0]. split; [exact F0|]. exists 0%Z. rewrite V0, Rabs_R0. repeat split; lra.
    - rewrite S_INR in *. pose proof (pos_INR m) as Pm. assert (N' : INR m * M < 2 ^ 53) by lra.
      destruct IH as (F & z & V & E & B); [lia|exact N'|]. destruct (term m ltac:(lia)) as (Ff & Fg & TM). destruct (whole m ltac:(lia)) as [[u U] [w W]].
      cbn [dsum rsum]. set (s := dsum m f g) in *.
      assert (PM : 0 <= INR m * M) by (now apply Rmult_le_pos).
      assert (P1 : Rabs (IZR (u * w)) <= M) by (rewrite mult_IZR, <- U, <- W, Rabs_mult; exact TM).
      assert (Fl : fl (val (f m) * val (g m)) = IZR (u * w)) by (rewrite U, W, <- mult_IZR; apply fl_IZR, small; lra).
      destruct (mult_fl (f m) (g m) Ff Fg) as [Fp Vp]; [apply big_top; rewrite U, W, <- mult_IZR; lra|]. rewrite Fl in Vp.
      set (p := nmul (f m) (g m)) in *.
      assert (S1 : Rabs (IZR (z + u * w)) <= (INR m + 1) * M) by (rewrite plus_IZR; eapply Rle_trans; [apply Rabs_triang|]; lra).
      destruct (plus_fl s p F Fp) as [Fs Vs]; [apply big_top; rewrite V, Vp, <- plus_IZR; lra|].
      split; [exact Fs|]. exists (z + u * w)%Z. split; [rewrite Vs, V, Vp, <- plus_IZR; apply fl_IZR, small; lra|].
      split; [|exact S1]. rewrite plus_IZR, mult_IZR, E, U, W. ring.
  Qed.
End Dot.

Lemma msized_entry r c b M i j : shape r c M -> msized b M -> (i < r)%nat -> (j < c)%nat -> fin (dentry M i j) /\ Rabs (val (dentry M i j)) <= b.
Proof.
  intros H G Hi Hj. unfold msized in G. rewrite List.Forall_forall in G. assert (I : In (nth i M []) M) by (apply nth_In; destruct H; lia).
  specialize (G _ I). rewrite List.Forall_forall in G. apply G. apply nth_In. rewrite (shape_row r c M i H Hi). exact Hj.
Qed.
Lemma mwhole_entry r c M i j : shape r c M -> mwhole M -> (i < r)%nat -> (j < c)%nat -> exists z, val (dentry M i j) = IZR z.
Proof.
  intros H G Hi Hj. unfold mwhole in G. rewrite List.Forall_forall in G. assert (I : In (nth i M []) M) by (apply nth_In; destruct H; lia).
  specialize (G _ I). rewrite List.Forall_forall in G. apply G. apply nth_In. rewrite (shape_row r c M i H Hi). exact Hj.
Qed.
Lemma entry_vmat M i j : entry (vmat M) i j = val (dentry M i j).
Proof.
  unfold entry, vmat, dentry. change (@nil R) with (map val []) at 1. rewrite map_nth.
  change 0 with (val (B754_zero false)) at 1. apply map_nth.
Qed.

Section Product.
  Variables (a k c : nat) (al be : R) (A B : list (list b64)).
  Hypothesis Hk : (0 < k)%nat.
  Hypothesis HA : shape a k A.
  Hypothesis HB : shape k c B.
  Hypothesis SA : msized al A.
  Hypothesis SB : msized be B.
  Lemma terms i j : 0 <= al -> (i < a)%nat -> (j < c)%nat -> forall l, (l < k)%nat -> fin (dentry B l j) /\ fin (dentry A i l) /\ Rabs (val (dentry B l j)) * Rabs (val (dentry A i l)) <= al * be.
  Proof.
    intros Al Hi Hj l Hl. destruct (msized_entry a k al A i l HA SA Hi Hl) as [F1 E1]. destruct (msized_entry k c be B l j HB SB Hl Hj) as [F2 E2].
    split; [exact F2|]. split; [exact F1|]. rewrite Rmult_comm. apply Rmult_le_compat; auto using Rabs_pos.
  Qed.
  Lemma prod_v i j : rsum k (fun l => val (dentry A i l) * val (dentry B l j)) = prod_entry k (vmat A) (vmat B) i j.
  Proof. unfold prod_entry. apply rsum_ext. intros l _. now rewrite !entry_vmat. Qed.
  Theorem product_near : 0 <= al -> 0 <= be -> al * be <= 2 ^ 900 -> INR k <= 2 ^ 20 ->
    exists P, multiply A B = Ok P /\ shape a c P /\
      forall i j, (i < a)%nat -> (j < c)%nat -> fin (dentry P i j) /\
        Rabs (val (dentry P i j) - prod_entry k (vmat A) (vmat B) i j) <= 2 * ulp1 * (INR k * (INR k + 1)) * (al * be) + 4 * INR k * tiny.
  Proof.
    intros Al Be Mt N. eexists. split; [apply (dmultiply a k c); auto|]. split; [apply shape_dmat|]. intros i j Hi Hj. rewrite dentry_dmat by auto.
    destruct (dot_near (al * be) ltac:(now apply Rmult_le_pos) Mt (fun l => dentry B l j) (fun l => dentry A i l) k (terms i j Al Hi Hj) k (le_n k) N) as (F & E & _).
    split; [exact F|]. rewrite <- prod_v. exact E.
  Qed.
  Theorem product_whole : 0 <= al -> 0 <= be -> INR k * (al * be) < 2 ^ 53 -> mwhole A -> mwhole B ->
    exists P, multiply A B = Ok P /\ shape a c P /\ mwhole P /\
      forall i j, (i < a)%nat -> (j < c)%nat -> fin (dentry P i j) /\ val (dentry P i j) = prod_entry k (vmat A) (vmat B) i j.
  Proof.
    intros Al Be N WA WB.
    assert (K1 : 1 <= INR k) by (change 1 with (INR 1); apply le_INR; lia).
    assert (M0 : 0 <= al * be) by (now apply Rmult_le_pos).
    assert (G : forall i j, (i < a)%nat -> (j < c)%nat -> fin (dsum k (fun l => dentry B l j) (fun l => dentry A i l)) /\ exists z, val (dsum k (fun l => dentry B l j) (fun l => dentry A i l)) = IZR z /\ IZR z = prod_entry k (vmat A) (vmat B) i j).
    { intros i j Hi Hj.
      assert (T5 : 2 ^ 53 <= 2 ^ 900) by (apply Rle_pow; [lra | lia]).
      destruct (dot_whole (al * be) M0 (fun l => dentry B l j) (fun l => dentry A i l) k (terms i j Al Hi Hj)) with (m := k) as (F & z & V & E & _); auto.
      - intros l Hl. split; [eapply (mwhole_entry k c); eauto | eapply (mwhole_entry a k); eauto].
      - split; [exact F|]. exists z. split; [exact V|]. now rewrite <- prod_v. }
    eexists. split; [apply (dmultiply a k c); auto|]. split; [apply shape_dmat|]. split.
    - unfold mwhole, dmat. rewrite List.Forall_forall. intros x Hx. apply in_map_iff in Hx as (i & <- & Hi). rewrite List.Forall_forall. intros y Hy.
      apply in_map_iff in Hy as (j & <- & Hj). apply in_seq in Hi, Hj. destruct (G i j ltac:(lia) ltac:(lia)) as (_ & z & V & _). eauto.
    - intros i j Hi Hj. rewrite dentry_dmat by auto. destruct (G i j Hi Hj) as (F & z & V & E). split; [exact F|]. now rewrite V.
  Qed.
End Product.

(** ** Transposes *)
Theorem transpose_double r c (M : list (list b64)) : (0 < r)%nat -> shape r c M ->
  exists N, transpose M = Ok N /\ shape c r N /\ (forall i j, (i < r)%nat -> (j < c)%nat -> dentry N j i = dentry M i j) /\ ((0 < c)%nat -> transpose N = Ok M).
Proof.
  intros Hr H. eexists. split; [apply (dtranspose r c); auto|]. split; [apply shape_dmat|]. split.
  - intros i j Hi Hj. now rewrite dentry_dmat.
  - intros Hc. rewrite (dtranspose c r) by (auto; apply shape_dmat). f_equal. transitivity (dmat r c (dentry M)); [|symmetry; now apply dmat_id]. apply dmat_ext. intros i j Hi Hj. now rewrite dentry_dmat.
Qed.
Lemma mul_comm (x y : b64) : nmul x y = nmul y x.
Proof.
  cbn. destruct x as [sx|sx| |sx mx ex bx], y as [sy|sy| |sy my ey by_]; try reflexivity; try (cbn; now rewrite (xorb_comm sx sy)).
  apply B2SF_inj. cbn [Bmult]. unfold Bmult. rewrite !B2SF_SF2B. rewrite (xorb_comm sx sy), (Pos.mul_comm mx my), (Z.add_comm ex ey). reflexivity.
Qed.
Lemma dsum_comm n f g : dsum n f g = dsum n g f.
Proof. induction n; [reflexivity|]. cbn [dsum]. now rewrite IHn, mul_comm. Qed.
Lemma dsum_ext n f g f' g' : (forall l, (l < n)%nat -> f l = f' l /\ g l = g' l) -> dsum n f g = dsum n f' g'.
Proof. induction n; intros E; [reflexivity|]. cbn [dsum]. destruct (E n ltac:(lia)) as [-> ->]. rewrite IHn; [reflexivity|]. intros; apply E; lia. Qed.
Theorem transpose_product a k c (A B : list (list b64)) : (0 < a)%nat -> (0 < k)%nat -> (0 < c)%nat -> shape a k A -> shape k c B ->
  exists P At Bt Pt, multiply A B = Ok P /\ transpose A = Ok At /\ transpose B = Ok Bt /\ transpose P = Ok Pt /\ multiply Bt At = Ok Pt.
Proof.
  intros Ha Hk Hc HA HB. do 4 eexists. split; [apply (dmultiply a k c); auto|]. split; [apply (dtranspose a k); auto|].
  split; [apply (dtranspose k c); auto|]. split; [apply (dtranspose a c); auto; apply shape_dmat|].
  rewrite (dmultiply c k a) by (auto; apply shape_dmat). f_equal. apply dmat_ext. intros i j Hi Hj. rewrite dentry_dmat by auto.
  rewrite dsum_comm. apply dsum_ext. intros l Hl. now rewrite !dentry_dmat by auto.
Qed.

(** ** The unit matrix *)
Lemma dot_unit (f g : nat -> b64) (j : nat) (x : R) : forall m,
  (forall l, (l < m)%nat -> fin (f l) /\ fin (g l) /\ val (f l) * val (g l) = if Nat.eqb l j then x else 0) ->
  fl x = x -> Rabs x < ProofDouble.top ->
  fin (dsum m f g) /\ val (dsum m f g) = if Nat.ltb j m then x else 0.
Proof.
  intros m K Fx Tx. induction m as [|m IH]; [cbn [dsum]; destruct (val_int 0 ltac:(lia)); auto|].
  destruct IH as [F V]; [intros; apply K; lia|]. cbn [dsum]. destruct (K m ltac:(lia)) as (Ff & Fg & E).
  assert (T0 : 0 < ProofDouble.top) by (unfold ProofDouble.top; apply bpow_gt_0).
  assert (R0 : Rabs 0 < ProofDouble.top) by (now rewrite Rabs_R0).
  destruct (mult_fl _ _ Ff Fg) as [Fp Vp]; [rewrite E; destruct (Nat.eqb m j); [now rewrite Fx | now rewrite fl0]|]. rewrite E in Vp.
  set (p := nmul (f m) (g m)) in *. assert (Vp' : val p = if Nat.eqb m j then x else 0) by (rewrite Vp; destruct (Nat.eqb m j); [exact Fx | apply fl0]).
  assert (Q : val (dsum m f g) + val p = if Nat.ltb j (S m) then x else 0).
  { rewrite V, Vp'. destruct (Nat.ltb_spec j m), (Nat.ltb_spec j (S m)), (Nat.eqb_spec m j); try lia; lra. }
  destruct (plus_fl _ _ F Fp) as [Fs Vs]; [rewrite Q; destruct (Nat.ltb j (S m)); [now rewrite Fx | now rewrite fl0]|].
  split; [exact Fs|]. rewrite Vs, Q. destruct (Nat.ltb j (S m)); [exact Fx | apply fl0].
Qed.
Lemma val_under (x : b64) : Rabs (val x) < ProofDouble.top.
Proof. apply abs_B2R_lt_emax. Qed.
Theorem unit_left n c b I B : (0 < n)%nat -> dunit n I -> shape n c B -> msized b B ->
  exists P, multiply I B = Ok P /\ shape n c P /\ forall i j, (i < n)%nat -> (j < c)%nat -> fin (dentry P i j) /\ val (dentry P i j) = val (dentry B i j).
Proof.
  intros Hn [HI U] HB SB. eexists. split; [apply (dmultiply n n c); auto|]. split; [apply shape_dmat|]. intros i j Hi Hj. rewrite dentry_dmat by auto.
  destruct (dot_unit (fun l => dentry B l j) (fun l => dentry I i l) i (val (dentry B i j)) n) as [F V].
  - intros l Hl. destruct (U i l Hi Hl) as [FI VI]. destruct (msized_entry n c b B l j HB SB Hl Hj) as [FB _]. split; [exact FB|]. split; [exact FI|].
    rewrite VI, (Nat.eqb_sym i l). destruct (Nat.eqb_spec l i); [subst; ring | ring].
  - apply fl_val.
  - apply val_under.
  - split; [exact F|]. rewrite V. destruct (Nat.ltb_spec i n); [reflexivity | lia].
Qed.
Theorem unit_right n r b A I : (0 < n)%nat -> dunit n I -> shape r n A -> msized b A ->
  exists P, multiply A I = Ok P /\ shape r n P /\ forall i j, (i < r)%nat -> (j < n)%nat -> fin (dentry P i j) /\ val (dentry P i j) = val (dentry A i j).
Proof.
  intros Hn [HI U] HA SA. eexists. split; [apply (dmultiply r n n); auto|]. split; [apply shape_dmat|]. intros i j Hi Hj. rewrite dentry_dmat by auto.
  destruct (dot_unit (fun l => dentry I l j) (fun l => dentry A i l) j (val (dentry A i j)) n) as [F V].
  - intros l Hl. destruct (U l j Hl Hj) as [FI VI]. destruct (msized_entry r n b A i l HA SA Hi Hl) as [FA _]. split; [exact FI|]. split; [exact FA|].
    rewrite VI. destruct (Nat.eqb_spec l j); [subst; ring | ring].
  - apply fl_val.
  - apply val_under.
  - split; [exact F|]. rewrite V. destruct (Nat.ltb_spec j n); [reflexivity | lia].
Qed.
