(** reduce and simple (Bezier.py 557-615). *)
From Coq Require Import List ZArith Bool Reals Lra Lia Sorting.Sorted.
From Verif Require Import Py Inst SpecGeom SpecMatrix SpecFit SpecUtil SpecBezier SpecOrder SpecBounds SpecCurve
  MTransform MBounds MBezUtil MPathUtil MBezier ProofMatrix ProofFit ProofUtil ProofBounds ProofBezier ProofBezier2 ProofBezier3 ProofBBox ProofInter.
Import ListNotations.
Local Open Scope R_scope.

(** ** Sorting *)
Lemma insert_In (x y : R) l : In y (insert x l) <-> y = x \/ In y l.
Proof.
  induction l as [|z l IH]; cbn [insert].
  - simpl. intuition.
  - numRg. destruct (Rltb x z); simpl; [intuition|]. rewrite IH. intuition.
Qed.
Lemma insert_sorted (x : R) l : StronglySorted Rle l -> StronglySorted Rle (insert x l).
Proof.
  induction 1 as [|z l S IH F]; cbn [insert]; [constructor; constructor|]. numRg. destruct (Rltb_spec x z) as [L|L].
  - constructor; [constructor; auto|]. constructor; [lra|]. rewrite Forall_forall in *. intros y Hy. specialize (F y Hy). lra.
  - constructor; auto. rewrite Forall_forall in *. intros y Hy. apply insert_In in Hy as [->|Hy]; [lra|auto].
Qed.
Lemma sorted_In_acc (l : list R) : forall acc y, In y (fold_left (fun acc x => insert x acc) l acc) <-> In y l \/ In y acc.
Proof.
  induction l as [|x l IH]; intros acc y; cbn [fold_left]; [simpl; tauto|]. rewrite IH, insert_In. simpl. intuition.
Qed.
Lemma sorted_In (l : list R) y : In y (sorted l) <-> In y l.
Proof. unfold sorted. rewrite sorted_In_acc. simpl; tauto. Qed.
Lemma sorted_sorted (l : list R) : StronglySorted Rle (sorted l).
Proof.
  unfold sorted. assert (G : forall acc, StronglySorted Rle acc -> StronglySorted Rle (fold_left (fun acc x => insert x acc) l acc)).
  { induction l as [|x l IH]; intros acc A; cbn [fold_left]; auto. apply IH, insert_sorted, A. }
  apply G. constructor.
Qed.
Lemma SS_filter (f : R -> bool) l : StronglySorted Rle l -> StronglySorted Rle (filter f l).
Proof.
  induction 1 as [|z l S IH F]; cbn [filter]; [constructor|]. destruct (f z); auto. constructor; auto.
  rewrite Forall_forall in *. intros y Hy. apply filter_In in Hy as [Hy _]. auto.
Qed.
Lemma fo_sorted (l : list R) : StronglySorted Rle l -> StronglySorted Rle (first_occurrences neqb l).
Proof.
  induction 1 as [|z l S IH F]; cbn [first_occurrences]; constructor; [apply SS_filter; auto|].
  rewrite Forall_forall in *. intros y Hy. apply filter_In in Hy as [Hy _]. apply fo_incl in Hy. auto.
Qed.
Lemma distinct_strict (l : list R) : StronglySorted Rle l -> ForallOrdPairs (fun x y => neqb x y = false) l -> StronglySorted Rlt l.
Proof.
  induction 1 as [|z l S IH F]; intros D; [constructor|]. inversion D as [|z' l' D1 D2]; subst. constructor; auto.
  rewrite Forall_forall in *. intros y Hy. specialize (F y Hy). specialize (D1 y Hy). numR. apply Reqb_false in D1. lra.
Qed.
Lemma dedup_sorted (l : list R) : StronglySorted Rlt (removeDuplicates neqb (sorted l)) /\ forall x, In x (removeDuplicates neqb (sorted l)) <-> In x l.
Proof.
  destruct (removeDuplicates_full (A := R) neqb (sorted l)) as (E & D & I & J & _).
  - intros x. numRg. now apply Reqb_true.
  - intros x y. numRg. destruct (Reqb_spec x y), (Reqb_spec y x); congruence.
  - intros x y z. numRg. rewrite !Reqb_true. congruence.
  - split.
    + apply distinct_strict; [|exact D]. rewrite E. apply fo_sorted, sorted_sorted.
    + intros x. rewrite <- (sorted_In l x). split; [apply I|]. intros H. destruct (J x H) as (y & Hy & K). numR. apply Reqb_true in K. now subst.
Qed.
(** The list of split parameters: strictly increasing from 0 to 1. *)
Lemma SS_app (l : list R) x : StronglySorted Rlt l -> (forall y, In y l -> y < x) -> StronglySorted Rlt (l ++ [x]).
Proof.
  induction 1 as [|z l S IH F]; intros B; simpl; [constructor; constructor|]. constructor; [apply IH; intros; apply B; now right|].
  rewrite Forall_forall in *. intros y Hy. apply in_app_or in Hy as [Hy|[<-|[]]]; auto. apply B. now left.
Qed.
Lemma addEnds_sorted (l : list R) : StronglySorted Rlt l -> (forall t, In t l -> 0 <= t <= 1) ->
  exists r, addEnds l = 0 :: r /\ StronglySorted Rlt (0 :: r) /\ last (0 :: r) 0 = 1 /\ r <> [].
Proof.
  intros S B. unfold addEnds. numRg.
  assert (H0 : exists r, (if nmem 0 l then l else 0 :: l) = 0 :: r /\ StronglySorted Rlt (0 :: r) /\ forall t, In t (0 :: r) -> 0 <= t <= 1).
  { destruct (nmem 0 l) eqn:M.
    - apply nmem_In in M. destruct l as [|x r]; [destruct M|]. inversion S as [|x' r' S' F]; subst. destruct M as [->|M].
      + exists r. split; [reflexivity|]. split; [exact S|exact B].
      + rewrite Forall_forall in F. specialize (F 0 M). specialize (B x (or_introl eq_refl)). lra.
    - exists l. split; auto. split.
      + constructor; auto. rewrite Forall_forall. intros y Hy. specialize (B y Hy). destruct (Req_dec y 0) as [->|N]; [|lra].
        apply nmem_In in Hy. congruence.
      + intros t [<-|Ht]; [lra|auto]. }
  destruct H0 as (r & -> & Sr & Br). destruct (nmem 1 (0 :: r)) eqn:M.
  - apply nmem_In in M. exists r. split; auto. split; auto. destruct M as [M|M]; [lra|].
    destruct (exists_last (l := r)) as (r' & x & ->); [intros ->; destruct M|].
    replace (last (0 :: r' ++ [x]) 0) with x by (rewrite app_comm_cons, last_last; reflexivity).
    split; [|destruct r'; discriminate].
    apply in_app_or in M as [M|[M|[]]]; [|auto]. inversion Sr as [|? ? S' F]; subst. clear - S' M Br.
    induction r' as [|y r' IH]; [destruct M|]. simpl in S'. inversion S' as [|? ? S'' F]; subst. destruct M as [->|M].
    + rewrite Forall_forall in F. specialize (F x). specialize (Br x). rewrite in_app_iff in F. simpl in *. rewrite in_app_iff in Br. simpl in *. intuition lra.
    + apply IH; auto. intros t [<-|Ht]; [lra|]. apply Br. right. simpl. auto.
  - exists (r ++ [1]). split; [reflexivity|]. split; [|split; [rewrite app_comm_cons, last_last; reflexivity | destruct r; discriminate]].
    rewrite app_comm_cons. apply SS_app; auto. intros y Hy. specialize (Br y Hy). destruct (Req_dec y 1) as [->|N]; [|lra].
    apply nmem_In in Hy. congruence.
Qed.

Lemma lin a k t : derivable_pt_lim (fun s => a + k * s) t k.
Proof.
  pose proof (derivable_pt_lim_plus _ _ t _ _ (derivable_pt_lim_const a t) (derivable_pt_lim_scal id k t 1 (derivable_pt_lim_id t))) as H.
  rewrite Rplus_0_l, Rmult_1_r in H. exact H.
Qed.
Lemma is_deriv_part (o p : list pt) a z t d : a < z -> (forall u, curve p u = curve o (a + u * (z - a))) -> is_deriv (curve o) (a + t * (z - a)) d ->
  is_deriv (curve p) t ((z - a) * fst d, (z - a) * snd d).
Proof.
  intros Lt C [D1 D2]. assert (Li : derivable_pt_lim (fun u => a + u * (z - a)) t (z - a)).
  { refine (derivable_pt_lim_ext _ _ t _ _ (lin a (z - a) t)). intros u. ring. }
  split; cbn [fst snd].
  - refine (derivable_pt_lim_ext _ _ t _ _ _); [|rewrite (Rmult_comm (z - a)); exact (derivable_pt_lim_comp _ _ t _ _ Li D1)]. intros u. unfold comp. now rewrite C.
  - refine (derivable_pt_lim_ext _ _ t _ _ _); [|rewrite (Rmult_comm (z - a)); exact (derivable_pt_lim_comp _ _ t _ _ Li D2)]. intros u. unfold comp. now rewrite C.
Qed.
Lemma is_deriv_unique f t d e : is_deriv f t d -> is_deriv f t e -> d = e.
Proof.
  destruct d, e. intros [A B] [C D]. cbn [fst snd] in *. f_equal; eapply uniqueness_limite; eassumption.
Qed.
Lemma is_deriv_stop (o p : list pt) a z t : (length o = 3 \/ length o = 4)%nat -> a < z -> (forall u, curve p u = curve o (a + u * (z - a))) -> is_deriv (curve p) t (0, 0) ->
  is_deriv (curve o) (a + t * (z - a)) (0, 0).
Proof.
  intros L Lt C D. destruct (derivative_ok (mkBez o 0 1) (a + t * (z - a)) L) as ([x y] & _ & W). cbn [cps] in W.
  pose proof (is_deriv_unique _ _ _ _ D (is_deriv_part o p a z t _ Lt C W)) as E. cbn [fst snd] in E. injection E as E1 E2.
  assert (x = 0) by nra. assert (y = 0) by nra. now subst.
Qed.
(** A tangent vanishes over [[a,z]]. *)
Definition stops (o : list pt) (a z : R) : Prop := exists t, a <= t <= z /\ is_deriv (curve o) t (0, 0).

Section Reduce.
  Context (rnd : R -> R).
  #[local] Hint Extern 0 (TrigOps R) => exact (RTrig rnd) : typeclass_instances.

  (** ** simple *)
  Lemma acos_third s : -1 <= s <= 1 -> Rltb (Rabs (acos s)) (PI / 3) = true <-> 1 / 2 < s.
  Proof.
    intros B. pose proof (acos_bound s) as Ab. rewrite Rabs_pos_eq by lra. rewrite Rltb_true. pose proof (cos_acos s B) as C. pose proof PI_RGT_0.
    rewrite <- cos_PI3. rewrite <- C at 2. split; intros K.
    - apply cos_decreasing_1; lra.
    - apply cos_decreasing_0; lra.
  Qed.
  Definition bent (b : bezier R) : bool :=
    if Nat.eqb (order b) 3 then
      let a1 := angle (nth 0 (cps b) (0, 0)) (nth 3 (cps b) (0, 0)) (nth 1 (cps b) (0, 0)) in
      let a2 := angle (nth 0 (cps b) (0, 0)) (nth 3 (cps b) (0, 0)) (nth 2 (cps b) (0, 0)) in
      (Rltb 0 a1 && Rltb a2 0) || (Rltb a1 0 && Rltb 0 a2)
    else false.
  Lemma unit_dot (n m : pt) : vdot n n = 1 -> vdot m m = 1 -> -1 <= vdot n m <= 1.
  Proof. unfold vdot. intros A B. pose proof (Rle_0_sqr (fst n + fst m)). pose proof (Rle_0_sqr (snd n + snd m)). pose proof (Rle_0_sqr (fst n - fst m)). pose proof (Rle_0_sqr (snd n - snd m)). unfold Rsqr in *. lra. Qed.
  Theorem simple_cases (b : bezier R) : (length (cps b) = 3 \/ length (cps b) = 4)%nat ->
    (bent b = true /\ simple b = Ok false) \/
    (bent b = false /\ simple b = Err ZeroDivisionError /\ exists t, (t = 0 \/ t = 1) /\ is_deriv (curve (cps b)) t (0, 0)) \/
    (bent b = false /\ exists n1 n2 c, normal b 0 = Ok n1 /\ normal b 1 = Ok n2 /\ vdot n1 n1 = 1 /\ vdot n2 n2 = 1 /\ simple b = Ok c /\ (c = true <-> 1 / 2 < vdot n1 n2)).
  Proof.
    intros L.
    assert (S : exists k, simple b = bind (Ok (bent b)) k /\ k true = Ok false /\ k false =
      let* n1 := normal b 0 in let* n2 := normal b 1 in let* ac := pyacos (vdot n1 n2) in Ok (Rltb (Rabs ac) (PI / 3))).
    { unfold simple, bent, order. destruct L as [L|L]; rewrite L; cbn [Nat.sub Nat.eqb]; [eexists; split; [reflexivity|split; reflexivity]|].
      rewrite !(idx_nth (cps b) _ (0, 0)) by lia. eexists; split; [reflexivity|split; reflexivity]. }
    destruct S as (k & -> & K1 & K2). cbn [bind]. destruct (bent b); [left; auto|right]. rewrite K2. clear k K1 K2.
    destruct (normal_spec rnd b 0 L) as (d0 & D0 & P0 & Z0). destruct (normal_spec rnd b 1 L) as (d1 & D1 & P1 & Z1). numRg.
    assert (Dec : forall d : pt, d = (0, 0) \/ d <> (0, 0)).
    { intros [x y]. destruct (Req_dec x 0) as [->|]; [destruct (Req_dec y 0) as [->|]; [left; auto|]|]; right; congruence. }
    destruct (Dec d0) as [->|N0].
    { left. split; auto. rewrite Z0 by auto. split; [reflexivity|]. exists 0. auto. }
    destruct (P0 N0) as (n1 & E1 & U1 & _). rewrite E1. cbn [bind].
    destruct (Dec d1) as [->|N1].
    { left. split; auto. rewrite Z1 by auto. split; [reflexivity|]. exists 1. auto. }
    destruct (P1 N1) as (n2 & E2 & U2 & _). rewrite E2. cbn [bind]. right. split; auto.
    pose proof (unit_dot n1 n2 U1 U2) as B. unfold pyacos. numRg.
    replace (Rltb (vdot n1 n2) (-1)) with false by (symmetry; apply Rltb_false; lra). replace (Rltb 1 (vdot n1 n2)) with false by (symmetry; apply Rltb_false; lra). cbn [orb bind].
    exists n1, n2, (Rltb (Rabs (acos (vdot n1 n2))) (PI / 3)). do 4 (split; [assumption || reflexivity|]). split; [reflexivity|]. now apply acos_third.
  Qed.

  (** ** reduce *)
  Lemma split2curve_ok (b : bezier R) t1 t2 : (length (cps b) = 3 \/ length (cps b) = 4)%nat -> t2 <> 0 -> (t1 <> 1 \/ t2 = 1) ->
    exists c, split2curve b t1 t2 = Ok c /\ length (cps c) = length (cps b) /\ forall s, curve (cps c) s = curve (cps b) (t1 + s * (t2 - t1)).
  Proof.
    intros L N2 N1. destruct (split2_ok b t1 t2 L N2 N1) as (c & E & Lc & C & _). exists c. unfold split2curve. rewrite E. auto.
  Qed.
  Lemma tiles_app o : forall s1 a m z s2, tiles o a m s1 -> tiles o m z s2 -> tiles o a z (s1 ++ s2).
  Proof.
    induction s1 as [|s s1 IH]; intros a m z s2 H1 H2; simpl in *; [now subst|].
    destruct H1 as (B & Lt & L & C & T). repeat (split; [assumption|]). exact (IH _ _ _ _ T H2).
  Qed.
  Lemma pass1_ok (b : bezier R) : (length (cps b) = 3 \/ length (cps b) = 4)%nat ->
    forall ts t1, 0 <= t1 -> StronglySorted Rlt (t1 :: ts) -> (forall t, In t (t1 :: ts) -> t <= 1) ->
    exists segs, reducePass1 b t1 ts = Ok segs /\ tiles (cps b) t1 (last (t1 :: ts) 0) segs /\ (ts <> [] -> segs <> []).
  Proof.
    intros L. induction ts as [|t2 ts IH]; intros t1 P S B.
    - exists []. simpl. auto.
    - inversion S as [|? ? S' F]; subst. rewrite Forall_forall in F. pose proof (F t2 (or_introl eq_refl)) as Lt.
      pose proof (B t2 (or_intror (or_introl eq_refl))) as B2.
      destruct (split2curve_ok b t1 t2 L) as (c & E & Lc & C); [lra|left; lra|].
      destruct (IH t2) as (segs & E' & T & _); [lra|exact S'|intros t Ht; apply B; now right|].
      exists (withInterval c t1 t2 :: segs). cbn [reducePass1]. rewrite E. cbn [bind]. rewrite E'. cbn [bind]. split; [reflexivity|]. split; [|discriminate].
      cbn [tiles withInterval bt1 bt2 cps]. split; [reflexivity|]. split; [exact Lt|]. split; [exact Lc|]. split; [exact C|]. exact T.
  Qed.

  (** The parameters tried by the second pass. *)
  Definition tk (j : nat) : R := INR j / 100.
  Lemma tk_S j : tk (S j) = tk j + rstep.
  Proof. unfold tk, rstep. change (nlit 1 100) with (1 / 100). rewrite S_INR. numRg. field. Qed.
  Lemma tk_lt i j : (i < j)%nat -> tk i + rstep <= tk j.
  Proof. intros H. rewrite <- tk_S. unfold tk. apply le_INR in H. lra. Qed.
  Lemma tk_le1 i : tk i <= 1 <-> (i <= 100)%nat.
  Proof.
    unfold tk. replace 1 with (INR 100 / 100) by (simpl; lra). split; intros H.
    - apply INR_le. lra.
    - apply le_INR in H. lra.
  Qed.
  Lemma tk_pos i : 0 <= tk i.
  Proof. unfold tk. pose proof (pos_INR i). lra. Qed.
  Lemma tk_100 : tk 100 = 1.
  Proof. unfold tk. simpl. lra. Qed.
  Lemma rstep_val : rstep = 1 / 100.
  Proof. reflexivity. Qed.
  Definition simple_at (p1 : bezier R) (j i : nat) : Prop :=
    exists sg, split2curve p1 (tk j) (tk i) = Ok sg /\ simple sg = Ok true.
  Lemma simple_or (b : bezier R) : (length (cps b) = 3 \/ length (cps b) = 4)%nat -> simple b = Ok true \/ simple b = Ok false \/ simple b = Err ZeroDivisionError.
  Proof.
    intros L. destruct (simple_cases b L) as [[_ E]|[[_ [E _]]|[_ (n1 & n2 & c & _ & _ & _ & _ & E & _)]]]; auto. destruct c; auto.
  Qed.
  Lemma simple_or' (b : bezier R) : (length (cps b) = 3 \/ length (cps b) = 4)%nat -> simple b = Ok true \/ simple b = Ok false \/ (simple b = Err ZeroDivisionError /\ stops (cps b) 0 1).
  Proof.
    intros L. destruct (simple_cases b L) as [[_ E]|[[_ [E (t & Ht & D)]]|[_ (n1 & n2 & c & _ & _ & _ & _ & E & _)]]]; auto.
    - right; right. split; [exact E|]. exists t. split; [lra|exact D].
    - destruct c; auto.
  Qed.
  Lemma inner_spec (p1 : bezier R) (j : nat) : (length (cps p1) = 3 \/ length (cps p1) = 4)%nat -> (j < 100)%nat ->
    forall fuel i, (j < i <= 101)%nat -> (102 - i <= fuel)%nat -> (forall k, (j < k < i)%nat -> simple_at p1 j k) ->
    match reduceInner fuel p1 (tk j) (tk i) with
    | Err e => e = ZeroDivisionError /\ stops (cps p1) 0 1
    | Ok RNone => True
    | Ok (RBreak x sg) => exists m sg', (j < m < 100)%nat /\ x = tk m /\ split2curve p1 (tk j) (tk m) = Ok sg' /\ simple sg' = Ok true /\
        sg = withInterval sg' (bt1 p1 + tk j * (bt2 p1 - bt1 p1)) (bt1 p1 + tk m * (bt2 p1 - bt1 p1))
    | Ok RDone => simple_at p1 j 100
    end.
  Proof.
    intros L J. induction fuel as [|f IH]; intros i I F H; [lia|]. cbn [reduceInner]. numRg.
    destruct (Rleb_spec (tk i) 1) as [Le|Gt].
    - apply tk_le1 in Le. pose proof (tk_pos j). pose proof (tk_lt j i ltac:(lia)). pose proof rstep_val as RV.
      assert (N1 : forall m, (m <= 100)%nat -> (j < m)%nat -> tk m <> 0 /\ (tk j <> 1 \/ tk m = 1)).
      { intros m M Jm. pose proof (tk_lt j m Jm). pose proof (proj2 (tk_le1 m) M). split; [lra|]. left. lra. }
      destruct (split2curve_ok p1 (tk j) (tk i) L (proj1 (N1 i Le ltac:(lia))) (proj2 (N1 i Le ltac:(lia)))) as (c & E & Lc & Cc).
      rewrite E. cbn [bind]. destruct (simple_or' c) as [Si|[Si|[Si St]]]; [rewrite Lc; exact L| | |]; rewrite Si; cbn [bind].
      + rewrite <- tk_S. apply IH; [lia|lia|]. intros k K. destruct (Nat.eq_dec k i) as [->|]; [exists c; auto|apply H; lia].
      + destruct i as [|i']; [lia|]. replace (tk (S i') - rstep) with (tk i') by (rewrite tk_S; ring).
        destruct (Rltb_spec (Rabs (tk j - tk i')) rstep) as [K|K]; [exact Logic.I|].
        assert (J' : (j < i')%nat).
        { destruct (Nat.eq_dec j i') as [->|]; [|lia]. exfalso. replace (tk i' - tk i') with 0 in K by ring; rewrite Rabs_R0 in K. lra. }
        destruct (H i' ltac:(lia)) as (sg & Es & Ss). rewrite Es. cbn [bind]. rewrite !bmap01. cbn [bind].
        exists i', sg. split; [lia|]. split; [reflexivity|]. split; [exact Es|]. split; [exact Ss|reflexivity].
      + split; [reflexivity|]. destruct St as (t & Ht & Dt). pose proof (tk_lt j i ltac:(lia)). pose proof rstep_val. pose proof (tk_pos j). pose proof (proj2 (tk_le1 i) Le).
        exists (tk j + t * (tk i - tk j)). split; [nra|]. apply (is_deriv_stop (cps p1) (cps c)); auto. lra.
    - assert (i = 101)%nat as ->. { destruct (Nat.le_gt_cases i 100) as [K|K]; [apply tk_le1 in K; lra|lia]. }
      apply H. lia.
  Qed.
  Section Outer.
    Variables (o : list pt) (p1 : bezier R).
    Hypothesis (Lo : (length o = 3 \/ length o = 4)%nat) (Lp : length (cps p1) = length o) (Int : bt1 p1 < bt2 p1).
    Hypothesis (Cp : forall u, curve (cps p1) u = curve o (bt1 p1 + u * (bt2 p1 - bt1 p1))).
    Let at_ (x : R) : R := bt1 p1 + x * (bt2 p1 - bt1 p1).
    Lemma seg_tile sg x y : x < y -> length (cps sg) = length (cps p1) -> (forall s, curve (cps sg) s = curve (cps p1) (x + s * (y - x))) ->
      forall rest z, tiles o (at_ y) z rest -> tiles o (at_ x) z (withInterval sg (at_ x) (at_ y) :: rest).
    Proof.
      intros Lt Ls C rest z T. cbn [tiles withInterval bt1 bt2 cps]. split; [reflexivity|]. split; [unfold at_; nra|]. split; [congruence|]. split; [|exact T].
      intros u. rewrite C, Cp. f_equal. unfold at_. ring.
    Qed.
    Lemma outer_spec : forall fuel j acc, (j < 100)%nat -> (102 - j <= fuel)%nat ->
      match reduceOuter fuel p1 (tk j) (tk j) acc with
      | Err e => e = ZeroDivisionError /\ stops o (bt1 p1) (bt2 p1)
      | Ok None => True
      | Ok (Some (x, l)) => exists m segs, x = tk m /\ (m < 100)%nat /\ l = acc ++ segs /\ tiles o (at_ (tk j)) (at_ (tk m)) segs /\
          Forall (fun s => simple s = Ok true) segs /\ simple_at p1 m 100
      end.
    Proof.
      induction fuel as [|f IH]; intros j acc J F; [lia|]. cbn [reduceOuter]. numRg.
      assert (L1 : tk j <= 1) by (apply tk_le1; lia). rewrite (proj2 (Rleb_true _ _) L1). rewrite <- tk_S.
      assert (L : (length (cps p1) = 3 \/ length (cps p1) = 4)%nat) by (rewrite Lp; exact Lo).
      pose proof (inner_spec p1 j L J (S f) (S j) ltac:(lia) ltac:(lia) ltac:(intros; lia)) as In.
      destruct (reduceInner (S f) p1 (tk j) (tk (S j))) as [[|x sg|]|e]; cbn [bind]; [exact I| | |].
      3: { destruct In as [-> (t & Ht & Dt)]. split; [reflexivity|]. exists (bt1 p1 + t * (bt2 p1 - bt1 p1)). split; [nra|]. apply (is_deriv_stop o (cps p1)); auto. }
      - destruct In as (m & sg' & M & -> & E & Si & ->).
        specialize (IH m (acc ++ [withInterval sg' (bt1 p1 + tk j * (bt2 p1 - bt1 p1)) (bt1 p1 + tk m * (bt2 p1 - bt1 p1))]) ltac:(lia) ltac:(lia)).
        destruct (reduceOuter f p1 (tk m) (tk m) _) as [[[x l]|]|e]; [|exact I|exact IH].
        destruct IH as (m' & segs & -> & M' & -> & T & A & Sa). exists m', (withInterval sg' (at_ (tk j)) (at_ (tk m)) :: segs).
        split; [reflexivity|]. split; [exact M'|]. split; [rewrite <- app_assoc; reflexivity|].
        pose proof (tk_lt j m ltac:(lia)). pose proof rstep_val. pose proof (tk_pos j). assert (tk m <= 1) by (apply tk_le1; lia).
        destruct (split2curve_ok p1 (tk j) (tk m) L) as (c & Ec & Lc & Cc); [lra|left; lra|]. rewrite E in Ec. injection Ec as <-.
        split; [apply seg_tile; auto; lra|]. split; [|exact Sa]. constructor; auto.
      - exists j, []. split; [reflexivity|]. split; [exact J|]. split; [now rewrite app_nil_r|]. split; [reflexivity|]. split; [constructor|exact In].
    Qed.
  End Outer.
  Lemma tiles_le o : forall segs a z, tiles o a z segs -> a <= z.
  Proof. induction segs as [|x segs IH]; intros a z T; simpl in T; [lra|]. destruct T as (_ & Lt & _ & _ & T). apply IH in T. lra. Qed.
  Lemma pass2_spec o fuel : (length o = 3 \/ length o = 4)%nat -> (102 <= fuel)%nat ->
    forall ps a0 a z acc, tiles o a z ps -> tiles o a0 a acc -> Forall (fun s => simple s = Ok true) acc ->
    match reducePass2 fuel ps acc with
    | Err e => e = ZeroDivisionError /\ stops o a z
    | Ok l => l = [] \/ (tiles o a0 z l /\ Forall (fun s => simple s = Ok true) l)
    end.
  Proof.
    intros Lo F. induction ps as [|p1 ps IH]; intros a0 a z acc T Ta Fa; cbn [reducePass2].
    - simpl in T. subst. right. auto.
    - cbn [tiles] in T. destruct T as (B & Lt & Lp & C & T). rewrite <- B in Lt, C, Ta.
      pose proof (outer_spec o p1 Lo Lp Lt C fuel 0 [] ltac:(lia) ltac:(lia)) as Ou.
      assert (Z0 : tk 0 = 0) by (unfold tk; simpl; lra). rewrite Z0 in Ou. numRg.
      destruct (reduceOuter fuel p1 0 0 []) as [[[x l]|]|e]; cbn [bind]; [|left; reflexivity|].
      2: { destruct Ou as [-> (t & Ht & Dt)]. split; [reflexivity|]. pose proof (tiles_le _ _ _ _ T). exists t. split; [lra|exact Dt]. }
      destruct Ou as (m & segs & -> & M & -> & Ts & As & (sg & Es & Ss)). cbn [app].
      pose proof (tk_lt m 100 M) as Lm. rewrite tk_100 in Lm, Es. pose proof rstep_val as RV. pose proof (tk_pos m).
      rewrite (proj2 (Rltb_true (tk m) 1)) by lra. rewrite Es. cbn [bind]. rewrite bmap01. cbn [bind].
      assert (L : (length (cps p1) = 3 \/ length (cps p1) = 4)%nat) by (rewrite Lp; exact Lo).
      destruct (split2curve_ok p1 (tk m) 1 L) as (c & Ec & Lc & Cc); [lra|right; reflexivity|]. rewrite Es in Ec. injection Ec as <-.
      assert (Tf : tiles o (bt1 p1 + tk m * (bt2 p1 - bt1 p1)) (bt2 p1) [withInterval sg (bt1 p1 + tk m * (bt2 p1 - bt1 p1)) (bt2 p1)]).
      { cbn [tiles withInterval bt1 bt2 cps]. split; [reflexivity|]. split; [nra|]. split; [congruence|]. split; [|reflexivity].
        intros u. rewrite Cc, C. f_equal. ring. }
      replace (bt1 p1 + 0 * (bt2 p1 - bt1 p1)) with (bt1 p1) in Ts by ring.
      assert (G : forall A0 A1 (r : res (list (bezier R))), A0 <= A1 -> match r with Err e => e = ZeroDivisionError /\ stops o A1 z | Ok l => l = [] \/ (tiles o a0 z l /\ Forall (fun s => simple s = Ok true) l) end ->
        match r with Err e => e = ZeroDivisionError /\ stops o A0 z | Ok l => l = [] \/ (tiles o a0 z l /\ Forall (fun s => simple s = Ok true) l) end).
      { intros A0 A1 [q|e] Le H'; [exact H'|]. destruct H' as [E' (t & Ht & Dt)]. split; [exact E'|]. exists t. split; [lra|exact Dt]. }
      apply (G a (bt2 p1)); [lra|]. apply IH with (a := bt2 p1).
      + exact T.
      + apply tiles_app with (m := bt1 p1); [exact Ta|]. exact (tiles_app _ _ _ _ _ _ Ts Tf).
      + apply Forall_app. split; [exact Fa|]. apply Forall_app. split; [exact As|]. constructor; [exact Ss|constructor].
  Qed.
  Theorem reduce_spec' (b : bezier R) (fuel : nat) : (length (cps b) = 3 \/ length (cps b) = 4)%nat -> (102 <= fuel)%nat ->
    (reduce fuel b = Err ZeroDivisionError /\ stops (cps b) 0 1) \/
    exists l, reduce fuel b = Ok l /\ (l = [] \/ (tiles (cps b) 0 1 l /\ Forall (fun s => simple s = Ok true) l)).
  Proof.
    intros L F. unfold reduce, extrema.
    destruct (extremaDim_spec rnd b 0) as (e0 & E0 & I0 & _); [lia|]. destruct (extremaDim_spec rnd b 1) as (e1 & E1 & I1 & _); [lia|].
    rewrite E0. cbn [bind]. rewrite E1. cbn [bind ex2].
    destruct (dedup_sorted (sorted e0 ++ sorted e1)) as (S & I).
    destruct (addEnds_sorted _ S) as (r & -> & Sr & Last & Nr).
    { intros t Ht. apply I in Ht. apply in_app_or in Ht. rewrite !sorted_In in Ht. destruct Ht; auto. }
    cbn [idx nth_error bind tl]. unfold idx. cbn [nth_error bind].
    destruct (pass1_ok b L r 0) as (segs & -> & T & _); [lra|exact Sr| |].
    { intros t Ht. assert (G : forall l x, StronglySorted Rlt (x :: l) -> forall y, In y (x :: l) -> y <= last (x :: l) 0).
      { induction l as [|w l IH]; intros x Sx y Hy.
        - destruct Hy as [->|[]]. simpl. lra.
        - inversion Sx as [|? ? Sx' Fx]; subst. change (last (x :: w :: l) 0) with (last (w :: l) 0). destruct Hy as [->|Hy]; [|now apply IH].
          rewrite Forall_forall in Fx. pose proof (Fx w (or_introl eq_refl)). pose proof (IH w Sx' w (or_introl eq_refl)). lra. }
      rewrite <- Last. now apply G. }
    cbn [bind]. rewrite Last in T. pose proof (pass2_spec (cps b) fuel L F segs 0 0 1 [] T eq_refl (Forall_nil _)) as P.
    destruct (reducePass2 fuel segs []) as [l|e]; [right; eauto|left; destruct P as [-> P]; auto].
  Qed.
  Theorem reduce_spec (b : bezier R) (fuel : nat) : (length (cps b) = 3 \/ length (cps b) = 4)%nat -> (102 <= fuel)%nat ->
    reduce fuel b = Err ZeroDivisionError \/
    exists l, reduce fuel b = Ok l /\ (l = [] \/ (tiles (cps b) 0 1 l /\ Forall (fun s => simple s = Ok true) l)).
  Proof. intros L F. destruct (reduce_spec' b fuel L F) as [[E _]|E]; auto. Qed.

  (** What simple means. *)
  Lemma atan2_pos y x : 0 < y -> 0 < Ratan2 y x.
  Proof.
    intros Y. unfold Ratan2. pose proof PI_RGT_0. destruct (Rlt_dec 0 x) as [X|X].
    - rewrite <- atan_0. apply atan_increasing. apply Rdiv_lt_0_compat; auto.
    - destruct (Rlt_dec x 0); [|destruct (Rlt_dec 0 y); lra]. destruct (Rle_dec 0 y); [|lra]. pose proof (atan_bound (y / x)). lra.
  Qed.
  Lemma atan2_neg y x : y < 0 -> Ratan2 y x < 0.
  Proof.
    intros Y. unfold Ratan2. pose proof PI_RGT_0. destruct (Rlt_dec 0 x) as [X|X].
    - rewrite <- atan_0. apply atan_increasing. unfold Rdiv. pose proof (Rinv_0_lt_compat x X). nra.
    - destruct (Rlt_dec x 0); [|destruct (Rlt_dec 0 y); [lra|]; destruct (Rlt_dec y 0); lra]. destruct (Rle_dec 0 y); [lra|]. pose proof (atan_bound (y / x)). lra.
  Qed.
  Theorem simple_meaning (b : bezier R) : (length (cps b) = 3 \/ length (cps b) = 4)%nat -> simple b = Ok true -> turns_little (cps b).
  Proof.
    intros L E. destruct (simple_cases b L) as [[_ K]|[[_ [K _]]|[Bt (n1 & n2 & c & N1 & N2 & U1 & U2 & K & Hc)]]]; [congruence|congruence|].
    rewrite E in K. injection K as <-. apply proj1 in Hc. specialize (Hc eq_refl). split.
    - destruct (derivative_ok b 0 L) as (d0 & E0 & D0). destruct (derivative_ok b 1 L) as (d1 & E1 & D1). exists d0, d1. split; [exact D0|]. split; [exact D1|].
      assert (Z : forall t d n, derivative b t = Ok d -> normal b t = Ok n -> d <> (0, 0)).
      { intros t d n Ed En ->. unfold normal in En. rewrite Ed in En. cbn [bind] in En. unfold bsqrt in En. numR.
        rewrite (proj2 (Rltb_false _ _)) in En by lra. change (tsqrt ?x) with (sqrt x) in En.
        replace (0 * 0 + 0 * 0) with 0 in En by ring. rewrite sqrt_0, ndivR0 in En. discriminate. }
      destruct (normal_of rnd b 0 d0 E0 (Z 0 d0 n1 E0 N1)) as [Q0 F0]. destruct (normal_of rnd b 1 d1 E1 (Z 1 d1 n2 E1 N2)) as [Q1 F1].
      rewrite N1 in F0. injection F0 as ->. rewrite N2 in F1. injection F1 as ->. fold (vdot d0 d0) in *. fold (vdot d1 d1) in *.
      assert (P : forall d, 0 < sqrt (vdot d d) -> 0 < vdot d d).
      { intros d H. destruct (Rle_lt_dec (vdot d d) 0) as [K|K]; [rewrite sqrt_neg_0 in H; lra|exact K]. }
      split; [auto|]. split; [auto|]. set (q0 := sqrt (vdot d0 d0)) in *. set (q1 := sqrt (vdot d1 d1)) in *.
      unfold vdot in Hc at 1. cbn [fst snd] in Hc.
      replace (- snd d0 / q0 * (- snd d1 / q1) + fst d0 / q0 * (fst d1 / q1)) with (vdot d0 d1 / (q0 * q1)) in Hc by (unfold vdot; field; lra).
      assert (0 < q0 * q1) by nra. apply (Rmult_lt_compat_r (q0 * q1)) in Hc; [|auto].
      replace (vdot d0 d1 / (q0 * q1) * (q0 * q1)) with (vdot d0 d1) in Hc by (field; lra). lra.
    - intros L4 side. unfold bent, order in Bt. rewrite L4 in Bt. cbn [Nat.sub Nat.eqb] in Bt. apply orb_false_iff in Bt as [B1 B2].
      assert (A : forall i, (0 < side i -> 0 < angle (nth 0 (cps b) (0, 0)) (nth 3 (cps b) (0, 0)) (nth i (cps b) (0, 0))) /\
                            (side i < 0 -> angle (nth 0 (cps b) (0, 0)) (nth 3 (cps b) (0, 0)) (nth i (cps b) (0, 0)) < 0)).
      { intros i. unfold side, vcross, vsub, angle. cbn [fst snd]. numRg. split; [apply atan2_pos|apply atan2_neg]. }
      split; intros [K1 K2].
      + rewrite (proj2 (Rltb_true _ _)), (proj2 (Rltb_true _ _)) in B1; [discriminate|apply A; auto|apply A; auto].
      + rewrite (proj2 (Rltb_true _ _)), (proj2 (Rltb_true _ _)) in B2; [discriminate|apply A; auto|apply A; auto].
  Qed.

  (** ** intersects *)
  Lemma tiles_In o : forall segs a z s, tiles o a z segs -> In s segs -> a <= bt1 s /\ bt1 s < bt2 s /\ bt2 s <= z /\ length (cps s) = length o /\
    forall u, curve (cps s) u = curve o (bt1 s + u * (bt2 s - bt1 s)).
  Proof.
    assert (Le : forall segs a z, tiles o a z segs -> a <= z).
    { induction segs as [|s segs IH]; intros a z T; simpl in T; [lra|]. destruct T as (_ & Lt & _ & _ & T). apply IH in T. lra. }
    induction segs as [|x segs IH]; intros a z s T H; [destruct H|]. simpl in T. destruct T as (B & Lt & L & C & T). destruct H as [->|H].
    - pose proof (Le _ _ _ T). rewrite <- B in C. repeat split; auto; lra.
    - destruct (IH _ _ _ T H) as (A & K). repeat split; try tauto. lra.
  Qed.
  Lemma tiles_cover o : forall segs a z u, tiles o a z segs -> a <= u <= z -> a < z -> exists s, In s segs /\ bt1 s <= u <= bt2 s.
  Proof.
    induction segs as [|x segs IH]; intros a z u T U Lt; simpl in T; [lra|]. destruct T as (B & Lx & L & C & T).
    destruct (Rle_dec u (bt2 x)) as [K|K]; [exists x; split; [now left|lra]|].
    destruct (IH (bt2 x) z u T) as (s & Hs & Us); [lra|lra|]. exists s. split; [now right|exact Us].
  Qed.
  Lemma tiles_sub (b : bezier R) segs s : (length (cps b) = 3 \/ length (cps b) = 4)%nat -> tiles (cps b) 0 1 segs -> In s segs ->
    subc (mkBez (cps b) 0 1) s (bt1 s) (bt2 s).
  Proof.
    intros L T H. destruct (tiles_In _ _ _ _ _ T H) as (A & Lt & Z & Ls & C). unfold subc; cbn [cps bt1 bt2].
    split; [exact L|]. split; [exact Ls|]. split; [lra|]. split; [lra|]. split; [exact C|]. split; ring.
  Qed.
  Theorem reduce_all_simple (b : bezier R) fuel l s : (length (cps b) = 3 \/ length (cps b) = 4)%nat -> (102 <= fuel)%nat ->
    reduce fuel b = Ok l -> In s l -> simple s = Ok true /\ turns_little (cps s).
  Proof.
    intros L F E I. destruct (reduce_spec b fuel L F) as [K|(l' & E' & [->|[T A]])]; [congruence|assert (l = []) by congruence; subst; destruct I|].
    assert (l = l') by congruence. subst l'. rewrite Forall_forall in A. split; [exact (A s I)|].
    apply simple_meaning; [|exact (A s I)]. destruct (tiles_In _ _ _ _ _ T I) as (_ & _ & _ & -> & _). exact L.
  Qed.

  Theorem intersects_sound rf f (b c : bezier R) th res t s : (length (cps b) = 3 \/ length (cps b) = 4)%nat -> (length (cps c) = 3 \/ length (cps c) = 4)%nat ->
    (102 <= rf)%nat -> intersects rf f b (Some c) th = Ok res -> In (t, s) res ->
    0 <= t <= 1 /\ 0 <= s <= 1 /\ taxi (curve (cps b) t) (curve (cps c) s) < 2 * th.
  Proof.
    intros Lb Lc F E I. unfold intersects in E.
    destruct (reduce_spec b rf Lb F) as [K|(l1 & E1 & T1)]; [rewrite K in E; discriminate|]. rewrite E1 in E. cbn [bind] in E.
    destruct (reduce_spec c rf Lc F) as [K|(l2 & E2 & T2)]; [rewrite K in E; discriminate|]. rewrite E2 in E. cbn [bind] in E.
    assert (F1 : Forall (fun c => length (cps c) = 3 \/ length (cps c) = 4)%nat l1).
    { apply Forall_forall. intros x Hx. destruct T1 as [->|[T1 _]]; [destruct Hx|]. destruct (tiles_In _ _ _ _ _ T1 Hx) as (_ & _ & _ & -> & _). exact Lb. }
    assert (F2 : Forall (fun c => length (cps c) = 3 \/ length (cps c) = 4)%nat l2).
    { apply Forall_forall. intros x Hx. destruct T2 as [->|[T2 _]]; [destruct Hx|]. destruct (tiles_In _ _ _ _ _ T2 Hx) as (_ & _ & _ & -> & _). exact Lc. }
    destruct (curveIntersects_sound rnd th f l1 l2 res t s F1 F2 E I) as (l & r & u & v & Hl & Hr & U & V & -> & -> & Tx).
    destruct T1 as [->|[T1 _]]; [destruct Hl|]. destruct T2 as [->|[T2 _]]; [destruct Hr|].
    destruct (tiles_In _ _ _ _ _ T1 Hl) as (A1 & B1 & C1 & _ & D1). destruct (tiles_In _ _ _ _ _ T2 Hr) as (A2 & B2 & C2 & _ & D2).
    rewrite <- D1, <- D2. split; [nra|]. split; [nra|exact Tx].
  Qed.
  Theorem intersects_complete rf f (b c : bezier R) th l1 l2 res u v : (length (cps b) = 3 \/ length (cps b) = 4)%nat -> (length (cps c) = 3 \/ length (cps c) = 4)%nat ->
    (102 <= rf)%nat -> reduce rf b = Ok l1 -> l1 <> [] -> reduce rf c = Ok l2 -> l2 <> [] -> intersects rf f b (Some c) th = Ok res ->
    0 <= u <= 1 -> 0 <= v <= 1 -> curve (cps b) u = curve (cps c) v ->
    exists t s, In (t, s) res /\ taxi (curve (cps b) t) (curve (cps b) u) < th /\ taxi (curve (cps c) s) (curve (cps c) v) < th.
  Proof.
    intros Lb Lc F E1 N1 E2 N2 E U V M. unfold intersects in E. rewrite E1 in E. cbn [bind] in E. rewrite E2 in E. cbn [bind] in E.
    destruct (reduce_spec b rf Lb F) as [K|(l1' & E1' & T1)]; [congruence|]. rewrite E1 in E1'. injection E1' as <-. destruct T1 as [K|[T1 _]]; [congruence|].
    destruct (reduce_spec c rf Lc F) as [K|(l2' & E2' & T2)]; [congruence|]. rewrite E2 in E2'. injection E2' as <-. destruct T2 as [K|[T2 _]]; [congruence|].
    destruct (tiles_cover _ _ _ _ u T1 U ltac:(lra)) as (l & Hl & Ul). destruct (tiles_cover _ _ _ _ v T2 V ltac:(lra)) as (r & Hr & Vr).
    pose proof (tiles_sub b l1 l Lb T1 Hl) as Sl. pose proof (tiles_sub c l2 r Lc T2 Hr) as Sr.
    unfold curveIntersects in E.
    assert (F1 : Forall (fun c => length (cps c) = 3 \/ length (cps c) = 4)%nat l1).
    { apply Forall_forall. intros x Hx. destruct (tiles_In _ _ _ _ _ T1 Hx) as (_ & _ & _ & -> & _). exact Lb. }
    assert (F2 : Forall (fun c => length (cps c) = 3 \/ length (cps c) = 4)%nat l2).
    { apply Forall_forall. intros x Hx. destruct (tiles_In _ _ _ _ _ T2 Hx) as (_ & _ & _ & -> & _). exact Lc. }
    destruct (all_overlaps rnd l1 l2 F1 F2) as (ps & Ep & P). rewrite Ep in E. cbn [bind] in E. apply bind_Ok in E as (rs & Mp & E). injection E as <-.
    assert (Hp : In (l, r) ps) by (apply P; split; [auto|split; [auto|]]; exact (overlaps_common rnd _ _ l r _ _ _ _ u v Sl Sr Ul Vr M)).
    destruct (mapM_In _ _ _ Mp _ Hp) as (x & Hx & Ex). cbn [fst snd] in Ex.
    destruct (pair_complete rnd th (mkBez (cps b) 0 1) (mkBez (cps c) 0 1) u v M f l r _ _ _ _ x Sl Sr Ul Vr Ex) as (x1 & y1 & x2 & y2 & K1 & K2 & K3 & K4 & K5 & K6 & K7).
    cbn [cps bt1 bt2] in *. exists ((x1 + y1) / 2), ((x2 + y2) / 2). split; [|split; [apply K5; lra|apply K6; lra]].
    apply in_concat. exists x. split; [exact Hx|]. replace (0 + (x1 + y1) / 2 * (1 - 0)) with ((x1 + y1) / 2) in K7 by ring.
    replace (0 + (x2 + y2) / 2 * (1 - 0)) with ((x2 + y2) / 2) in K7 by ring. exact K7.
  Qed.
  Theorem intersects_terminates rf f k (b c : bezier R) th : (length (cps b) = 3 \/ length (cps b) = 4)%nat -> (length (cps c) = 3 \/ length (cps c) = 4)%nat ->
    (102 <= rf)%nat -> in_sentinels (cps b) -> in_sentinels (cps c) -> speed (cps b) < 2 ^ k * th -> speed (cps c) < 2 ^ k * th -> (k < f)%nat ->
    (exists res, intersects rf f b (Some c) th = Ok res) \/ reduce rf b = Err ZeroDivisionError \/ reduce rf c = Err ZeroDivisionError.
  Proof.
    intros Lb Lc F Rb Rc Sb Sc Kf. unfold intersects.
    destruct (reduce_spec b rf Lb F) as [K|(l1 & E1 & T1)]; [auto|]. rewrite E1. cbn [bind].
    destruct (reduce_spec c rf Lc F) as [K|(l2 & E2 & T2)]; [auto|]. rewrite E2. cbn [bind]. left.
    assert (F1 : Forall (fun c => length (cps c) = 3 \/ length (cps c) = 4)%nat l1).
    { apply Forall_forall. intros x Hx. destruct T1 as [->|[T1 _]]; [destruct Hx|]. destruct (tiles_In _ _ _ _ _ T1 Hx) as (_ & _ & _ & -> & _). exact Lb. }
    assert (F2 : Forall (fun c => length (cps c) = 3 \/ length (cps c) = 4)%nat l2).
    { apply Forall_forall. intros x Hx. destruct T2 as [->|[T2 _]]; [destruct Hx|]. destruct (tiles_In _ _ _ _ _ T2 Hx) as (_ & _ & _ & -> & _). exact Lc. }
    unfold curveIntersects. destruct (all_overlaps rnd l1 l2 F1 F2) as (ps & -> & P). cbn [bind].
    destruct (mapM_total (fun pr => pairiteration f th (fst pr) (snd pr)) ps) as (rs & ->); [|cbn [bind]; eauto].
    intros [l r] Hp. apply P in Hp as (Hl & Hr & _). cbn [fst snd].
    destruct T1 as [->|[T1 _]]; [destruct Hl|]. destruct T2 as [->|[T2 _]]; [destruct Hr|].
    destruct (tiles_In _ _ _ _ _ T1 Hl) as (A1 & B1 & C1 & _). destruct (tiles_In _ _ _ _ _ T2 Hr) as (A2 & B2 & C2 & _).
    assert (P0 : forall p : list pt, 0 <= speed p).
    { intros p. unfold speed. apply Rmult_le_pos; [apply pos_INR|]. induction p as [|x [|y p] IH]; simpl; try lra.
      simpl in IH. pose proof (Rabs_pos (fst y - fst x)). pose proof (Rabs_pos (snd y - snd x)). lra. }
    pose proof (P0 (cps b)). pose proof (P0 (cps c)).
    apply (pair_terminates rnd th (mkBez (cps b) 0 1) (mkBez (cps c) 0 1) Rb Rc k f l r _ _ _ _ (tiles_sub b l1 l Lb T1 Hl) (tiles_sub c l2 r Lc T2 Hr)); [| |exact Kf]; cbn [cps]; nra.
  Qed.
End Reduce.

(** ** A curve reduce gives up on: a quadratic that turns within the first hundredth *)
Section Corner.
  Context (rnd : R -> R).
  #[local] Hint Extern 0 (TrigOps R) => exact (RTrig rnd) : typeclass_instances.
  Definition corner (x y : R) : list pt := [(x, y); (x + 1, y); (x + 1, y + 1000)].
  Lemma corner_curve x y t : curve (corner x y) t = (x + 2 * t - t ^ 2, y + 1000 * t ^ 2).
  Proof. unfold corner. rewrite curve3. cbn [fst snd]. f_equal; ring. Qed.
  Lemma corner_dim x y : extremaDim (mkBez (corner x y) 0 1) 0 = Ok [1] /\ extremaDim (mkBez (corner x y) 0 1) 1 = Ok [0].
  Proof.
    unfold extremaDim, dcPoints, corner. cbn [cps length dcPointsFrom dcLevel idx nth_error bind order Nat.sub Nat.eqb map]. unfold idx. cbn [nth_error bind map].
    unfold diffStep, coord. cbn [Nat.eqb fst snd droots]. numRg. cbn [Z.of_nat Pos.of_succ_nat Pos.succ].
    split.
    - destruct (Reqb_spec (2 * (x + 1 - x)) (2 * (x + 1 - (x + 1)))); [lra|]. cbn [negb]. unfold inUnit. cbn [flat_map app]. numRg.
      replace (2 * (x + 1 - x) / (2 * (x + 1 - x) - 2 * (x + 1 - (x + 1)))) with 1 by (field; lra).
      rewrite (proj2 (Rleb_true 0 1)), (proj2 (Rleb_true 1 1)) by lra. reflexivity.
    - destruct (Reqb_spec (2 * (y - y)) (2 * (y + 1000 - y))); [lra|]. cbn [negb]. unfold inUnit. cbn [flat_map app]. numRg.
      replace (2 * (y - y) / (2 * (y - y) - 2 * (y + 1000 - y))) with 0 by (field; lra).
      rewrite (proj2 (Rleb_true 0 1)), (proj2 (Rleb_true 0 0)) by lra. reflexivity.
  Qed.
  Lemma hundredth t : derivable_pt_lim (fun s => s / 100) t (1 / 100).
  Proof.
    pose proof (derivable_pt_lim_scal id (1 / 100) t 1 (derivable_pt_lim_id t)) as H. rewrite Rmult_1_r in H.
    refine (derivable_pt_lim_ext _ _ t _ _ H). intros z. unfold mult_real_fct, id. field.
  Qed.
  Lemma corner_not_simple (sg : bezier R) x y : length (cps sg) = 3%nat -> (forall s, curve (cps sg) s = curve (corner x y) (s / 100)) -> simple sg = Ok false.
  Proof.
    intros L C.
    assert (D : forall t d, is_deriv (curve (cps sg)) t d -> d = (2 / 100 - 2 * t / 10000, 2000 * t / 10000)).
    { intros t d [D1 D2]. destruct d as [dx dy]. cbn [fst snd] in *. f_equal.
      - eapply uniqueness_limite; [exact D1|].
        apply derivable_pt_lim_ext with (f := fun s => x + 2 * (s / 100) - (s / 100) ^ 2).
        + intros s. rewrite C, corner_curve. reflexivity.
        + replace (2 / 100 - 2 * t / 10000) with (0 + 2 * (1 / 100) - (INR 2 * (t / 100) ^ 1 * (1 / 100))) by (simpl; field).
          apply derivable_pt_lim_minus; [apply derivable_pt_lim_plus; [apply derivable_pt_lim_const|]|].
          * apply (derivable_pt_lim_scal (fun s => s / 100) 2 t (1 / 100)). apply hundredth.
          * apply (derivable_pt_lim_comp (fun s => s / 100) (fun u => u ^ 2)); [|apply derivable_pt_lim_pow].
            apply hundredth.
      - eapply uniqueness_limite; [exact D2|].
        apply derivable_pt_lim_ext with (f := fun s => y + 1000 * (s / 100) ^ 2).
        + intros s. rewrite C, corner_curve. reflexivity.
        + replace (2000 * t / 10000) with (0 + 1000 * (INR 2 * (t / 100) ^ 1 * (1 / 100))) by (simpl; field).
          apply derivable_pt_lim_plus; [apply derivable_pt_lim_const|]. apply (derivable_pt_lim_scal (fun s => (s / 100) ^ 2)).
          apply (derivable_pt_lim_comp (fun s => s / 100) (fun u => u ^ 2)); [|apply derivable_pt_lim_pow].
          apply hundredth. }
    destruct (simple_cases rnd sg (or_introl L)) as [[_ K]|[[_ [_ (t & _ & K)]]|[_ (n1 & n2 & c & _ & _ & _ & _ & K & _)]]]; [exact K| |].
    - apply D in K. injection K. lra.
    - rewrite K. destruct c; [|reflexivity]. exfalso. apply simple_meaning in K; [|left; exact L].
      destruct K as [(d0 & d1 & K0 & K1 & _ & _ & K) _]. apply D in K0, K1. subst. unfold vdot in K. cbn [fst snd] in K.
      set (a := sqrt _) in K at 1. assert (Ea : a = 2 / 100). { unfold a. replace (_ + _) with ((2 / 100) * (2 / 100)) by field. apply sqrt_square. lra. }
      set (bb := sqrt _) in K. assert (Eb : 1 / 5 <= bb). { replace (1 / 5) with (sqrt (1 / 5 * (1 / 5))) by (apply sqrt_square; lra). apply sqrt_le_1_alt. lra. }
      rewrite Ea in K. lra.
  Qed.
  Theorem corner_reduce x y fuel : (2 <= fuel)%nat -> reduce fuel (mkBez (corner x y) 0 1) = Ok [].
  Proof.
    intros F. destruct fuel as [|[|f]]; try lia. destruct (corner_dim x y) as [E0 E1]. unfold reduce, extrema. rewrite E0. cbn [bind]. rewrite E1. cbn [bind ex2].
    destruct (dedup_sorted (sorted [1] ++ sorted [0])) as (S & I).
    assert (A : addEnds (removeDuplicates neqb (sorted (sorted [1] ++ sorted [0]))) = [0; 1]).
    { destruct (addEnds_sorted _ S) as (r & E & Sr & La & Nr).
      { intros t Ht. apply I in Ht. apply in_app_or in Ht. rewrite !sorted_In in Ht. destruct Ht as [[<-|[]]|[<-|[]]]; lra. }
      rewrite E. f_equal. assert (In1 : forall t, In t r -> t = 1).
      { intros t Ht. assert (H : In t (addEnds (removeDuplicates neqb (sorted (sorted [1] ++ sorted [0]))))) by (rewrite E; now right).
        apply addEnds_In in H. inversion Sr as [|? ? _ Fr]; subst. rewrite Forall_forall in Fr. specialize (Fr t Ht). destruct H as [->|[->|H]]; [lra|auto|].
        apply I in H. apply in_app_or in H. rewrite !sorted_In in H. destruct H as [[<-|[]]|[<-|[]]]; lra. }
      destruct r as [|t1 [|t2 r]]; [congruence| |].
      - now rewrite (In1 t1 (or_introl eq_refl)).
      - exfalso. inversion Sr as [|? ? Sr' _]; subst. inversion Sr' as [|? ? _ Fr]; subst. rewrite Forall_forall in Fr.
        pose proof (Fr t2 (or_introl eq_refl)). rewrite (In1 t1 (or_introl eq_refl)), (In1 t2 (or_intror (or_introl eq_refl))) in H. lra. }
    rewrite A. unfold idx. cbn [nth_error bind tl reducePass1].
    destruct (split2curve_ok (mkBez (corner x y) 0 1) 0 1 (or_introl eq_refl)) as (c & Ec & Lc & Cc); [lra|left; lra|]. rewrite Ec. cbn [bind].
    cbn [reducePass2 reduceOuter]. numRg. rewrite (proj2 (Rleb_true 0 1)) by lra. cbn [reduceInner]. numRg.
    assert (RV : rstep = 1 / 100) by reflexivity.
    rewrite (proj2 (Rleb_true (0 + rstep) 1)) by lra. set (p1 := withInterval c 0 1).
    destruct (split2curve_ok p1 0 (0 + rstep)) as (sg & Es & Ls & Cs); [left; exact Lc|lra|left; lra|]. rewrite Es. cbn [bind].
    rewrite (corner_not_simple sg x y).
    - cbn [bind]. rewrite (proj2 (Rltb_true (Rabs (0 - (0 + rstep - rstep))) rstep)); [reflexivity|]. replace (0 - (0 + rstep - rstep)) with 0 by ring. rewrite Rabs_R0. lra.
    - rewrite Ls. exact Lc.
    - intros s. rewrite Cs. cbn [p1 withInterval cps]. rewrite Cc. cbn [cps]. f_equal. rewrite RV. field.
  Qed.
  (** Two such curves that cross, and intersects reports nothing. *)
  Theorem crossing_missed rf f th : (2 <= rf)%nat ->
    let b := mkBez (corner 0 0) 0 1 in let c := mkBez (corner (-5 / 16) (-375 / 2)) 0 1 in
    curve (cps b) (1 / 4) = curve (cps c) (1 / 2) /\ intersects rf f b (Some c) th = Ok [].
  Proof.
    intros F b c. split.
    - unfold b, c; cbn [cps]. rewrite !corner_curve. f_equal; field.
    - unfold intersects. unfold b, c. rewrite !corner_reduce by exact F. reflexivity.
  Qed.
End Corner.

(** ** A curve all of whose parts are simple is reduced to its parts between extrema *)
Section Smooth.
  Context (rnd : R -> R).
  #[local] Hint Extern 0 (TrigOps R) => exact (RTrig rnd) : typeclass_instances.
  Definition all_simple (o : list pt) : Prop := forall t1 t2 (sg : bezier R), 0 <= t1 -> t1 < t2 -> t2 <= 1 -> length (cps sg) = length o ->
    (forall s, curve (cps sg) s = curve o (t1 + s * (t2 - t1))) -> simple sg = Ok true.
  Lemma inner_done (p1 : bezier R) : (length (cps p1) = 3 \/ length (cps p1) = 4)%nat -> all_simple (cps p1) ->
    forall fuel i, (0 < i <= 101)%nat -> (102 - i <= fuel)%nat -> reduceInner fuel p1 0 (tk i) = Ok RDone.
  Proof.
    intros L A. induction fuel as [|f IH]; intros i I F; [lia|]. cbn [reduceInner]. numRg. destruct (Rleb_spec (tk i) 1) as [Le|]; [|reflexivity].
    pose proof (tk_lt 0 i ltac:(lia)) as Lt. assert (Z0 : tk 0 = 0) by (unfold tk; simpl; lra). pose proof rstep_val as RV. rewrite Z0 in Lt.
    destruct (split2curve_ok p1 0 (tk i) L) as (c & E & Lc & C); [lra|left; lra|]. rewrite E. cbn [bind].
    rewrite (A 0 (tk i) c) by (auto; lra). cbn [bind]. rewrite <- tk_S. apply IH; [|lia]. apply tk_le1 in Le. lia.
  Qed.
  Theorem reduce_smooth (b : bezier R) fuel : (length (cps b) = 3 \/ length (cps b) = 4)%nat -> (102 <= fuel)%nat -> all_simple (cps b) ->
    exists l, reduce fuel b = Ok l /\ l <> [].
  Proof.
    intros L F A. unfold reduce, extrema.
    destruct (extremaDim_spec rnd b 0) as (e0 & E0 & I0 & _); [lia|]. destruct (extremaDim_spec rnd b 1) as (e1 & E1 & I1 & _); [lia|].
    rewrite E0. cbn [bind]. rewrite E1. cbn [bind ex2].
    destruct (dedup_sorted (sorted e0 ++ sorted e1)) as (S & I).
    destruct (addEnds_sorted _ S) as (r & -> & Sr & Last & Nr).
    { intros t Ht. apply I in Ht. apply in_app_or in Ht. rewrite !sorted_In in Ht. destruct Ht; auto. }
    cbn [idx nth_error bind tl]. unfold idx. cbn [nth_error bind].
    destruct (pass1_ok b L r 0) as (segs & -> & T & N); [lra|exact Sr| |].
    { intros t Ht. assert (G : forall l x, StronglySorted Rlt (x :: l) -> forall y, In y (x :: l) -> y <= last (x :: l) 0).
      { induction l as [|w l IH]; intros x Sx y Hy.
        - destruct Hy as [->|[]]. simpl. lra.
        - inversion Sx as [|? ? Sx' Fx]; subst. change (last (x :: w :: l) 0) with (last (w :: l) 0). destruct Hy as [->|Hy]; [|now apply IH].
          rewrite Forall_forall in Fx. pose proof (Fx w (or_introl eq_refl)). pose proof (IH w Sx' w (or_introl eq_refl)). lra. }
      rewrite <- Last. now apply G. }
    cbn [bind]. specialize (N Nr). rewrite Last in T.
    assert (G : forall ps acc, (forall s, In s ps -> (length (cps s) = 3 \/ length (cps s) = 4)%nat /\ all_simple (cps s)) -> (ps <> [] \/ acc <> []) ->
      exists l, reducePass2 fuel ps acc = Ok l /\ l <> []).
    { induction ps as [|p1 ps IH]; intros acc H Ne; cbn [reducePass2].
      - exists acc. split; [reflexivity|]. destruct Ne; congruence.
      - destruct (H p1 (or_introl eq_refl)) as [Lp Ap]. numRg.
        assert (Z0 : tk 0 = 0) by (unfold tk; simpl; lra). assert (T1 : 0 + rstep = tk 1) by (rewrite tk_S, Z0; reflexivity).
        assert (O : reduceOuter fuel p1 0 0 [] = Ok (Some (0, []))).
        { destruct fuel as [|f]; [lia|]. cbn [reduceOuter]. numRg. rewrite (proj2 (Rleb_true 0 1)) by lra. rewrite T1, inner_done; auto; lia. }
        rewrite O. cbn [bind]. rewrite (proj2 (Rltb_true 0 1)) by lra.
        destruct (split2curve_ok p1 0 1 Lp) as (c & -> & _); [lra|left; lra|]. cbn [bind]. rewrite bmap01. cbn [bind].
        apply IH; [intros s Hs; apply H; now right|]. right. intros K. apply app_eq_nil in K as [_ K]. discriminate. }
    apply G; [|now left]. intros s Hs. destruct (tiles_In rnd _ _ _ _ _ T Hs) as (A1 & B1 & C1 & Ls & Cs). rewrite Ls. split; [exact L|].
    intros t1 t2 sg P1 P2 P3 Lg Cg. apply (A (bt1 s + t1 * (bt2 s - bt1 s)) (bt1 s + t2 * (bt2 s - bt1 s))); [nra|nra|nra|congruence|].
    intros u. rewrite Cg, Cs. f_equal. ring.
  Qed.
  (** A uniformly parametrised straight quadratic. *)
  Theorem straight_smooth : all_simple [(0, 0); (1, 1); (2, 2)].
  Proof.
    intros t1 t2 sg P1 P2 P3 L C. simpl in L.
    assert (D : forall t d, is_deriv (curve (cps sg)) t d -> d = (2 * (t2 - t1), 2 * (t2 - t1))).
    { intros t d [D1 D2]. destruct d as [dx dy]. cbn [fst snd] in *. f_equal; (eapply uniqueness_limite; [eassumption|]);
        (refine (derivable_pt_lim_ext _ _ t _ _ (lin (2 * t1) (2 * (t2 - t1)) t)); intros s; rewrite C, curve3; cbn [fst snd]; ring). }
    destruct (simple_cases rnd sg (or_introl L)) as [[K _]|[[_ [_ (t & _ & K)]]|[_ (n1 & n2 & c & N1 & N2 & _ & _ & K & Hc)]]].
    - unfold bent, order in K. rewrite L in K. discriminate.
    - apply D in K. injection K. lra.
    - rewrite K. f_equal. apply Hc.
      destruct (derivative_ok sg 0 (or_introl L)) as (d0 & E0 & D0). destruct (derivative_ok sg 1 (or_introl L)) as (d1 & E1 & D1). apply D in D0, D1. subst d0 d1.
      assert (Nz : (2 * (t2 - t1), 2 * (t2 - t1)) <> (0, 0)) by (intros H; injection H; lra).
      destruct (normal_of rnd sg 0 _ E0 Nz) as [Q F0]. destruct (normal_of rnd sg 1 _ E1 Nz) as [_ F1]. rewrite N1 in F0. rewrite N2 in F1. injection F0 as ->. injection F1 as ->.
      cbn [fst snd] in *. set (w := 2 * (t2 - t1)) in *. assert (Sq : sqrt (w * w + w * w) * sqrt (w * w + w * w) = w * w + w * w) by (apply sqrt_sqrt; nra).
      set (q := sqrt _) in *. unfold vdot; cbn [fst snd].
      replace (- w / q * (- w / q) + w / q * (w / q)) with ((w * w + w * w) / (q * q)) by (field; lra). rewrite Sq. unfold Rdiv at 2. rewrite Rinv_r; [lra|].
      assert (w <> 0) by (unfold w; lra). nra.
  Qed.
End Smooth.
