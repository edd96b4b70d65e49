(** Proofs for C148: curves sampled by getLUT and fitted again. *)
From Coq Require Import List ZArith Bool Reals Lra Lia Arith.
From Verif Require Import Py Inst SpecGeom SpecMatrix SpecFit SpecFitMove SpecBezier MTransform MMatrix MCurveFit MBezUtil MBezier MBezierObj
  ProofMatrix ProofFit ProofFitMove ProofBezier ProofBezier2 ProofLut ProofRaise.
Import ListNotations.
Local Open Scope R_scope.
#[local] Hint Extern 0 (TrigOps R) => exact RPy : typeclass_instances.

Definition even_times (n : nat) : list R := map (fun i => INR i / INR (n - 1)) (seq 0 n).
Lemma even_length n : length (even_times n) = n.
Proof. unfold even_times. now rewrite map_length, seq_length. Qed.
Lemma even_nodup n : (2 <= n)%nat -> NoDup (even_times n).
Proof.
  intros H. unfold even_times. apply FinFun.Injective_map_NoDup; [|apply seq_NoDup]. intros i j E.
  assert (P : INR (n - 1) <> 0) by (apply not_0_INR; lia). apply INR_eq. apply (Rmult_eq_reg_r (/ INR (n - 1))); [exact E|]. now apply Rinv_neq_0_compat.
Qed.
Lemma even_prefix n k : (2 <= n)%nat -> (k <= n)%nat -> exists l, NoDup l /\ length l = k /\ incl l (even_times n).
Proof.
  intros H K. exists (firstn k (even_times n)). split.
  - pose proof (even_nodup n H) as D. rewrite <- (firstn_skipn k (even_times n)) in D. revert D. generalize (firstn k (even_times n)) (skipn k (even_times n)).
    intros l l' D. induction l as [|a l IH]; [constructor|]. cbn in D. inversion D; subst. constructor; [intros X; apply H2; apply in_or_app; auto|auto].
  - split; [rewrite firstn_length, even_length; lia|]. intros x X. rewrite <- (firstn_skipn k (even_times n)). apply in_or_app. auto.
Qed.
Lemma table_points (b : bezier R) (n : nat) : (1 <= length (cps b))%nat -> (2 <= n)%nat -> getLUT b (Z.of_nat n) = Ok (map (curve (cps b)) (even_times n)).
Proof.
  intros L H. assert (Q : getLUT b (Z.of_nat n) = sampleLUT b (Z.of_nat n)) by (unfold getLUT; destruct (Z.eqb_spec (Z.of_nat n) 0); [lia | reflexivity]).
  rewrite Q, sample_ok by lia. rewrite Nat2Z.id. f_equal. unfold even_times. rewrite map_map. apply map_ext. intros i. do 2 f_equal.
  rewrite INR_IZR_INZ. f_equal. f_equal. lia.
Qed.
Lemma even_are_times (P : list pt) : (2 <= length P)%nat -> computeTimeValues P false = Ok (even_times (length P)).
Proof. exact (proj2 (times_uniform round15 P)). Qed.
Lemma fit_reproduces calls (P Q : list pt) (poly : bool) (s : list R) : length Q = length P -> Q <> [] -> NoDup s -> length s = length P ->
  computeTimeValues P poly = Ok s -> P = map (curve Q) s -> exists lut' m, fit (binomialHistory calls) P poly = Ok (lut', (m, s, columns Q)).
Proof.
  intros L N D Ls T E. destruct (bestFit_reproduces_basis calls s Q N) as (lut' & m & B & F).
  - exists s. split; [exact D|]. split; [congruence|apply incl_refl].
  - exists lut', m. unfold fit. rewrite <- L, B. cbn [bind]. rewrite T. cbn [bind]. rewrite bestFit_n by (intros Z; subst P; destruct Q; [auto|rewrite Z in L; discriminate L]).
    rewrite <- L. change (curve_through Q) with (curve Q) in F. rewrite <- E in F. rewrite F. reflexivity.
Qed.
Lemma raise_to (p : list pt) k : (1 <= length p)%nat -> exists Q, length Q = (length p + k)%nat /\ forall t, curve Q t = curve p t.
Proof.
  intros L. induction k as [|k (Q & LQ & E)]; [exists p; split; [lia|reflexivity]|].
  exists (raised Q). split; [unfold raised; rewrite map_length, seq_length; lia|]. intros t. rewrite raised_curve by lia. apply E.
Qed.
Theorem table_fit calls (b : bezier R) (n : nat) : (1 <= length (cps b))%nat -> (2 <= n)%nat -> (length (cps b) <= n)%nat ->
  exists l lut' m ts Q, getLUT b (Z.of_nat n) = Ok l /\ fit (binomialHistory calls) l false = Ok (lut', (m, ts, columns Q)) /\ length Q = n /\
    (forall t, get (mkBez Q 0 1) t = get b t) /\ (length (cps b) = n -> Q = cps b).
Proof.
  intros L H K. assert (X : exists Q, length Q = n /\ (forall t, curve Q t = curve (cps b) t) /\ (length (cps b) = n -> Q = cps b)).
  { destruct (Nat.eq_dec (length (cps b)) n) as [E|E]; [exists (cps b); auto|]. destruct (raise_to (cps b) (n - length (cps b)) L) as (Q & LQ & EQ).
    exists Q. split; [lia|]. split; [exact EQ|]. intros Z. contradiction. }
  destruct X as (Q & LQ & EQ & Same). exists (map (curve (cps b)) (even_times n)). 
  assert (Ll : length (map (curve (cps b)) (even_times n)) = n) by (rewrite map_length; apply even_length).
  destruct (fit_reproduces calls (map (curve (cps b)) (even_times n)) Q false (even_times n)) as (lut' & m & F).
  - congruence.
  - intros ->. cbn in LQ. lia.
  - apply even_nodup; exact H.
  - rewrite Ll. apply even_length.
  - pose proof (even_are_times (map (curve (cps b)) (even_times n))) as T. rewrite Ll in T. exact (T H).
  - apply map_ext. intros t. symmetry. apply EQ.
  - exists lut', m, (even_times n), Q. split; [apply table_points; assumption|]. split; [exact F|]. split; [exact LQ|]. split; [|exact Same].
    intros t. rewrite !get_ok by (cbn [cps]; lia). cbn [cps]. now rewrite EQ.
Qed.
Lemma columns_inj P Q : columns P = columns Q -> P = Q.
Proof. intros E. rewrite <- (columns_points P), <- (columns_points Q). now rewrite E. Qed.
Theorem tables_tell (a b : bezier R) (n : nat) : (1 <= length (cps a) <= n)%nat -> (1 <= length (cps b) <= n)%nat -> (2 <= n)%nat ->
  getLUT a (Z.of_nat n) = getLUT b (Z.of_nat n) -> (forall t, get a t = get b t) /\ (length (cps a) = length (cps b) -> cps a = cps b).
Proof.
  intros [La Ka] [Lb Kb] H E.
  assert (G : forall t, get a t = get b t).
  { destruct (table_fit [] a n La H Ka) as (l & lut & m & ts & Q & T & F & LQ & G & _). destruct (table_fit [] b n Lb H Kb) as (l' & lut' & m' & ts' & Q' & T' & F' & LQ' & G' & _).
    assert (l' = l) by congruence. subst l'. assert (C : columns Q' = columns Q) by congruence. apply columns_inj in C. subst Q'. intros t. rewrite <- G, <- G'. reflexivity. }
  split; [exact G|]. intros Ll. destruct (Nat.le_gt_cases 2 (length (cps a))) as [Ha|Ha].
  - destruct (table_fit [] a (length (cps a)) La Ha (le_n _)) as (l & lut & m & ts & Q & T & F & _ & _ & S). destruct (table_fit [] b (length (cps b)) Lb ltac:(lia) (le_n _)) as (l' & lut' & m' & ts' & Q' & T' & F' & _ & _ & S').
    rewrite <- (S eq_refl), <- (S' eq_refl). assert (l' = l).
    { rewrite table_points in T, T' by lia. assert (Z : map (curve (cps a)) (even_times (length (cps a))) = map (curve (cps b)) (even_times (length (cps b)))); [|congruence].
      rewrite Ll. apply map_ext. intros t. specialize (G t). rewrite !get_ok in G by lia. congruence. }
    subst l'. assert (C : columns Q' = columns Q) by congruence. symmetry. apply columns_inj. exact C.
  - destruct (cps a) as [|p [|]] eqn:Ea; cbn in *; try lia. destruct (cps b) as [|q [|]] eqn:Eb; cbn in *; try lia. specialize (G 0). rewrite !get_ok in G by (rewrite ?Ea, ?Eb; cbn; lia). rewrite Ea, Eb, !curve_0 in G by (cbn; lia). cbn in G. congruence.
Qed.
Theorem fit_table calls (P : list pt) : (2 <= length P)%nat ->
  exists lut' m ts Q b, fit (binomialHistory calls) P false = Ok (lut', (m, ts, columns Q)) /\ newBezier Q = Ok b /\ cps b = Q /\ getLUT b (Z.of_nat (length P)) = Ok P.
Proof.
  intros H. destruct (fit_succeeds round15 _ P false (proj1 (history_good calls)) H) as ((lut' & ((m & ts) & (Cx & Cy))) & F); [discriminate|].
  destruct (fit_interpolates round15 _ P false lut' m ts Cx Cy (proj1 (history_good calls)) F) as (_ & Ls & SX & SY & I).
  pose proof (fit_parameters round15 _ P false lut' m ts Cx Cy F) as T. rewrite even_are_times in T by exact H. injection T as <-.
  set (Q := map (fun i => (entry Cx i 0, entry Cy i 0)) (seq 0 (length P))).
  assert (LQ : length Q = length P) by (unfold Q; now rewrite map_length, seq_length).
  assert (NQ : forall i, (i < length P)%nat -> ptn Q i = (entry Cx i 0, entry Cy i 0)) by (intros i Hi; unfold Q; apply (ptn_mapseq (fun i => (entry Cx i 0, entry Cy i 0))); exact Hi).
  exists lut', m, (even_times (length P)), Q, (mkBez Q 0 1). split.
  - etransitivity; [exact F|]. do 4 f_equal. apply (columns_ext Cx Cy Q (length P)); [exact SX|exact SY|exact LQ|]. intros i Hi. rewrite NQ by exact Hi. split; reflexivity.
  - split; [|split; [reflexivity|]].
    + rewrite (newBezier_ok Q) by lia. reflexivity.
    + rewrite table_points by (cbn [cps]; lia). cbn [cps]. f_equal. apply (nth_ext _ _ (0, 0) (0, 0)); [rewrite map_length; apply even_length|].
      rewrite map_length, even_length. intros i Hi. rewrite (nth_indep _ (0, 0) (curve Q 0)) by (rewrite map_length, even_length; exact Hi). rewrite map_nth.
      destruct (I i Hi) as [I1 I2]. unfold curve. change (nth i P (0, 0)) with (ptn P i). rewrite (surjective_pairing (ptn P i)), <- I1, <- I2, LQ.
      f_equal; apply bezier_at_ext; intros k Hk; unfold cx, cy; change (nth k Q (0, 0)) with (ptn Q k); rewrite NQ by lia; reflexivity.
Qed.
Theorem table_best_fit calls (b : bezier R) (n : nat) : (1 <= length (cps b))%nat -> (2 <= n)%nat -> (length (cps b) <= n)%nat ->
  exists l ts lut' m, getLUT b (Z.of_nat n) = Ok l /\ computeTimeValues l false = Ok ts /\ basisMatrix (binomialHistory calls) (length (cps b)) = Ok (lut', m) /\
    bestFitN l m ts (length (cps b)) = Ok (columns (cps b)).
Proof.
  intros L H K. destruct (bestFit_reproduces_basis calls (even_times n) (cps b)) as (lut' & m & B & F); [intros Z; rewrite Z in L; cbn in L; lia|apply even_prefix; assumption|].
  exists (map (curve (cps b)) (even_times n)), (even_times n), lut', m. split; [apply table_points; assumption|]. split; [|split; [exact B|exact F]].
  pose proof (even_are_times (map (curve (cps b)) (even_times n))) as T. rewrite map_length, even_length in T. exact (T H).
Qed.
(** ** Straight curves *)
Lemma line_point (p q : pt) t : curve [p; q] t = (fst p + t * (fst q - fst p), snd p + t * (snd q - snd p)).
Proof. unfold curve, bezier_at, bernstein, cx, cy. cbn [length Nat.sub rsum nth pow]. rewrite !C_n0, !C_nn. cbn [Nat.sub pow]. f_equal; ring. Qed.
Lemma line_step (p q : pt) u v : vdist (curve [p; q] u) (curve [p; q] v) = Rabs (v - u) * vdist p q.
Proof.
  rewrite !line_point. unfold vdist, dist2. cbn [fst snd]. rewrite <- sqrt_Rsqr_abs, <- sqrt_mult_alt by apply Rle_0_sqr. f_equal. unfold Rsqr. ring.
Qed.
Theorem line_fit calls (p q : pt) (n : nat) : p <> q -> (2 <= n)%nat ->
  exists l lut' m ts Q, getLUT (mkBez [p; q] 0 1) (Z.of_nat n) = Ok l /\ fit (binomialHistory calls) l true = Ok (lut', (m, ts, columns Q)) /\
    fit (binomialHistory calls) l false = Ok (lut', (m, ts, columns Q)) /\ length Q = n /\ forall t, get (mkBez Q 0 1) t = get (mkBez [p; q] 0 1) t.
Proof.
  intros D H. set (b := mkBez [p; q] 0 1). destruct (table_fit calls b n) as (l & lut' & m & ts & Q & T & F & LQ & G & _); [cbn; lia|exact H|cbn; lia|].
  exists l, lut', m, ts, Q. split; [exact T|]. split; [|split; [exact F|split; [exact LQ|exact G]]].
  rewrite table_points in T by (cbn; lia || exact H). injection T as <-. cbn [cps b] in *. set (l := map (curve [p; q]) (even_times n)) in *.
  assert (Ll : length l = n) by (unfold l; rewrite map_length; apply even_length).
  assert (Nl : forall i, (i < n)%nat -> ptn l i = curve [p; q] (INR i / INR (n - 1))).
  { intros i Hi. unfold ptn, l. rewrite (nth_indep _ (0, 0) (curve [p; q] 0)) by (rewrite map_length, even_length; exact Hi). rewrite map_nth. f_equal.
    unfold even_times. set (f := fun i => INR i / INR (n - 1)). rewrite (nth_indep _ 0 (f 0%nat)) by (rewrite map_length, seq_length; exact Hi). rewrite map_nth, seq_nth by exact Hi. reflexivity. }
  assert (P : 0 < INR (n - 1)) by (apply lt_0_INR; lia). assert (V : 0 < vdist p q) by (destruct (vdist_pos p q) as [V|V]; [exact V|]; symmetry in V; apply vdist_0 in V; contradiction).
  assert (Ch : forall i, (i < n)%nat -> chord l i = INR i / INR (n - 1) * vdist p q).
  { induction i as [|i IH]; intros Hi; [unfold chord; cbn; unfold Rdiv; ring|]. rewrite chord_step, IH, !Nl, line_step by lia.
    rewrite S_INR. replace ((INR i + 1) / INR (n - 1) - INR i / INR (n - 1)) with (/ INR (n - 1)) by (field; lra). rewrite Rabs_pos_eq by (left; now apply Rinv_0_lt_compat). field. lra. }
  destruct (times_polygonal round15 l) as (s & Ts & Ls & _ & _ & _ & _ & Cs).
  { exists 1%nat. split; [lia|]. rewrite !Nl by lia. intros E. assert (Z : vdist (curve [p; q] (INR 1 / INR (n - 1))) (curve [p; q] (INR 0 / INR (n - 1))) = 0) by (apply vdist_0; exact E).
    rewrite line_step in Z. apply Rmult_integral in Z as [Z|Z]; [|lra]. revert Z. apply Rabs_no_R0. cbn [INR]. pose proof (Rinv_0_lt_compat _ P). unfold Rdiv. lra. }
  assert (Es : s = even_times n).
  { apply (nth_ext _ _ 0 0); [rewrite even_length; congruence|]. intros i Hi. rewrite Ls, Ll in Hi. pose proof (Cs i ltac:(lia)) as C. rewrite Ll, !Ch in C by lia.
    unfold even_times. set (f := fun i => INR i / INR (n - 1)). rewrite (nth_indep (map f _) 0 (f 0%nat)) by (rewrite map_length, seq_length; exact Hi). rewrite map_nth, seq_nth by exact Hi. unfold f. cbn [plus].
    apply (Rmult_eq_reg_r (vdist p q)); [|lra]. rewrite <- C. field. lra. }
  subst s. change (computeTimeValues l true = Ok (even_times n)) in Ts. revert F. unfold fit. rewrite Ts. rewrite even_are_times by lia. rewrite Ll. intros F. exact F.
Qed.
(** ** A curve that chord-length parameters do not give back *)
Lemma vdist_x u v : vdist (u, 0) (v, 0) = Rabs (u - v).
Proof. unfold vdist, dist2. cbn [fst snd]. rewrite <- sqrt_Rsqr_abs. f_equal. unfold Rsqr. ring. Qed.
Lemma chords_not_enough calls : let b := mkBez [(0, 0); (0, 0); (1, 0)] 0 1 in exists l lut' m ts Q, getLUT b 3 = Ok l /\
  fit (binomialHistory calls) l true = Ok (lut', (m, ts, columns Q)) /\ length Q = 3%nat /\ get (mkBez Q 0 1) (1 / 2) <> get b (1 / 2).
Proof.
  intros b. set (l := [(0, 0); (1 / 4, 0); (1, 0)] : list pt). set (Q := [(0, 0); (1 / 2, 0); (1, 0)] : list pt).
  assert (G : getLUT b 3 = Ok l).
  { change 3%Z with (Z.of_nat 3). rewrite table_points by (cbn; lia). unfold even_times, b, l. cbn [cps seq map Nat.sub]. rewrite !curve3. cbn [fst snd INR]. repeat (f_equal; try lra). }
  assert (C1 : chord l 1 = 1 / 4) by (rewrite chord_step; unfold l, ptn, chord; cbn [nth rsum]; rewrite vdist_x, Rabs_left by lra; lra).
  assert (C2 : chord l 2 = 1) by (rewrite chord_step, C1; unfold l, ptn; cbn [nth]; rewrite vdist_x, Rabs_left by lra; lra).
  destruct (times_polygonal round15 l) as (s & Ts & Ls & S0 & S2 & _ & _ & Cs).
  { exists 2%nat. split; [cbn; lia|]. unfold l, ptn. cbn [nth]. intros E. injection E. lra. }
  cbn [length l Nat.sub] in Ls, S2. pose proof (Cs 1%nat ltac:(cbn; lia)) as S1. change (length l - 1)%nat with 2%nat in S1. rewrite C1, C2 in S1.
  destruct s as [|s0 [|s1 [|s2 [|]]]]; cbn in Ls; try lia. cbn [nth] in S0, S1, S2. assert (s1 = 1 / 4) by lra. subst s0 s1 s2. change (computeTimeValues l true = Ok [0; 1 / 4; 1]) in Ts.
  destruct (fit_reproduces calls l Q true [0; 1 / 4; 1]) as (lut' & m & F).
  - reflexivity.
  - discriminate.
  - repeat constructor; cbn [In]; intuition lra.
  - reflexivity.
  - exact Ts.
  - unfold l, Q. cbn [map]. rewrite !curve3. cbn [fst snd]. repeat (f_equal; try lra).
  - exists l, lut', m, [0; 1 / 4; 1], Q. split; [exact G|]. split; [exact F|]. split; [reflexivity|]. rewrite !get_ok by (cbn; lia). unfold b, Q. cbn [cps]. rewrite !curve3. cbn [fst snd]. intros E. injection E. lra.
Qed.
