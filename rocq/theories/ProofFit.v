(** Proofs about CurveFitting.py. *)
From Coq Require Import List ZArith Bool Reals Lra Lia Binomial.
From Verif Require Import Py Inst SpecGeom SpecMatrix SpecFit MTransform MMatrix MCurveFit ProofMatrix.
Import ListNotations.
Local Open Scope R_scope.

(** ** Matrices from functions *)
Definition mkmat (r c : nat) (f : nat -> nat -> R) : list (list R) :=
  map (fun i => map (fun j => f i j) (seq 0 c)) (seq 0 r).
Lemma shape_mkmat r c f : shape r c (mkmat r c f).
Proof.
  unfold mkmat. split; [now rewrite map_length, seq_length|]. rewrite Forall_forall.
  intros x Hx. apply in_map_iff in Hx as (i & <- & _). now rewrite map_length, seq_length.
Qed.
Lemma entry_mkmat r c f i j : (i < r)%nat -> (j < c)%nat -> entry (mkmat r c f) i j = f i j.
Proof.
  intros Hi Hj. unfold entry, mkmat.
  set (g := fun i => map _ _). rewrite (nth_indep _ [] (g 0%nat)) by (rewrite map_length, seq_length; auto).
  rewrite map_nth, seq_nth by auto. unfold g. simpl plus.
  rewrite (nth_indep _ 0 (f i 0%nat)) by (rewrite map_length, seq_length; auto).
  rewrite (map_nth (fun j => f i j)), seq_nth by auto. reflexivity.
Qed.
Lemma mat_ext r c (M N : list (list R)) : shape r c M -> shape r c N ->
  (forall i j, (i < r)%nat -> (j < c)%nat -> entry M i j = entry N i j) -> M = N.
Proof. intros SM SN E. exact (shape_ext r c M N SM SN E). Qed.

Lemma mapM_seq {B} (f : nat -> res B) (g : nat -> B) n :
  (forall i, (i < n)%nat -> f i = Ok (g i)) -> mapM f (seq 0 n) = Ok (map g (seq 0 n)).
Proof.
  intros K. rewrite (mapM_ext f (fun i => Ok (g i))) by (intros i Hi; apply in_seq in Hi; apply K; lia).
  induction (seq 0 n); simpl; auto. now rewrite IHl.
Qed.
Lemma foldM_sum n (f : R -> nat -> res R) (g : nat -> R) (a : R) :
  (forall x i, (i < n)%nat -> f x i = Ok (x + g i)) -> foldM f (seq 0 n) a = Ok (a + rsum n g).
Proof.
  intros K. induction n; [simpl; f_equal; ring|]. rewrite seq_S, foldM_app, IHn by auto. cbn [bind plus foldM].
  rewrite K by lia. cbn [bind foldM]. simpl rsum. f_equal; ring.
Qed.
Lemma row_nth r c (M : list (list R)) i : shape r c M -> (i < r)%nat -> idx M i = Ok (nth i M []).
Proof. intros [L _] Hi. apply idx_nth. lia. Qed.
Lemma entry_idx r c (M : list (list R)) i j : shape r c M -> (i < r)%nat -> (j < c)%nat ->
  idx (nth i M []) j = Ok (entry M i j).
Proof. intros S Hi Hj. apply idx_nth. rewrite (shape_row r c M i S Hi). auto. Qed.
Lemma col_ok r c (M : list (list R)) j : shape r c M -> (j < c)%nat -> col M j = Ok (map (fun i => entry M i j) (seq 0 r)).
Proof.
  intros S Hj. unfold col.
  assert (E : M = map (fun i => nth i M []) (seq 0 r)).
  { destruct S as [L _]. apply (nth_ext _ _ [] []); [now rewrite map_length, seq_length|]. intros i Hi.
    rewrite (nth_indep (map _ _) [] (nth 0 M [])) by (rewrite map_length, seq_length; lia).
    rewrite (map_nth (fun i => nth i M [])), seq_nth by lia. reflexivity. }
  rewrite E at 1.
  assert (G : forall l, (forall i, In i l -> (i < r)%nat) -> mapM (fun r0 : list R => idx r0 j) (map (fun i => nth i M []) l) = Ok (map (fun i => entry M i j) l)).
  { induction l as [|i l IH]; simpl; intros B; auto. rewrite (entry_idx r c) by auto. cbn [bind]. rewrite IH by auto. reflexivity. }
  apply G. intros i Hi. apply in_seq in Hi. lia.
Qed.
Lemma col_err (M : list (list R)) i j : (i < length M)%nat -> (length (nth i M []) <= j)%nat -> col M j = Err IndexError.
Proof.
  unfold col. revert i. induction M as [|x M IH]; intros i Hi L; simpl in Hi; [lia|]. simpl.
  destruct i as [|i]; simpl in L.
  - now rewrite idx_Err by auto.
  - destruct (idx x j) as [v|e] eqn:E; [|unfold idx in E; destruct (nth_error x j); [discriminate|injection E as <-; reflexivity]]. cbn [bind]. now rewrite (IH i) by (auto; lia).
Qed.

(** ** C29 *)
Theorem multiply_ok a b c (A B : list (list R)) : (0 < b)%nat -> shape a b A -> shape b c B ->
  multiply A B = Ok (mkmat a c (prod_entry b A B)).
Proof.
  intros Hb SA SB. unfold multiply. replace (length A) with a by (symmetry; apply SA).
  apply mapM_seq. intros i Hi. rewrite (row_nth a b) by auto. cbn [bind]. rewrite (row_nth b c) by auto. cbn [bind].
  rewrite (shape_row b c B 0 SB Hb). apply mapM_seq. intros j Hj. rewrite (col_ok b c) by auto. cbn [bind].
  rewrite (shape_row a b A i SA Hi). numRg.
  rewrite (foldM_sum b _ (fun k => entry A i k * entry B k j)).
  - unfold prod_entry. f_equal. ring.
  - intros x k Hk. rewrite (idx_nth _ k 0) by (now rewrite map_length, seq_length). cbn [bind].
    rewrite (entry_idx a b) by auto. cbn [bind].
    rewrite (nth_indep _ 0 (entry B 0 j)) by (now rewrite map_length, seq_length).
    rewrite (map_nth (fun i => entry B i j)), seq_nth by auto. simpl plus. f_equal. ring.
Qed.
Theorem multiply_full a b c (A B : list (list R)) : (0 < b)%nat -> shape a b A -> shape b c B ->
  exists P, multiply A B = Ok P /\ shape a c P /\ is_prod a b c A B P.
Proof.
  intros Hb SA SB. eexists. split; [apply (multiply_ok a b c); auto|]. split; [apply shape_mkmat|].
  intros i j Hi Hj. now rewrite entry_mkmat.
Qed.
Theorem multiply_assoc a b c d (A B C : list (list R)) : (0 < b)%nat -> (0 < c)%nat ->
  shape a b A -> shape b c B -> shape c d C ->
  exists AB BC P, multiply A B = Ok AB /\ multiply B C = Ok BC /\ multiply AB C = Ok P /\ multiply A BC = Ok P.
Proof.
  intros Hb Hc SA SB SC. do 3 eexists. split; [apply (multiply_ok a b c); auto|].
  split; [apply (multiply_ok b c d); auto|]. split; [apply (multiply_ok a c d); auto using shape_mkmat|].
  rewrite (multiply_ok a b d) by auto using shape_mkmat. f_equal.
  apply (mat_ext a d); auto using shape_mkmat. intros i j Hi Hj. rewrite !entry_mkmat by auto.
  transitivity (mmul b (entry A) (mmul c (entry B) (entry C)) i j).
  - apply rsum_ext. intros k Hk. now rewrite entry_mkmat.
  - rewrite <- mmul_assoc. apply rsum_ext. intros k Hk. now rewrite entry_mkmat.
Qed.
Theorem multiply_id a b (A I : list (list R)) : (0 < b)%nat -> (0 < a)%nat -> shape a b A ->
  (is_id b I -> multiply A I = Ok A) /\ (is_id a I -> multiply I A = Ok A).
Proof.
  intros Hb Ha SA. split; intros [SI E].
  - rewrite (multiply_ok a b b) by auto. f_equal. apply (mat_ext a b); auto using shape_mkmat.
    intros i j Hi Hj. rewrite entry_mkmat by auto. unfold prod_entry.
    rewrite (rsum_ext b _ (fun k => entry A i k * (if Nat.eqb k j then 1 else 0))) by (intros; now rewrite E).
    exact (rsum_delta_r b j (fun k => entry A i k) Hj).
  - rewrite (multiply_ok a a b) by auto. f_equal. apply (mat_ext a b); auto using shape_mkmat.
    intros i j Hi Hj. rewrite entry_mkmat by auto. unfold prod_entry.
    rewrite (rsum_ext a _ (fun k => (if Nat.eqb i k then 1 else 0) * entry A k j)) by (intros; now rewrite E).
    exact (rsum_delta_l a i (fun k => entry A k j) Hi).
Qed.
Theorem transpose_ok r c (M : list (list R)) : (0 < r)%nat -> shape r c M -> transpose M = Ok (mkmat c r (fun i j => entry M j i)).
Proof.
  intros Hr S. unfold transpose. rewrite (row_nth r c) by auto. cbn [bind]. rewrite (shape_row r c M 0 S Hr).
  apply mapM_seq. intros j Hj. replace (length M) with r by (symmetry; apply S). apply mapM_seq. intros i Hi.
  rewrite (row_nth r c) by auto. cbn [bind]. apply (entry_idx r c); auto.
Qed.
Theorem transpose_full r c (M : list (list R)) : (0 < r)%nat -> shape r c M ->
  exists N, transpose M = Ok N /\ shape c r N /\
    (forall i j, (i < r)%nat -> (j < c)%nat -> entry N j i = entry M i j) /\
    ((0 < c)%nat -> transpose N = Ok M).
Proof.
  intros Hr S. eexists. split; [apply (transpose_ok r c); auto|]. split; [apply shape_mkmat|]. split.
  - intros i j Hi Hj. now rewrite entry_mkmat.
  - intros Hc. rewrite (transpose_ok c r) by auto using shape_mkmat. f_equal.
    apply (mat_ext r c); auto using shape_mkmat. intros i j Hi Hj. now rewrite !entry_mkmat by auto.
Qed.
Theorem transpose_prod a b c (A B : list (list R)) : (0 < a)%nat -> (0 < b)%nat -> (0 < c)%nat -> shape a b A -> shape b c B ->
  exists P At Bt Pt, multiply A B = Ok P /\ transpose A = Ok At /\ transpose B = Ok Bt /\
    transpose P = Ok Pt /\ multiply Bt At = Ok Pt.
Proof.
  intros Ha Hb Hc SA SB. do 4 eexists. split; [apply (multiply_ok a b c); auto|].
  split; [apply (transpose_ok a b); auto|]. split; [apply (transpose_ok b c); auto|].
  split; [apply (transpose_ok a c); auto using shape_mkmat|].
  rewrite (multiply_ok c b a) by auto using shape_mkmat. f_equal. apply (mat_ext c a); auto using shape_mkmat.
  intros i j Hi Hj. rewrite !entry_mkmat by auto. apply rsum_ext. intros k Hk. rewrite !entry_mkmat by auto. ring.
Qed.
Lemma mapM_first_err {A B} (f : A -> res B) l a e : In a l -> (forall x, In x l -> forall e', f x = Err e' -> e' = e) ->
  f a = Err e -> mapM f l = Err e.
Proof.
  intros Ha K E. destruct (mapM f l) as [bs|e'] eqn:M.
  - exfalso. apply mapM_Ok in M. clear K. induction M; simpl in Ha; auto. destruct Ha as [->|]; auto. congruence.
  - f_equal. apply mapM_Err in M as (l1 & x & l2 & bs & -> & _ & Ex). apply (K x); auto. apply in_elt.
Qed.
Theorem multiply_errors (A B : list (list R)) :
  (A = [] -> multiply A B = Ok []) /\
  (A <> [] -> B = [] -> multiply A B = Err IndexError) /\
  (forall a b b' c, (0 < a)%nat -> (0 < b')%nat -> (0 < c)%nat -> (b' < b)%nat -> shape a b A -> shape b' c B ->
     multiply A B = Err IndexError).
Proof.
  repeat split.
  - intros ->; reflexivity.
  - intros N ->. unfold multiply. destruct A as [|r A]; [congruence|]. reflexivity.
  - intros a b b' c Ha Hb' Hc L SA SB. unfold multiply.
    destruct A as [|r A]; [destruct SA as [X _]; simpl in X; lia|]. cbn [length seq mapM].
    change (idx (r :: A) 0) with (Ok r). cbn [bind]. rewrite (row_nth b' c) by auto. cbn [bind].
    rewrite (shape_row b' c B 0 SB Hb').
    assert (Lr : length r = b) by (destruct SA as [_ F]; inversion F; auto).
    destruct c as [|c]; [lia|]. cbn [seq mapM]. rewrite (col_ok b' (S c)) by (auto; lia). cbn [bind]. rewrite Lr. numRg.
    set (f := fun (a0 : R) (i : nat) => _).
    assert (E : foldM f (seq 0 b) 0 = Err IndexError).
    { replace b with (b' + S (b - b' - 1))%nat by lia. rewrite seq_app, foldM_app.
      rewrite (foldM_sum b' f (fun k => entry B k 0 * nth k r 0)).
      - cbn [bind plus seq foldM]. unfold f. rewrite idx_Err by (rewrite map_length, seq_length; lia). reflexivity.
      - intros x k Hk. unfold f. rewrite (idx_nth _ k 0) by (now rewrite map_length, seq_length). cbn [bind].
        rewrite (idx_nth r k 0) by lia. cbn [bind].
        rewrite (nth_indep _ 0 (entry B 0 0)) by (now rewrite map_length, seq_length).
        rewrite (map_nth (fun i => entry B i 0)), seq_nth by auto. reflexivity. }
    rewrite E. reflexivity.
Qed.
Theorem transpose_errors (M : list (list R)) :
  (M = [] -> transpose M = Err IndexError) /\
  (forall r0 rest, M = r0 :: rest -> (exists r, In r M /\ (length r < length r0)%nat) -> transpose M = Err IndexError).
Proof.
  split; [intros ->; reflexivity|]. intros r0 rest E (r & Hr & L). subst M. set (M := r0 :: rest) in *.
  unfold transpose. change (idx M 0) with (Ok r0). cbn [bind].
  assert (X : forall j i e, (let* r1 := idx M i in idx r1 j) = Err e -> e = IndexError).
  { intros j i e. unfold idx. destruct (nth_error M i) as [x|]; cbn [bind]; [|congruence]. destruct (nth_error x j); congruence. }
  apply In_nth_error in Hr as (i & Hi).
  apply mapM_first_err with (a := (length r0 - 1)%nat).
  - apply in_seq. lia.
  - intros j _ e Ej. apply mapM_Err in Ej as (l1 & a & l2 & bs & _ & _ & Ex). eapply X; eauto.
  - apply mapM_first_err with (a := i).
    + apply in_seq. split; [lia|]. apply nth_error_Some. congruence.
    + intros a _ e. apply X.
    + unfold idx at 1. rewrite Hi. cbn [bind]. apply idx_Err. lia.
Qed.
(** A taller second factor is not noticed. *)
Theorem multiply_taller a b c d (A B B' : list (list R)) : (0 < b)%nat -> shape a b A -> shape b c B -> shape d c B' ->
  multiply A (B ++ B') = multiply A B.
Proof.
  intros Hb SA SB SB'. rewrite (multiply_ok a b c A B) by auto. unfold multiply.
  assert (SBB : shape (b + d) c (B ++ B')).
  { destruct SB as [L1 F1], SB' as [L2 F2]. split; [rewrite app_length; lia | apply Forall_app; auto]. }
  replace (length A) with a by (symmetry; apply SA). apply mapM_seq. intros i Hi.
  rewrite (row_nth a b) by auto. cbn [bind]. rewrite (row_nth (b + d) c) by (auto; lia). cbn [bind].
  rewrite (shape_row (b + d) c _ 0 SBB) by lia. apply mapM_seq. intros j Hj. rewrite (col_ok (b + d) c) by auto. cbn [bind].
  rewrite (shape_row a b A i SA Hi). numRg.
  rewrite (foldM_sum b _ (fun k => entry A i k * entry B k j)).
  - unfold prod_entry. f_equal. ring.
  - intros x k Hk. rewrite (idx_nth _ k 0) by (rewrite map_length, seq_length; lia). cbn [bind].
    rewrite (entry_idx a b) by auto. cbn [bind].
    rewrite (nth_indep _ 0 (entry (B ++ B') 0 j)) by (rewrite map_length, seq_length; lia).
    rewrite (map_nth (fun i => entry (B ++ B') i j)), seq_nth by lia. simpl plus. f_equal.
    unfold entry at 1. rewrite app_nth1 by (destruct SB; lia). unfold entry. ring.
Qed.

(** ** C27: binomial coefficients *)
Lemma C_n0 n : Binomial.C n 0 = 1.
Proof. unfold Binomial.C. rewrite Nat.sub_0_r. simpl (fact 0). rewrite INR_1 || idtac. simpl INR. field. apply INR_fact_neq_0. Qed.
Lemma C_nn n : Binomial.C n n = 1.
Proof. unfold Binomial.C. rewrite Nat.sub_diag. simpl (fact 0). simpl INR. field. apply INR_fact_neq_0. Qed.
Lemma nextRow_spec lut : (0 < length lut)%nat -> pascal_table lut -> 
  length (nextRow lut) = S (length lut) /\
  forall k, (k <= length lut)%nat -> IZR (nth k (nextRow lut) 0%Z) = Binomial.C (length lut) k.
Proof.
  intros L P. unfold nextRow. set (n := length lut) in *. destruct (P (n - 1)%nat ltac:(lia)) as [Lp Ep].
  set (prev := nth (n - 1) lut []) in *.
  split; [simpl; rewrite app_length, map_length, seq_length; simpl; lia|].
  intros [|k] Hk; [simpl; now rewrite C_n0|]. simpl nth.
  destruct (Nat.eq_dec (S k) n) as [En|Nn].
  - rewrite app_nth2; rewrite map_length, seq_length; [|lia]. replace (k - (n - 1))%nat with 0%nat by lia. simpl.
    now rewrite En, C_nn.
  - rewrite app_nth1 by (rewrite map_length, seq_length; lia).
    set (f := fun i => _). rewrite (nth_indep _ 0%Z (f 0%nat)) by (rewrite map_length, seq_length; lia).
    rewrite (map_nth f), seq_nth by lia. unfold f. simpl plus. rewrite Nat.sub_0_r || idtac.
    replace (S k - 1)%nat with k by lia. rewrite plus_IZR, !Ep by lia.
    replace n with (S (n - 1)) at 3 by lia. apply pascal. lia.
Qed.
Lemma pascal_snoc lut : (0 < length lut)%nat -> pascal_table lut -> pascal_table (lut ++ [nextRow lut]).
Proof.
  intros L P i Hi. rewrite app_length in Hi. simpl in Hi. destruct (Nat.eq_dec i (length lut)) as [->|N].
  - rewrite app_nth2, Nat.sub_diag by lia. simpl nth at 1 2. apply nextRow_spec; auto.
  - rewrite app_nth1 by lia. apply P. lia.
Qed.
Definition extends {A} (l l' : list A) : Prop := exists r, l' = l ++ r.
Lemma extends_refl {A} (l : list A) : extends l l.
Proof. exists []. now rewrite app_nil_r. Qed.
Lemma extends_trans {A} (a b c : list A) : extends a b -> extends b c -> extends a c.
Proof. intros (x & ->) (y & ->). exists (x ++ y). now rewrite app_assoc. Qed.
Definition good_lut (lut : lutT) : Prop := (0 < length lut)%nat /\ pascal_table lut.
Lemma growLut_spec fuel n : forall lut, good_lut lut -> (n < length lut + fuel)%nat ->
  good_lut (growLut fuel n lut) /\ extends lut (growLut fuel n lut) /\ (n < length (growLut fuel n lut))%nat.
Proof.
  induction fuel as [|f IH]; intros lut [L P] B; simpl.
  - split; [split; auto|]. split; [apply extends_refl | lia].
  - destruct (Nat.leb_spec (length lut) n).
    + destruct (IH (lut ++ [nextRow lut])) as (A & B' & C).
      * split; [rewrite app_length; lia | apply pascal_snoc; auto].
      * rewrite app_length; simpl; lia.
      * split; [exact A|]. split; auto. eapply extends_trans; eauto. eexists; reflexivity.
    + split; [split; auto|]. split; [apply extends_refl | lia].
Qed.
Theorem initial_lut : good_lut binomialCoefficients.
Proof.
  assert (E : binomialCoefficients = growLut 6 6 [[1%Z]]) by reflexivity. rewrite E. apply growLut_spec; [|simpl; lia].
  split; [simpl; lia|]. intros i Hi. simpl in Hi. assert (i = 0%nat) by lia. subst. split; auto.
  intros k Hk. assert (k = 0%nat) by lia. subst. simpl. now rewrite C_n0.
Qed.
Theorem binomial_spec lut n k : good_lut lut ->
  good_lut (fst (binomial lut n k)) /\ extends lut (fst (binomial lut n k)) /\
  ((k <= n)%nat -> exists b, snd (binomial lut n k) = Ok b /\ IZR b = Binomial.C n k) /\
  ((n < k)%nat -> snd (binomial lut n k) = if Nat.eqb n 0 then Ok 1%Z else Err IndexError).
Proof.
  intros G. unfold binomial. destruct (Nat.eqb_spec n 0) as [->|N]; cbn [fst snd].
  - split; auto. split; [apply extends_refl|]. split; auto. intros Hk. exists 1%Z; split; auto.
    assert (k = 0%nat) by lia. subst. now rewrite C_n0.
  - destruct (growLut_spec (S n) n lut G) as (G' & E & L); [destruct G; lia|].
    set (lut' := growLut (S n) n lut) in *. split; auto. split; auto. destruct G' as [_ P]. destruct (P n L) as [Lr Er].
    rewrite (idx_nth lut' n []) by auto. cbn [bind]. split; intros Hk.
    + rewrite (idx_nth _ k 0%Z) by lia. eauto.
    + apply idx_Err. lia.
Qed.
(** Any history of calls. *)
Definition binomialHistory (calls : list (nat * nat)) : lutT :=
  fold_left (fun lut nk => fst (binomial lut (fst nk) (snd nk))) calls binomialCoefficients.
Lemma history_good calls : good_lut (binomialHistory calls) /\ extends binomialCoefficients (binomialHistory calls).
Proof.
  unfold binomialHistory. apply (fold_ind (fun l => good_lut l /\ extends binomialCoefficients l)).
  - split; [apply initial_lut | apply extends_refl].
  - intros lut [n k] _ [G E]. destruct (binomial_spec lut n k G) as (G' & E' & _). split; auto. eapply extends_trans; eauto.
Qed.
Lemma C_fact n k b : (k <= n)%nat -> IZR b = Binomial.C n k -> (b * Z.of_nat (fact k) * Z.of_nat (fact (n - k)) = Z.of_nat (fact n))%Z.
Proof.
  intros Hk E. apply eq_IZR. rewrite !mult_IZR, E, <- !INR_IZR_INZ. unfold Binomial.C. field.
  split; apply INR_fact_neq_0.
Qed.
Theorem binomial_any_history calls n k : (k <= n)%nat ->
  exists b, snd (binomial (binomialHistory calls) n k) = Ok b /\
    (b * Z.of_nat (fact k) * Z.of_nat (fact (n - k)) = Z.of_nat (fact n))%Z.
Proof.
  intros Hk. destruct (history_good calls) as [G _]. destruct (binomial_spec _ n k G) as (_ & _ & K & _).
  destruct (K Hk) as (b & E & Eb). exists b; split; auto. apply C_fact; auto.
Qed.
Theorem binomial_outside calls n k : (1 <= n < k)%nat -> snd (binomial (binomialHistory calls) n k) = Err IndexError.
Proof.
  intros Hk. destruct (history_good calls) as [G _]. destruct (binomial_spec _ n k G) as (_ & _ & _ & K).
  rewrite K by lia. destruct (Nat.eqb_spec n 0); auto; lia.
Qed.
Theorem binomial_table calls n k : let lut := binomialHistory calls in let lut' := fst (binomial lut n k) in
  extends lut lut' /\ pascal_table lut' /\ extends binomialCoefficients lut'.
Proof.
  cbv zeta. destruct (history_good calls) as [G E]. destruct (binomial_spec _ n k G) as (G' & E' & _).
  split; auto. split; [apply G' | eapply extends_trans; eauto].
Qed.

(** ** C28: basisMatrix *)
Definition sgn (k : nat) : R := if Nat.even k then 1 else -1.
Lemma mset_R r c M i j v : shape r c M -> (i < r)%nat -> (j < c)%nat ->
  shape r c (mset M i j v) /\ forall i' j', entry (mset M i j v) i' j' = if Nat.eqb i' i && Nat.eqb j' j then v else entry M i' j'.
Proof.
  intros S Hi Hj. split; [apply shape_mset; auto|]. intros i' j'. rewrite <- !mget_entry. rewrite (mget_mset r c); auto.
Qed.
Lemma zero_shape n : shape n n (zeroMatrix (T := R) n).
Proof.
  unfold zeroMatrix. split; [apply repeat_length|]. rewrite Forall_forall. intros x Hx. apply repeat_spec in Hx. subst. apply repeat_length.
Qed.
Lemma zero_entry n i j : entry (zeroMatrix (T := R) n) i j = 0.
Proof.
  unfold entry, zeroMatrix; numRg. destruct (Nat.lt_ge_cases i n) as [Hi|Hi].
  - rewrite (nth_indep _ [] (repeat 0 n)) by (rewrite repeat_length; auto). rewrite nth_repeat. destruct (Nat.lt_ge_cases j n) as [Hj|Hj]; [apply nth_repeat | apply nth_overflow; rewrite repeat_length; auto].
  - rewrite (nth_overflow (repeat _ _)) by (rewrite repeat_length; auto). destruct j; auto.
Qed.
Lemma basisDiag_spec n : forall k lut m, (k <= n)%nat -> good_lut lut -> shape n n m -> (forall i j, entry m i j = 0) ->
  exists lut' m', foldM (fun (st : lutT * matrix R) i =>
      let (lut, m) := st in
      let (lut, b) := binomial lut (n - 1) i in
      let* b := b in Ok (lut, mset m i i (nofZ b))) (seq 0 k) (lut, m) = Ok (lut', m') /\
    good_lut lut' /\ extends lut lut' /\ shape n n m' /\
    forall i j, entry m' i j = if Nat.eqb i j && Nat.ltb i k then Binomial.C (n - 1) i else 0.
Proof.
  induction k as [|k IH]; intros lut m Hk G SH Z.
  - exists lut, m. simpl. split; auto. split; auto. split; [apply extends_refl|]. split; auto. intros i j. rewrite Z. now rewrite andb_false_r.
  - destruct (IH lut m ltac:(lia) G SH Z) as (lut1 & m1 & E & G1 & X1 & S1 & E1).
    rewrite seq_S, foldM_app, E. cbn [bind plus foldM].
    destruct (binomial_spec lut1 (n - 1) k G1) as (G2 & X2 & K & _).
    destruct (binomial lut1 (n - 1) k) as [lut2 ob]. cbn [fst snd] in *. destruct (K ltac:(lia)) as (b & -> & Eb). cbn [bind].
    destruct (mset_R n n m1 k k (nofZ b) S1) as [S2 E2]; try lia.
    do 2 eexists. split; [reflexivity|]. split; auto. split; [eapply extends_trans; eauto|]. split; auto.
    intros i j. rewrite E2, E1. numRg. rewrite Eb.
    destruct (Nat.eqb_spec i k), (Nat.eqb_spec j k), (Nat.eqb_spec i j), (Nat.ltb_spec i k), (Nat.ltb_spec i (Datatypes.S k)); subst; simpl; auto; lia.
Qed.
Lemma basisRow_spec n c : (c < n)%nat -> forall k lut m, (c + 1 + k <= n)%nat -> good_lut lut -> shape n n m ->
  (forall i, (i < n)%nat -> entry m i i = Binomial.C (n - 1) i) ->
  exists lut' m', foldM (fun (st : lutT * matrix R) r =>
        let (lut, m) := st in
        let sign : R := if Nat.even (r + c) then nofZ 1 else nofZ (-1) in
        let (lut, b) := binomial lut r c in
        let* b := b in
        let value := (nofZ b * mget m r r)%num in
        Ok (lut, mset m r c (sign * value)%num)) (seq (c + 1) k) (lut, m) = Ok (lut', m') /\
    good_lut lut' /\ extends lut lut' /\ shape n n m' /\
    forall i j, entry m' i j = if Nat.eqb j c && Nat.ltb c i && Nat.ltb i (c + 1 + k) then sgn (i + c) * (Binomial.C i c * Binomial.C (n - 1) i) else entry m i j.
Proof.
  intros Hc. induction k as [|k IH]; intros lut m Hk G SH D.
  - exists lut, m. simpl. split; auto. split; auto. split; [apply extends_refl|]. split; auto. intros i j.
    destruct (Nat.eqb_spec j c), (Nat.ltb_spec c i), (Nat.ltb_spec i (c + 1 + 0)); simpl; auto; lia.
  - destruct (IH lut m ltac:(lia) G SH D) as (lut1 & m1 & E & G1 & X1 & S1 & E1).
    rewrite seq_S, foldM_app, E. cbn [bind foldM]. set (r := (c + 1 + k)%nat) in *.
    destruct (binomial_spec lut1 r c G1) as (G2 & X2 & K & _).
    destruct (binomial lut1 r c) as [lut2 ob]. cbn [fst snd] in *. destruct (K ltac:(lia)) as (b & -> & Eb). cbn [bind].
    set (v := (_ * _)%num). destruct (mset_R n n m1 r c v S1) as [S2 E2]; try lia.
    do 2 eexists. split; [reflexivity|]. split; auto. split; [eapply extends_trans; eauto|]. split; auto.
    assert (Ev : v = sgn (r + c) * (Binomial.C r c * Binomial.C (n - 1) r)).
    { unfold v, sgn; numRg. rewrite mget_entry, E1, Eb. 
      destruct (Nat.eqb_spec r c); [lia|]. simpl andb. rewrite D by lia. destruct (Nat.even (r + c)); auto. }
    intros i j. rewrite E2, E1, Ev.
    destruct (Nat.eqb_spec i r), (Nat.eqb_spec j c), (Nat.ltb_spec c i), (Nat.ltb_spec i r), (Nat.ltb_spec i (c + 1 + S k)); subst; simpl; auto; lia.
Qed.
Definition bentry (n i j : nat) : R := if Nat.ltb i j then 0 else sgn (i + j) * (Binomial.C i j * Binomial.C (n - 1) i).
Lemma sgn_even k : sgn (k + k) = 1.
Proof. unfold sgn. replace (k + k)%nat with (2 * k)%nat by lia. rewrite Nat.even_mul. reflexivity. Qed.
Lemma basisLower_spec n : forall k lut m, (k <= n)%nat -> good_lut lut -> shape n n m ->
  (forall i j, (i < n)%nat -> (j < n)%nat -> entry m i j = if Nat.eqb i j then Binomial.C (n - 1) i else 0) ->
  exists lut' m', foldM (fun (st : lutT * matrix R) c =>
      foldM (fun (st : lutT * matrix R) r =>
        let (lut, m) := st in
        let sign : R := if Nat.even (r + c) then nofZ 1 else nofZ (-1) in
        let (lut, b) := binomial lut r c in
        let* b := b in
        let value := (nofZ b * mget m r r)%num in
        Ok (lut, mset m r c (sign * value)%num)) (seq (c + 1) (n - (c + 1))) st) (seq 0 k) (lut, m) = Ok (lut', m') /\
    good_lut lut' /\ extends lut lut' /\ shape n n m' /\
    forall i j, (i < n)%nat -> (j < n)%nat -> entry m' i j = if Nat.ltb j k then bentry n i j else entry m i j.
Proof.
  induction k as [|k IH]; intros lut m Hk G SH D.
  - exists lut, m. simpl. split; auto. split; auto. split; [apply extends_refl|]. split; auto.
  - destruct (IH lut m ltac:(lia) G SH D) as (lut1 & m1 & E & G1 & X1 & S1 & E1).
    rewrite seq_S, foldM_app, E. cbn [bind plus foldM].
    destruct (basisRow_spec n k ltac:(lia) (n - (k + 1)) lut1 m1 ltac:(lia) G1 S1) as (lut2 & m2 & EE & G2 & X2 & S2 & E2).
    { intros i Hi. rewrite E1 by auto. destruct (Nat.ltb_spec i k).
      - unfold bentry. destruct (Nat.ltb_spec i i); [lia|]. rewrite sgn_even, C_nn. ring.
      - rewrite D by auto. now rewrite Nat.eqb_refl. }
    exists lut2, m2. split; [exact (f_equal (fun x => bind x (fun y => Ok y)) EE)|]. split; auto. split; [eapply extends_trans; eauto|]. split; auto.
    intros i j Hi Hj. rewrite E2, E1 by auto. rewrite D by auto. unfold bentry.
    destruct (Nat.eqb_spec j k), (Nat.ltb_spec k i), (Nat.ltb_spec i (k + 1 + (n - (k + 1)))), (Nat.ltb_spec j k), (Nat.ltb_spec j (S k)), (Nat.ltb_spec i j), (Nat.eqb_spec i j);
      subst; simpl; auto; try lia. rewrite sgn_even, C_nn. ring.
Qed.
Theorem basisMatrix_spec lut n : good_lut lut ->
  exists lut' m, basisMatrix lut n = Ok (lut', m) /\ good_lut lut' /\ extends lut lut' /\ shape n n m /\
    forall i j, (i < n)%nat -> (j < n)%nat -> entry m i j = bentry n i j.
Proof.
  intros G. unfold basisMatrix, basisDiag, basisLower.
  destruct (basisDiag_spec n n lut (zeroMatrix n) (le_n n) G (zero_shape n) (zero_entry n)) as (lut1 & m1 & -> & G1 & X1 & S1 & E1).
  cbn [bind]. destruct (basisLower_spec n n lut1 m1 (le_n n) G1 S1) as (lut2 & m2 & E & G2 & X2 & S2 & E2).
  - intros i j Hi Hj. rewrite E1. destruct (Nat.eqb i j); simpl; auto. destruct (Nat.ltb_spec i n); auto; lia.
  - exists lut2, m2. split; [exact E|]. split; auto. split; [eapply extends_trans; eauto|]. split; auto.
    intros i j Hi Hj. rewrite E2 by auto. destruct (Nat.ltb_spec j n); auto; lia.
Qed.
(** The row [1, t, ..., t^(n-1)] times the matrix. *)
Lemma rsum_f_R0 f n : rsum (S n) f = sum_f_R0 f n.
Proof. induction n; [simpl; ring|]. simpl sum_f_R0. rewrite <- IHn. reflexivity. Qed.
Lemma rsum_shift c m f : (forall k, (k < c)%nat -> f k = 0) -> rsum (c + m) f = rsum m (fun k => f (c + k)%nat).
Proof.
  intros Z. induction m; simpl.
  - rewrite Nat.add_0_r. now apply rsum_0.
  - rewrite Nat.add_succ_r. simpl. now rewrite IHm.
Qed.
Lemma C_C N r c : (c <= r <= N)%nat -> Binomial.C r c * Binomial.C N r = Binomial.C N c * Binomial.C (N - c) (r - c).
Proof.
  intros H. unfold Binomial.C. replace (N - c - (r - c))%nat with (N - r)%nat by lia.
  field. repeat split; apply INR_fact_neq_0.
Qed.
Lemma sgn_pow k : sgn k = (-1) ^ k.
Proof.
  induction k as [k IH] using lt_wf_ind. destruct k as [|[|k]]; [unfold sgn; simpl; lra | unfold sgn; simpl; lra |].
  unfold sgn. simpl Nat.even. change (if Nat.even k then 1 else -1) with (sgn k). rewrite IH by lia. simpl. ring.
Qed.
Theorem basis_bernstein N c t : (c <= N)%nat ->
  rsum (S N) (fun r => t ^ r * bentry (S N) r c) = bernstein N c t.
Proof.
  intros Hc. unfold bernstein. replace (S N) with (c + S (N - c))%nat at 1 by lia.
  rewrite rsum_shift.
  - rewrite (rsum_ext _ _ (fun k => (Binomial.C N c * t ^ c) * (Binomial.C (N - c) k * (- t) ^ k * 1 ^ (N - c - k)))).
    + rewrite rsum_scal, rsum_f_R0, <- Binomial.binomial. f_equal. f_equal. ring.
    + intros k Hk. unfold bentry. destruct (Nat.ltb_spec (c + k) c); [lia|].
      replace (S N - 1)%nat with N by lia. rewrite C_C by lia.
      replace (c + k - c)%nat with k by lia. replace (c + k + c)%nat with (c + c + k)%nat by lia.
      rewrite sgn_pow, !pow_add, pow1. replace ((- t) ^ k) with ((-1) ^ k * t ^ k) by (rewrite <- Rpow_mult_distr; f_equal; ring).
      assert (E : (-1) ^ c * (-1) ^ c = 1) by (rewrite <- Rpow_mult_distr; replace (-1 * -1) with 1 by ring; apply pow1).
      replace ((-1) ^ c * (-1) ^ c * (-1) ^ k) with ((-1) ^ k) by (rewrite E; ring). ring.
  - intros k Hk. unfold bentry. destruct (Nat.ltb_spec k c); [ring | lia].
Qed.
Theorem basisMatrix_full lut n : good_lut lut ->
  exists lut' m, basisMatrix lut n = Ok (lut', m) /\ good_lut lut' /\ extends lut lut' /\ shape n n m /\
    (forall i j, (i < j)%nat -> (j < n)%nat -> entry m i j = 0) /\
    (forall c t, (c < n)%nat -> rsum n (fun r => t ^ r * entry m r c) = bernstein (n - 1) c t).
Proof.
  intros G. destruct (basisMatrix_spec lut n G) as (lut' & m & E & G' & X & SH & M). exists lut', m.
  split; auto. split; auto. split; auto. split; auto. split.
  - intros i j Hij Hj. rewrite M by lia. unfold bentry. destruct (Nat.ltb_spec i j); auto; lia.
  - intros c t Hc. rewrite (rsum_ext n _ (fun r => t ^ r * bentry n r c)) by (intros; now rewrite M).
    pose proof (basis_bernstein (n - 1) c t ltac:(lia)) as B. replace (S (n - 1)) with n in B by lia. exact B.
Qed.

Theorem basisMatrix_any calls n :
  exists lut' m, basisMatrix (binomialHistory calls) n = Ok (lut', m) /\ shape n n m /\
    (forall i j, (i < j)%nat -> (j < n)%nat -> entry m i j = 0) /\
    (forall c t, (c < n)%nat -> rsum n (fun r => t ^ r * entry m r c) = bernstein (n - 1) c t).
Proof.
  destruct (basisMatrix_full _ n (proj1 (history_good calls))) as (lut' & m & E & _ & _ & K). exists lut', m. split; auto.
Qed.
(** ** C30: computeTimeValues *)
Section Times.
Context (rnd : R -> R).
#[local] Hint Extern 0 (TrigOps R) => exact (RTrig rnd) : typeclass_instances.
Lemma dist_vdist (a b : pt) : dist a b = vdist a b.
Proof. unfold dist, vdist, dist2; numRg. f_equal. ring. Qed.
Definition chord (p : list pt) (i : nat) : R := rsum i (fun k => vdist (ptn p k) (ptn p (S k))).
Lemma chordLengths_spec (p : list pt) : forall k, (S k <= length p)%nat ->
  foldM (fun d i =>
      let* di := idx d (i - 1) in
      let* a := idx p (i - 1) in
      let* b := idx p i in
      Ok (d ++ [(di + dist a b)%num])) (seq 1 k) [nofZ 0] = Ok (map (chord p) (seq 0 (S k))).
Proof.
  induction k as [|k IH]; intros L; [reflexivity|].
  rewrite seq_S, foldM_app, IH by lia. cbn [bind plus foldM].
  replace (S k - 1)%nat with k by lia.
  rewrite (idx_nth _ k (chord p 0)) by (rewrite map_length, seq_length; lia). rewrite map_nth, seq_nth by lia. cbn [bind plus].
  rewrite (idx_nth p k (0, 0)), (idx_nth p (S k) (0, 0)) by lia. cbn [bind]. rewrite dist_vdist; numRg.
  rewrite (seq_S (S k)), map_app. cbn [map plus]. reflexivity.
Qed.
Lemma chordLengths_ok (p : list pt) : p <> [] -> chordLengths p (length p) = Ok (map (chord p) (seq 0 (length p))).
Proof.
  intros N. unfold chordLengths. destruct p as [|x p]; [congruence|]. replace (length (x :: p) - 1)%nat with (length p) by (simpl; lia).
  apply chordLengths_spec. auto.
Qed.
Lemma vdist_pos (a b : pt) : 0 <= vdist a b.
Proof. apply sqrt_pos. Qed.
Lemma vdist_0 (a b : pt) : vdist a b = 0 <-> a = b.
Proof.
  unfold vdist, dist2. destruct a as [ax ay], b as [bx by']; cbn [fst snd]. split.
  - intros E. apply sqrt_eq_0 in E; [|apply Rplus_le_le_0_compat; apply pow2_ge_0].
    pose proof (pow2_ge_0 (ax - bx)). pose proof (pow2_ge_0 (ay - by')).
    assert (A : (ax - bx) ^ 2 = 0) by lra. assert (B : (ay - by') ^ 2 = 0) by lra.
    apply Rsqr_0_uniq in A || (assert (ax - bx = 0) by nra); assert (ay - by' = 0) by nra. f_equal; nra.
  - intros E; injection E as -> ->. replace (_ + _) with 0 by ring. apply sqrt_0.
Qed.
Lemma chord_step p i : chord p (S i) = chord p i + vdist (ptn p i) (ptn p (S i)).
Proof. reflexivity. Qed.
Lemma chord_mono p i j : (i <= j)%nat -> chord p i <= chord p j.
Proof. induction 1; [lra|]. rewrite chord_step. pose proof (vdist_pos (ptn p m) (ptn p (S m))). lra. Qed.
Lemma chord_0_all p n : chord p n = 0 -> forall i, (i <= n)%nat -> ptn p i = ptn p 0.
Proof.
  intros E i Hi. induction i as [|i IH]; auto. rewrite <- IH by lia. symmetry. apply vdist_0.
  pose proof (chord_mono p (S i) n Hi). pose proof (chord_mono p 0 i ltac:(lia)). rewrite chord_step in H. 
  change (chord p 0) with 0 in H0. pose proof (vdist_pos (ptn p i) (ptn p (S i))). lra.
Qed.
Lemma ndiv_all (l : list R) x : x <> 0 -> mapM (fun v => ndiv v x) l = Ok (map (fun v => v / x) l).
Proof. intros N. induction l; simpl; auto. rewrite ndivR by auto. cbn [bind]. now rewrite IHl. Qed.
Theorem times_polygonal (p : list pt) : (exists i, (i < length p)%nat /\ ptn p i <> ptn p 0) ->
  exists s, computeTimeValues p true = Ok s /\ length s = length p /\
    nth 0 s 0 = 0 /\ nth (length p - 1) s 0 = 1 /\
    (forall i, (S i < length p)%nat -> nth i s 0 <= nth (S i) s 0) /\
    (forall i, (S i < length p)%nat -> nth i s 0 < nth (S i) s 0 <-> ptn p i <> ptn p (S i)) /\
    forall i, (i < length p)%nat -> nth i s 0 * chord p (length p - 1) = chord p i.
Proof.
  intros (i0 & Hi0 & Ni0). assert (Np : p <> []) by (intros ->; simpl in Hi0; lia).
  set (n := length p) in *. set (tot := chord p (n - 1)).
  assert (Pt : 0 < tot).
  { pose proof (chord_mono p 0 (n - 1) ltac:(lia)) as M. change (chord p 0) with 0 in M.
    destruct M as [M|M]; auto. exfalso. apply Ni0. apply (chord_0_all p (n - 1)); auto. lia. }
  exists (map (fun v => v / tot) (map (chord p) (seq 0 n))).
  assert (E : forall i, (i < n)%nat -> nth i (map (fun v => v / tot) (map (chord p) (seq 0 n))) 0 = chord p i / tot).
  { intros i Hi. rewrite map_map. set (f := fun x => _). rewrite (nth_indep _ 0 (f 0%nat)) by (rewrite map_length, seq_length; auto).
    rewrite map_nth, seq_nth by auto. reflexivity. }
  split; [|split; [|split; [|split; [|split; [|split]]]]].
  - unfold computeTimeValues, computeTimeValuesN; change (orLen 0 (length p)) with (length p); cbv zeta. cbv zeta. unfold n. rewrite chordLengths_ok by auto. cbn [bind].
    destruct (length p) as [|k] eqn:Lp; [lia|].
    rewrite (idx_nth _ k (chord p 0)) by (rewrite map_length, seq_length; lia).
    rewrite map_nth, seq_nth by lia. cbn [bind plus].
    replace (chord p k) with tot by (unfold tot, n; f_equal; lia). apply ndiv_all. lra.
  - now rewrite !map_length, seq_length.
  - rewrite E by lia. change (chord p 0) with 0. field. lra.
  - rewrite E by lia. fold tot. field. lra.
  - intros i Hi. rewrite !E by lia. apply Rmult_le_compat_r; [left; apply Rinv_0_lt_compat; auto|]. apply chord_mono; auto.
  - intros i Hi. rewrite !E by lia. rewrite chord_step. pose proof (vdist_pos (ptn p i) (ptn p (S i))) as V.
    split.
    + intros L K. apply vdist_0 in K. rewrite K in L. unfold Rdiv in L. rewrite Rplus_0_r in L. lra.
    + intros N. apply Rmult_lt_compat_r; [apply Rinv_0_lt_compat; auto|].
      assert (vdist (ptn p i) (ptn p (S i)) <> 0) by (intros K; apply vdist_0 in K; auto). lra.
  - intros i Hi. rewrite E by auto. fold n tot. field. lra.
Qed.
Theorem times_coincide (p : list pt) : (forall i, (i < length p)%nat -> ptn p i = ptn p 0) ->
  computeTimeValues p true = Err ZeroDivisionError.
Proof.
  intros K. unfold computeTimeValues, computeTimeValuesN; change (orLen 0 (length p)) with (length p); cbv zeta. cbv zeta. destruct p as [|x p].
  - cbn. numRg. now rewrite ndivR0.
  - rewrite chordLengths_ok by discriminate. cbn [bind]. set (q := x :: p) in *.
    assert (Z : forall i, (i < length q)%nat -> chord q i = 0).
    { induction i as [|i IH]; intros Hi; auto. rewrite chord_step, IH by lia.
      replace (vdist (ptn q i) (ptn q (S i))) with 0; [ring|]. symmetry. apply vdist_0. rewrite (K (S i)) by lia. apply K. lia. }
    assert (Lq : length q = S (length p)) by reflexivity. rewrite Lq. cbv iota.
    rewrite (idx_nth _ (length p) (chord q 0)) by (rewrite map_length, seq_length; auto).
    rewrite map_nth, seq_nth by auto. cbn [bind plus]. rewrite (Z (length p)) by lia.
    cbn [seq map mapM]. now rewrite ndivR0.
Qed.
Theorem times_uniform (p : list pt) :
  (length p = 1%nat -> computeTimeValues p false = Err ZeroDivisionError) /\
  ((2 <= length p)%nat -> computeTimeValues p false = Ok (map (fun i => INR i / INR (length p - 1)) (seq 0 (length p)))).
Proof.
  unfold computeTimeValues, computeTimeValuesN; change (orLen 0 (length p)) with (length p); cbv zeta. split.
  - intros ->. simpl. numRg. now rewrite ndivR0.
  - intros L. apply mapM_seq. intros i Hi. numRg. rewrite ndivR.
    + rewrite !INR_IZR_INZ. do 3 f_equal. lia.
    + replace (Z.of_nat (length p) - 1)%Z with (Z.of_nat (length p - 1)) by lia. rewrite <- INR_IZR_INZ. apply not_0_INR. lia.
Qed.

(** ** C31: fit *)
(** Value of the polynomial with coefficients [v] below degree [n]. *)
Definition pval (n : nat) (v : nat -> R) (t : R) : R := rsum n (fun k => t ^ k * v k).
(** Synthetic division. *)
Lemma pval_factor n v a : pval n v a = 0 -> exists w, (forall t, pval n v t = (t - a) * pval (n - 1) w t) /\
  ((forall k, (k < n - 1)%nat -> w k = 0) -> forall k, (k < n)%nat -> v k = 0).
Proof.
  intros Z.
  (* w k = sum_{j>k} v j a^(j-k-1) *)
  set (w := fun k => rsum n (fun j => if Nat.ltb k j then v j * a ^ (j - k - 1) else 0)).
  exists w.
  assert (H : forall t, pval n v t - pval n v a = (t - a) * pval (n - 1) w t).
  { intros t. unfold pval.
    assert (E : rsum (n - 1) (fun k => t ^ k * w k) = rsum n (fun j => v j * rsum j (fun k => t ^ k * a ^ (j - k - 1)))).
    { unfold w. rewrite (rsum_ext (n - 1) _ (fun k => rsum n (fun j => if Nat.ltb k j then t ^ k * (v j * a ^ (j - k - 1)) else 0))).
      2: { intros k Hk. rewrite <- rsum_scal. apply rsum_ext. intros j Hj. destruct (Nat.ltb k j); ring. }
      rewrite rsum_swap. apply rsum_ext. intros j Hj. rewrite <- rsum_scal.
      assert (X : forall m f, (j <= m)%nat -> rsum m (fun k => if Nat.ltb k j then f k else 0) = rsum j f).
      { clear. intros m f. induction m; intros L; [now replace j with 0%nat by lia|]. simpl.
        destruct (Nat.eq_dec j (S m)) as [->|].
        - destruct (Nat.ltb_spec m (S m)); [|lia]. simpl. f_equal. apply rsum_ext. intros k Hk.
          destruct (Nat.ltb_spec k (S m)); auto; lia.
        - rewrite IHm by lia. destruct (Nat.ltb_spec m j); [lia | ring]. }
      rewrite (X (n - 1)%nat (fun k => t ^ k * (v j * a ^ (j - k - 1)))) by lia. apply rsum_ext. intros; ring. }
    rewrite E, <- rsum_scal. rewrite <- (Rmult_1_l (rsum n (fun k => a ^ k * v k))).
    unfold Rminus at 1. rewrite Ropp_mult_distr_l, <- rsum_scal, <- rsum_plus. apply rsum_ext. intros j Hj.
    assert (G : t ^ j - a ^ j = (t - a) * rsum j (fun k => t ^ k * a ^ (j - k - 1))).
    { clear. induction j; [simpl; ring|].
      assert (Y : rsum (S j) (fun k => t ^ k * a ^ (S j - k - 1)) = a * rsum j (fun k => t ^ k * a ^ (j - k - 1)) + t ^ j).
      { cbn [rsum]. replace (S j - j - 1)%nat with 0%nat by lia. rewrite <- rsum_scal, pow_O, Rmult_1_r.
        f_equal. apply rsum_ext. intros k Hk.
        replace (S j - k - 1)%nat with (S (j - k - 1)) by lia. rewrite <- tech_pow_Rmult. ring. }
      rewrite Y. simpl (t ^ S j). simpl (a ^ S j).
      replace (t * t ^ j - a * a ^ j) with (a * (t ^ j - a ^ j) + (t - a) * t ^ j) by ring. rewrite IHj. ring. }
    replace ((t - a) * (v j * rsum j (fun k => t ^ k * a ^ (j - k - 1)))) with (v j * ((t - a) * rsum j (fun k => t ^ k * a ^ (j - k - 1)))) by ring.
    rewrite <- G. ring. }
  split.
  - intros t. rewrite <- H, Z. ring.
  - intros W. assert (P : forall t, pval n v t = 0).
    { intros t. replace (pval n v t) with (pval n v t - pval n v a) by (rewrite Z; ring). rewrite H.
      unfold pval. rewrite rsum_0; [ring|]. intros k Hk. rewrite W by auto. ring. }
    (* top coefficients: w (k-1) = v k + a * w k *)
    assert (R : forall k, (0 < k < n)%nat -> w (k - 1)%nat = v k + a * w k).
    { intros k Hk. unfold w. rewrite (rsum_split n k) by lia. destruct (Nat.ltb_spec (k - 1) k); [|lia].
      replace (k - (k - 1) - 1)%nat with 0%nat by lia. rewrite <- rsum_scal.
      f_equal; [simpl; ring|]. apply rsum_ext. intros j Hj.
      destruct (Nat.eqb_spec j k), (Nat.ltb_spec (k - 1) j), (Nat.ltb_spec k j); try lia; try ring.
      replace (j - (k - 1) - 1)%nat with (S (j - k - 1)) by lia. simpl. ring. }
    assert (Wn : w (n - 1)%nat = 0).
    { unfold w. apply rsum_0. intros j Hj. destruct (Nat.ltb_spec (n - 1) j); auto; lia. }
    assert (Wall : forall k, (k < n)%nat -> w k = 0).
    { intros k Hk. destruct (Nat.eq_dec k (n - 1)) as [->|]; auto. apply W. lia. }
    intros k Hk. destruct k as [|k].
    + specialize (P 0). unfold pval in P. rewrite (rsum_split n 0) in P by auto. rewrite rsum_0 in P.
      * simpl in P. lra.
      * intros j Hj. destruct j; simpl; auto. ring.
    + specialize (R (S k) ltac:(lia)). rewrite (Wall (S k)) in R by auto. replace (S k - 1)%nat with k in R by lia.
      rewrite (Wall k) in R by lia. lra.
Qed.
(** A polynomial below degree n with n distinct roots is zero. *)
Lemma many_roots n : forall v s, (forall i j, (i < j)%nat -> (j < n)%nat -> s i <> s j) ->
  (forall i, (i < n)%nat -> pval n v (s i) = 0) -> forall k, (k < n)%nat -> v k = 0.
Proof.
  induction n as [|n IH]; intros v s D Z k Hk; [lia|].
  destruct (pval_factor (S n) v (s n) (Z n ltac:(lia))) as (w & F & B).
  replace (S n - 1)%nat with n in * by lia. apply B; auto.
  apply (IH w s); [intros; apply D; lia|]. intros i Hi.
  specialize (Z i ltac:(lia)). rewrite F in Z. apply Rmult_integral in Z as [Z|Z]; auto.
  exfalso. apply (D i n); auto. lra.
Qed.
Lemma rsum_sq_0 n f : rsum n (fun k => f k * f k) = 0 -> forall k, (k < n)%nat -> f k = 0.
Proof.
  induction n; intros E k Hk; [lia|]. simpl in E.
  assert (P : 0 <= rsum n (fun k => f k * f k)).
  { clear. induction n; simpl; [lra|]. pose proof (Rle_0_sqr (f n)). unfold Rsqr in *. lra. }
  pose proof (Rle_0_sqr (f n)) as Q. unfold Rsqr in Q.
  destruct (Nat.eq_dec k n) as [->|]; [|apply IHn; [lra | lia]].
  assert (f n * f n = 0) by lra. apply Rmult_integral in H as [|]; auto.
Qed.
Lemma entry_column (f : pt -> R) (P : list pt) i : (i < length P)%nat -> entry (map (fun p => [f p]) P) i 0 = f (ptn P i).
Proof.
  intros Hi. unfold entry, ptn. rewrite (nth_indep _ [] [f (0, 0)]) by (now rewrite map_length).
  rewrite (map_nth (fun p => [f p])). reflexivity.
Qed.
Lemma shape_column (f : pt -> R) (P : list pt) : shape (length P) 1 (map (fun p => [f p]) P).
Proof. split; [apply map_length|]. rewrite Forall_forall. intros x Hx. apply in_map_iff in Hx as (p & <- & _). reflexivity. Qed.
Lemma npown_R (x : R) n : npown x n = x ^ n.
Proof. induction n; simpl; numRg; [auto|]. now rewrite IHn. Qed.
Lemma powers_shape (s : list R) n : shape n (length s) (map (fun i => raiseRowPower s i) (seq 0 n)).
Proof.
  split; [now rewrite map_length, seq_length|]. rewrite Forall_forall. intros x Hx. apply in_map_iff in Hx as (i & <- & _).
  unfold raiseRowPower. apply map_length.
Qed.
Lemma powers_entry (s : list R) n i j : (i < n)%nat -> (j < length s)%nat ->
  entry (map (fun i => raiseRowPower s i) (seq 0 n)) i j = nth j s 0 ^ i.
Proof.
  intros Hi Hj. unfold entry. rewrite (nth_indep _ [] (raiseRowPower s 0)) by (now rewrite map_length, seq_length).
  rewrite (map_nth (fun i => raiseRowPower s i)), seq_nth by auto. simpl plus. unfold raiseRowPower.
  rewrite (nth_indep _ 0 (npown 0 i)) by (now rewrite map_length). rewrite (map_nth (fun v => npown v i)). apply npown_R.
Qed.
(** bestFit, step by step. *)
Section BestFit.
  Variables (P : list pt) (s : list R) (M : list (list R)).
  Let n := length P.
  Hypothesis Hn : (0 < n)%nat.
  Hypothesis Ls : length s = n.
  Hypothesis SM : shape n n M.
  Let Tt := map (fun i => raiseRowPower s i) (seq 0 n).
  Let Tm := mkmat n n (fun i j => entry Tt j i).
  Let G := mkmat n n (prod_entry n Tt Tm).
  Lemma STt : shape n n Tt.
  Proof. unfold Tt. rewrite <- Ls at 2. apply powers_shape. Qed.
  Lemma ETm i r : (i < n)%nat -> (r < n)%nat -> entry Tm i r = nth i s 0 ^ r.
  Proof. intros Hi Hr. unfold Tm. rewrite entry_mkmat by auto. unfold Tt. apply powers_entry; auto. lia. Qed.
  Lemma bestFit_unfold : bestFit P M s =
    let* M1o := matrixInvert M in
    let* TtT1o := matrixInvert G in
    let* TtT1 := needMatrix TtT1o in
    let* step1 := multiply TtT1 Tt in
    let* M1 := needMatrix M1o in
    let* step2 := multiply M1 step1 in
    let* Cx := multiply step2 (pointXs P) in
    let* Cy := multiply step2 (pointYs P) in
    Ok (Cx, Cy).
  Proof.
    unfold bestFit, bestFitN. change (orLen 0 (length P)) with n. unfold formTMatrix.
    replace (orLen n (length s)) with n by (unfold orLen; now destruct n). fold Tt. rewrite (transpose_ok n n) by auto using STt. fold Tm. cbn [bind].
    destruct (matrixInvert M); auto. cbn [bind]. rewrite (multiply_ok n n n) by (auto using STt; apply shape_mkmat). reflexivity.
  Qed.
  (** What a successful run computes. *)
  Lemma bestFit_inv Cx Cy : bestFit P M s = Ok (Cx, Cy) ->
    exists M1 S1, matrixInvert M = Ok (Some M1) /\ inverse_of n Tm S1 /\ shape n n S1 /\ shape n n M1 /\
      shape n 1 Cx /\ shape n 1 Cy /\
      (forall c, (c < n)%nat -> entry Cx c 0 = mmul n (mmul n (entry M1) (entry S1)) (fun k _ => fst (ptn P k)) c 0%nat) /\
      (forall c, (c < n)%nat -> entry Cy c 0 = mmul n (mmul n (entry M1) (entry S1)) (fun k _ => snd (ptn P k)) c 0%nat).
  Proof.
    rewrite bestFit_unfold. intros E.
    apply bind_Ok in E as (M1o & EM & E). apply bind_Ok in E as (Go & EG & E). apply bind_Ok in E as (G1 & EG1 & E).
    destruct Go as [G1'|]; [|discriminate]. injection EG1 as ->.
    destruct (invert_sound n G G1 Hn (shape_mkmat _ _ _) EG) as (SG & _ & IG).
    rewrite (multiply_ok n n n) in E by auto using STt. cbn [bind] in E. set (S1 := mkmat n n (prod_entry n G1 Tt)) in *.
    apply bind_Ok in E as (M1 & EM1 & E). destruct M1o as [M1'|]; [|discriminate]. injection EM1 as ->.
    destruct (invert_sound n M M1 Hn SM EM) as (SM1 & _ & _).
    rewrite (multiply_ok n n n) in E by (auto; apply shape_mkmat). cbn [bind] in E.
    unfold pointXs, pointYs in E. rewrite (multiply_ok n n 1) in E by (auto using shape_mkmat; apply shape_column). cbn [bind] in E.
    rewrite (multiply_ok n n 1) in E by (auto using shape_mkmat; apply shape_column). cbn [bind] in E. injection E as <- <-.
    exists M1, S1. split; auto. split; [|split; [apply shape_mkmat|split; [auto|split; [apply shape_mkmat|split; [apply shape_mkmat|split]]]]].
    - apply left_right; auto; [unfold Tm; apply shape_mkmat|]. intros i j Hi Hj.
      transitivity (mmul n (mmul n (entry G1) (entry Tt)) (entry Tm) i j).
      + apply rsum_ext. intros k Hk. f_equal. unfold S1. now rewrite entry_mkmat.
      + rewrite mmul_assoc, <- (IG i j Hi Hj). apply rsum_ext. intros k Hk. f_equal. unfold G. now rewrite entry_mkmat.
    - intros c Hc. rewrite entry_mkmat by (auto; lia). apply rsum_ext. intros k Hk. rewrite entry_mkmat by auto.
      f_equal. apply entry_column. auto.
    - intros c Hc. rewrite entry_mkmat by (auto; lia). apply rsum_ext. intros k Hk. rewrite entry_mkmat by auto.
      f_equal. apply entry_column. auto.
  Qed.
  Hypothesis basis : forall c t, (c < n)%nat -> rsum n (fun r => t ^ r * entry M r c) = bernstein (n - 1) c t.
  Lemma interp (S1 M1 : list (list R)) (f g : nat -> R) : inverse_of n Tm S1 -> inverse_of n M M1 ->
    (forall c, (c < n)%nat -> g c = mmul n (mmul n (entry M1) (entry S1)) (fun k _ => f k) c 0%nat) ->
    forall i, (i < n)%nat -> bezier_at (n - 1) g (nth i s 0) = f i.
  Proof.
    intros IT IM Eg i Hi. unfold bezier_at. replace (S (n - 1)) with n by lia.
    set (F := fun (k _ : nat) => f k).
    transitivity (mmul n (mmul n (entry Tm) (entry M)) (mmul n (mmul n (entry M1) (entry S1)) F) i 0%nat).
    - apply rsum_ext. intros c Hc. rewrite Eg by auto. f_equal. rewrite <- basis by auto. apply rsum_ext. intros r Hr.
      now rewrite ETm.
    - rewrite mmul_assoc.
      transitivity (mmul n (entry Tm) (mmul n (entry S1) F) i 0%nat).
      + apply mmul_ext; auto. intros k Hk.
        rewrite (mmul_ext n (entry M) (entry M) _ (mmul n (entry M1) (mmul n (entry S1) F))); auto.
        2: { intros; apply mmul_assoc. }
        rewrite <- mmul_assoc. unfold mmul at 1.
        rewrite (rsum_ext n _ (fun j => (if Nat.eqb k j then 1 else 0) * mmul n (entry S1) F j 0%nat)).
        * now rewrite rsum_delta_l.
        * intros j Hj. f_equal. apply IM; auto.
      + rewrite <- mmul_assoc. unfold mmul at 1.
        rewrite (rsum_ext n _ (fun j => (if Nat.eqb i j then 1 else 0) * F j 0%nat)).
        * rewrite rsum_delta_l by auto. reflexivity.
        * intros j Hj. f_equal. apply IT; auto.
  Qed.
  Lemma bestFit_interpolates Cx Cy : bestFit P M s = Ok (Cx, Cy) ->
    shape n 1 Cx /\ shape n 1 Cy /\
    forall i, (i < n)%nat -> bezier_at (n - 1) (fun c => entry Cx c 0) (nth i s 0) = fst (ptn P i) /\
                             bezier_at (n - 1) (fun c => entry Cy c 0) (nth i s 0) = snd (ptn P i).
  Proof.
    intros E. destruct (bestFit_inv Cx Cy E) as (M1 & S1 & EM & IT & _ & _ & SX & SY & EX & EY).
    destruct (invert_sound n M M1 Hn SM EM) as (_ & IM & _).
    split; auto. split; auto. intros i Hi. split.
    - apply (interp S1 M1 (fun k => fst (ptn P k))); auto.
    - apply (interp S1 M1 (fun k => snd (ptn P k))); auto.
  Qed.
  Hypothesis distinct : forall i j, (i < j)%nat -> (j < n)%nat -> nth i s 0 <> nth j s 0.
  Hypothesis lower : forall i j, (i < j)%nat -> (j < n)%nat -> entry M i j = 0.
  Hypothesis diag : forall i, (i < n)%nat -> entry M i i <> 0.
  Lemma G_regular : ~ singular n G.
  Proof.
    intros (v & (k & Hk & Nk) & K). apply Nk.
    (* T v = 0 *)
    assert (Tv : forall i, (i < n)%nat -> rsum n (fun r => entry Tm i r * v r) = 0).
    { apply (rsum_sq_0 n (fun i => rsum n (fun r => entry Tm i r * v r))).
      transitivity (rsum n (fun i => v i * rsum n (fun k => entry G i k * v k))).
      - transitivity (rsum n (fun i => rsum n (fun r => v r * entry Tt r i * rsum n (fun r => entry Tm i r * v r)))).
        + apply rsum_ext. intros i Hi. rewrite <- rsum_scal_r. apply rsum_ext. intros r Hr. unfold Tm at 1. rewrite entry_mkmat by auto. ring.
        + rewrite rsum_swap. apply rsum_ext. intros r Hr.
          rewrite (rsum_ext n _ (fun i => v r * (entry Tt r i * rsum n (fun r0 => entry Tm i r0 * v r0)))) by (intros; ring).
          rewrite rsum_scal. f_equal.
          change (mmul n (entry Tt) (mmul n (entry Tm) (fun k _ => v k)) r 0%nat = rsum n (fun k => entry G r k * v k)).
          rewrite <- mmul_assoc. apply rsum_ext. intros j Hj. f_equal. unfold G. now rewrite entry_mkmat.
      - apply rsum_0. intros i Hi. rewrite K by auto. ring. }
    apply (many_roots n v (fun i => nth i s 0)); auto. intros i Hi. etransitivity; [|exact (Tv i Hi)]. apply rsum_ext.
    intros r Hr. now rewrite ETm.
  Qed.
  Lemma M_regular : ~ singular n M.
  Proof.
    intros (v & (k & Hk & Nk) & K). apply Nk. clear Nk. induction k as [k IH] using lt_wf_ind.
    specialize (K k Hk). rewrite (rsum_split n k) in K by auto. rewrite rsum_0 in K.
    - rewrite Rplus_0_r in K. apply Rmult_integral in K as [K|K]; auto. exfalso. apply (diag k); auto.
    - intros j Hj. destruct (Nat.eqb_spec j k); auto. destruct (Nat.lt_ge_cases j k).
      + rewrite IH by (auto; lia). ring.
      + rewrite lower by lia. ring.
  Qed.
  Lemma bestFit_succeeds : exists c, bestFit P M s = Ok c.
  Proof.
    rewrite bestFit_unfold.
    destruct (invert_complete n M Hn SM) as (o & EM & Ko). rewrite EM. cbn [bind].
    destruct o as [M1|]; [|exfalso; apply M_regular; auto].
    destruct (invert_sound n M M1 Hn SM EM) as (SM1 & _ & _).
    destruct (invert_complete n G Hn (shape_mkmat _ _ _)) as (o' & EG & Ko'). rewrite EG. cbn [bind].
    destruct o' as [G1|]; [|exfalso; apply G_regular; auto]. cbn [needMatrix bind].
    destruct (invert_sound n G G1 Hn (shape_mkmat _ _ _) EG) as (SG & _ & _).
    rewrite (multiply_ok n n n) by auto using STt. cbn [bind].
    rewrite (multiply_ok n n n) by (auto; apply shape_mkmat). cbn [bind].
    unfold pointXs, pointYs. rewrite (multiply_ok n n 1) by (auto using shape_mkmat; apply shape_column). cbn [bind].
    rewrite (multiply_ok n n 1) by (auto using shape_mkmat; apply shape_column). cbn [bind].
    eexists; reflexivity.
  Qed.
End BestFit.
Lemma times_length (p : list pt) b s : p <> [] -> computeTimeValues p b = Ok s -> length s = length p.
Proof.
  intros Np. unfold computeTimeValues, computeTimeValuesN; change (orLen 0 (length p)) with (length p); cbv zeta. destruct b.
  - rewrite chordLengths_ok by auto. cbn [bind]. intros E. apply bind_Ok in E as (len & _ & E). apply mapM_length in E.
    now rewrite map_length, seq_length in E.
  - intros E. apply mapM_length in E. now rewrite seq_length in E.
Qed.
Lemma basis_diag n i : (i < n)%nat -> bentry n i i <> 0.
Proof.
  intros Hi. unfold bentry. destruct (Nat.ltb_spec i i); [lia|]. rewrite sgn_even, C_nn, !Rmult_1_l.
  unfold Binomial.C. apply Rmult_integral_contrapositive_currified; [apply INR_fact_neq_0|].
  apply Rinv_neq_0_compat, Rmult_integral_contrapositive_currified; apply INR_fact_neq_0.
Qed.
Theorem fit_interpolates lut (P : list pt) b lut' m s Cx Cy : good_lut lut -> fit lut P b = Ok (lut', (m, s, (Cx, Cy))) ->
  good_lut lut' /\ length s = length P /\ shape (length P) 1 Cx /\ shape (length P) 1 Cy /\
  forall i, (i < length P)%nat ->
    bezier_at (length P - 1) (fun c => entry Cx c 0) (nth i s 0) = fst (ptn P i) /\
    bezier_at (length P - 1) (fun c => entry Cy c 0) (nth i s 0) = snd (ptn P i).
Proof.
  intros G E. unfold fit in E. destruct (basisMatrix_full lut (length P) G) as (lut1 & m1 & EB & G1 & _ & SM & _ & BM).
  rewrite EB in E. cbn [bind] in E. apply bind_Ok in E as (s1 & ES & E). apply bind_Ok in E as ([cx cy] & EC & E).
  injection E as <- <- <- <- <-. split; auto.
  destruct P as [|x P].
  - exfalso. destruct b.
    + cbn in ES. rewrite ndivR0 in ES. discriminate.
    + injection ES as <-. cbn in EC. discriminate.
  - assert (Ls : length s1 = length (x :: P)) by (apply (times_length _ b); [discriminate | auto]).
    split; auto. apply (bestFit_interpolates (x :: P) s1 m1); auto. simpl; lia.
Qed.
Lemma mono_distinct (s : list R) n : (forall i, (S i < n)%nat -> nth i s 0 < nth (S i) s 0) ->
  forall i j, (i < j)%nat -> (j < n)%nat -> nth i s 0 < nth j s 0.
Proof.
  intros M i j Hij. induction Hij as [|j Hij IH]; intros Hj; [apply M; auto|].
  apply (Rlt_trans _ (nth j s 0)); [apply IH; lia | apply M; auto].
Qed.
Theorem fit_succeeds lut (P : list pt) b : good_lut lut -> (2 <= length P)%nat ->
  (b = true -> forall i, (S i < length P)%nat -> ptn P i <> ptn P (S i)) ->
  exists r, fit lut P b = Ok r.
Proof.
  intros G L D. unfold fit. destruct (basisMatrix_spec lut (length P) G) as (lut1 & m1 & EB & G1 & _ & SM & BM).
  rewrite EB. cbn [bind].
  assert (X : exists s, computeTimeValues P b = Ok s /\ length s = length P /\
     forall i, (S i < length P)%nat -> nth i s 0 < nth (S i) s 0).
  { destruct b.
    - destruct (times_polygonal P) as (s & E & Ls & _ & _ & _ & St & _).
      + exists 1%nat. split; [lia|]. intros K. apply (D eq_refl 0%nat); auto.
      + exists s. split; auto. split; auto. intros i Hi. apply St; auto.
    - destruct (times_uniform P) as [_ E]. specialize (E L). eexists; split; [exact E|].
      split; [now rewrite map_length, seq_length|]. intros i Hi.
      set (f := fun i => INR i / _).
      rewrite !(nth_indep _ 0 (f 0%nat)) by (rewrite map_length, seq_length; lia).
      rewrite !(map_nth f), !seq_nth by lia. unfold f. apply Rmult_lt_compat_r.
      + apply Rinv_0_lt_compat, lt_0_INR. lia.
      + apply lt_INR. lia. }
  destruct X as (s & -> & Ls & M). cbn [bind].
  destruct (bestFit_succeeds P s m1) as ([cx cy] & ->).
  - lia.
  - auto.
  - exact SM.
  - intros i j Hij Hj. pose proof (mono_distinct s (length P) M i j Hij Hj). lra.
  - intros i j Hij Hj. rewrite BM by lia. unfold bentry. destruct (Nat.ltb_spec i j); auto; lia.
  - intros i Hi. rewrite BM by auto. now apply basis_diag.
  - cbn [bind]. eexists; reflexivity.
Qed.
Theorem fit_parameters lut (P : list pt) b lut' m s Cx Cy : fit lut P b = Ok (lut', (m, s, (Cx, Cy))) -> computeTimeValues P b = Ok s.
Proof.
  unfold fit. intros E. apply bind_Ok in E as ([l1 m1] & _ & E). apply bind_Ok in E as (s1 & ES & E). apply bind_Ok in E as (c & _ & E).
  injection E as _ _ E _. subst. exact ES.
Qed.
End Times.
