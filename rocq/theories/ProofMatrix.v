(** Proofs about MatrixInversion.py and the matrix functions of CurveFitting.py. *)
From Coq Require Import List ZArith Bool Reals Lra Lia.
From Verif Require Import Py Inst SpecMatrix MTransform MMatrix MCurveFit.
Import ListNotations.
Local Open Scope nat_scope.

(** ** List updates *)
Section Upd.
  Context {A : Type}.
  Lemma upd_length (l : list A) i v : length (upd l i v) = length l.
  Proof. revert i; induction l as [|x l IH]; intros [|i]; simpl; auto. Qed.
  Lemma nth_upd (l : list A) i v j d : i < length l -> nth j (upd l i v) d = if Nat.eqb j i then v else nth j l d.
  Proof.
    revert i j; induction l as [|x l IH]; intros [|i] [|j]; simpl; intros L; try lia; auto.
    apply IH; lia.
  Qed.
  Lemma Forall_upd (P : A -> Prop) l i v : Forall P l -> P v -> Forall P (upd l i v).
  Proof. intros F; revert i; induction F; intros [|i] Hv; simpl; constructor; auto. Qed.
End Upd.

Section Shape.
  Context {T : Type} `{NumOps T}.
  Lemma shape_row (r c : nat) (M : list (list T)) i : shape r c M -> i < r -> length (nth i M []) = c.
  Proof.
    intros [L F] Hi. rewrite Forall_forall in F. apply F. apply nth_In. lia.
  Qed.
  Lemma shape_mset r c M i j (v : T) : shape r c M -> i < r -> shape r c (mset M i j v).
  Proof.
    intros S Hi. pose proof (shape_row r c M i S Hi) as Lr. destruct S as [L F]. split; unfold mset; [now rewrite upd_length|].
    apply Forall_upd; auto. now rewrite upd_length.
  Qed.
  Lemma mget_mset r c M i j (v : T) i' j' : shape r c M -> i < r -> j < c ->
    mget (mset M i j v) i' j' = if Nat.eqb i' i && Nat.eqb j' j then v else mget M i' j'.
  Proof.
    intros S Hi Hj. pose proof (shape_row r c M i S Hi) as Lr. destruct S as [L F]. unfold mget, mset.
    rewrite nth_upd by lia. destruct (Nat.eqb_spec i' i); simpl; auto. subst.
    rewrite nth_upd by lia. destruct (Nat.eqb j' j); auto.
  Qed.
  Lemma shape_ext (r c : nat) (M N : matrix T) : shape r c M -> shape r c N ->
    (forall i j, i < r -> j < c -> mget M i j = mget N i j) -> M = N.
  Proof.
    intros SM SN E. apply (nth_ext _ _ [] []); [destruct SM, SN; congruence|].
    intros i Hi. assert (i < r) by (destruct SM; lia).
    apply (nth_ext _ _ (nofZ 0) (nofZ 0)); [rewrite (shape_row r c M), (shape_row r c N); auto|].
    intros j Hj. rewrite (shape_row r c M) in Hj by auto. apply E; auto.
  Qed.

  (** A loop over columns whose body rewrites column [j] from column [j]. *)
  Lemma column_loop n (step : matrix T -> nat -> matrix T) (g : nat -> (nat -> T) -> T) :
    (forall M j, shape n n M -> j < n -> shape n n (step M j) /\
       forall i' j', i' < n -> j' < n -> mget (step M j) i' j' = if Nat.eqb j' j then g i' (fun r => mget M r j) else mget M i' j') ->
    (forall i f f', i < n -> (forall r, r < n -> f r = f' r) -> g i f = g i f') ->
    forall M, shape n n M -> forall k, k <= n ->
    shape n n (fold_left step (seq 0 k) M) /\
    forall i j, i < n -> j < n -> mget (fold_left step (seq 0 k) M) i j =
      if Nat.ltb j k then g i (fun r => mget M r j) else mget M i j.
  Proof.
    intros K G M SM. induction k as [|k IH]; intros Hk.
    - split; auto.
    - destruct IH as [S1 E]; [lia|]. rewrite seq_S, fold_left_app. simpl.
      destruct (K (fold_left step (seq 0 k) M) k S1) as [S2 E']; [lia|]. split; auto.
      intros i j Hi Hj. rewrite E' by auto. destruct (Nat.eqb_spec j k) as [->|N].
      + destruct (Nat.ltb_spec k (S k)); [|lia]. apply G; auto. intros r Hr. rewrite E by lia.
        destruct (Nat.ltb_spec k k); [lia | auto].
      + rewrite E by auto. destruct (Nat.ltb_spec j k), (Nat.ltb_spec j (S k)); auto; lia.
  Qed.
  Lemma column_loop_full n step g : 
    (forall M j, shape n n M -> j < n -> shape n n (step M j) /\
       forall i' j', i' < n -> j' < n -> mget (step M j) i' j' = if Nat.eqb j' j then g i' (fun r => mget M r j) else mget M i' j') ->
    (forall i f f', i < n -> (forall r, r < n -> f r = f' r) -> g i f = g i f') ->
    forall M : matrix T, shape n n M ->
    shape n n (fold_left step (seq 0 n) M) /\
    forall i j, i < n -> j < n -> mget (fold_left step (seq 0 n) M) i j = g i (fun r => mget M r j).
  Proof.
    intros K G M S. destruct (column_loop n step g K G M S n (le_n n)) as [A B]. split; auto.
    intros i j Hi Hj. rewrite B by auto. destruct (Nat.ltb_spec j n); auto; lia.
  Qed.
  Lemma fold_pair {A} (f g : matrix T -> A -> matrix T) (h : CI T -> A -> CI T) l C I :
    (forall C I a, h (C, I) a = (f C a, g I a)) ->
    fold_left h l (C, I) = (fold_left f l C, fold_left g l I).
  Proof. intros E. revert C I; induction l; intros; simpl; auto. rewrite E. auto. Qed.

  (** The three row operations. *)
  Definition rowop (n : nat) (g : nat -> (nat -> T) -> T) (M M' : matrix T) : Prop :=
    shape n n M' /\ forall i j, i < n -> j < n -> mget M' i j = g i (fun r => mget M r j).
  Definition gswap (i ii : nat) (r : nat) (f : nat -> T) : T :=
    if Nat.eqb r i then f ii else if Nat.eqb r ii then f i else f r.
  Definition gscale (i : nat) (e : T) (r : nat) (f : nat -> T) : T :=
    if Nat.eqb r i then nquot (f i) e else f r.
  Definition gsub (i ii : nat) (e : T) (r : nat) (f : nat -> T) : T :=
    if Nat.eqb r ii then nsub (f ii) (nmul e (f i)) else f r.

  Lemma swap_rowop n i ii C I : i < n -> ii < n -> i <> ii -> shape n n C -> shape n n I ->
    rowop n (gswap i ii) C (fst (swapRows n i ii (C, I))) /\ rowop n (gswap i ii) I (snd (swapRows n i ii (C, I))).
  Proof.
    intros Hi Hii N SC SI. unfold swapRows, rowop.
    set (f := fun (M : matrix T) j => mset (mset M i j (mget M ii j)) ii j (mget M i j)).
    rewrite (fold_pair f f) by reflexivity. cbn [fst snd].
    assert (K : forall M, shape n n M -> shape n n (fold_left f (seq 0 n) M) /\
      forall i0 j, i0 < n -> j < n -> mget (fold_left f (seq 0 n) M) i0 j = gswap i ii i0 (fun r => mget M r j)).
    { apply column_loop_full.
      - intros M j S Hj. unfold f. assert (S1 : shape n n (mset M i j (mget M ii j))) by (apply shape_mset; auto).
        split; [apply shape_mset; auto|]. intros i' j' Hi' Hj'. rewrite (mget_mset n n) by auto.
        rewrite (mget_mset n n) by auto. unfold gswap.
        destruct (Nat.eqb_spec i' ii), (Nat.eqb_spec j' j), (Nat.eqb_spec i' i); simpl; subst; auto; congruence.
      - intros i0 a b Hi0 E. unfold gswap. destruct (Nat.eqb i0 i); auto. destruct (Nat.eqb i0 ii); auto. }
    split; apply K; auto.
  Qed.
  Lemma scale_rowop n i e C I : i < n -> shape n n C -> shape n n I ->
    rowop n (gscale i e) C (fst (scaleRow n i e (C, I))) /\ rowop n (gscale i e) I (snd (scaleRow n i e (C, I))).
  Proof.
    intros Hi SC SI. unfold scaleRow, rowop.
    set (f := fun (M : matrix T) j => mset M i j (nquot (mget M i j) e)).
    rewrite (fold_pair f f) by reflexivity. cbn [fst snd].
    assert (K : forall M, shape n n M -> shape n n (fold_left f (seq 0 n) M) /\
      forall i0 j, i0 < n -> j < n -> mget (fold_left f (seq 0 n) M) i0 j = gscale i e i0 (fun r => mget M r j)).
    { apply column_loop_full.
      - intros M j S Hj. unfold f. split; [apply shape_mset; auto|]. intros i' j' Hi' Hj'. rewrite (mget_mset n n) by auto.
        unfold gscale. destruct (Nat.eqb_spec i' i), (Nat.eqb_spec j' j); simpl; subst; auto.
      - intros i0 a b Hi0 E. unfold gscale. destruct (Nat.eqb i0 i); auto. f_equal; auto. }
    split; apply K; auto.
  Qed.
  Lemma sub_rowop n i ii e C I : i < n -> ii < n -> i <> ii -> shape n n C -> shape n n I ->
    rowop n (gsub i ii e) C (fst (subRow n i ii e (C, I))) /\ rowop n (gsub i ii e) I (snd (subRow n i ii e (C, I))).
  Proof.
    intros Hi Hii N SC SI. unfold subRow, rowop.
    set (f := fun (M : matrix T) j => mset M ii j (nsub (mget M ii j) (nmul e (mget M i j)))).
    rewrite (fold_pair f f) by reflexivity. cbn [fst snd].
    assert (K : forall M, shape n n M -> shape n n (fold_left f (seq 0 n) M) /\
      forall i0 j, i0 < n -> j < n -> mget (fold_left f (seq 0 n) M) i0 j = gsub i ii e i0 (fun r => mget M r j)).
    { apply column_loop_full.
      - intros M j S Hj. unfold f. split; [apply shape_mset; auto|]. intros i' j' Hi' Hj'. rewrite (mget_mset n n) by auto.
        unfold gsub. destruct (Nat.eqb_spec i' ii), (Nat.eqb_spec j' j); simpl; subst; auto.
      - intros i0 a b Hi0 E. unfold gsub. destruct (Nat.eqb i0 ii); auto. f_equal; auto. f_equal; auto. }
    split; apply K; auto.
  Qed.
  Definition shapes n (s : CI T) : Prop := shape n n (fst s) /\ shape n n (snd s).
  Lemma shapes_swap n i ii s : i < n -> ii < n -> i <> ii -> shapes n s -> shapes n (swapRows n i ii s).
  Proof. destruct s as [C I]. intros ? ? ? [? ?]. destruct (swap_rowop n i ii C I) as [[? _] [? _]]; auto. split; auto. Qed.
  Lemma shapes_scale n i e s : i < n -> shapes n s -> shapes n (scaleRow n i e s).
  Proof. destruct s as [C I]. intros ? [? ?]. destruct (scale_rowop n i e C I) as [[? _] [? _]]; auto. split; auto. Qed.
  Lemma shapes_sub n i ii e s : i < n -> ii < n -> i <> ii -> shapes n s -> shapes n (subRow n i ii e s).
  Proof. destruct s as [C I]. intros ? ? ? [? ?]. destruct (sub_rowop n i ii e C I) as [[? _] [? _]]; auto. split; auto. Qed.

  (** Any property of the pair preserved by the row operations survives the whole elimination. *)
  Lemma findSwap_ind (P : CI T -> Prop) n i s : forall iis,
    (forall ii, In ii iis -> P (swapRows n i ii s)) -> P s -> P (findSwap n i iis s).
  Proof.
    induction iis as [|ii iis IH]; simpl; auto. intros K Hs. destruct (negb _); auto.
  Qed.
  Lemma fold_ind {A S} (P : S -> Prop) (f : S -> A -> S) l s :
    P s -> (forall s a, In a l -> P s -> P (f s a)) -> P (fold_left f l s).
  Proof. revert s; induction l; simpl; auto. Qed.
  Lemma eliminate_ind (P : CI T -> Prop) n i s :
    (forall s ii e, ii < n -> ii <> i -> P s -> P (subRow n i ii e s)) -> P s -> P (eliminate n i s).
  Proof.
    intros K Hs. unfold eliminate. apply fold_ind; auto. intros s' ii Hii Hs'. apply in_seq in Hii.
    destruct (Nat.eqb_spec ii i); auto. apply K; auto; lia.
  Qed.
  Lemma pivotStep_ind (P : CI T -> Prop) n i s s' : i < n ->
    (forall s ii e, ii < n -> ii <> i -> P s -> P (subRow n i ii e s)) ->
    (forall s e, neqb e (nofZ 0) = false -> P s -> P (scaleRow n i e s)) ->
    (forall s ii, ii < n -> ii <> i -> P s -> P (swapRows n i ii s)) ->
    P s -> pivotStep n i s = Some s' -> P s'.
  Proof.
    intros Hi Ksub Kscale Kswap Hs. unfold pivotStep.
    destruct (neqb (mget (fst s) i i) (nofZ 0)) eqn:E0.
    - set (s1 := findSwap _ _ _ _).
      assert (H1 : P s1).
      { apply findSwap_ind; auto. intros ii Hii. apply in_seq in Hii. apply Kswap; auto; lia. }
      destruct (neqb (mget (fst s1) i i) (nofZ 0)) eqn:E1; [discriminate|]. intros E; injection E as <-.
      apply eliminate_ind; auto.
    - intros E; injection E as <-. apply eliminate_ind; auto.
  Qed.
  Lemma pivotLoop_ind (P : CI T -> Prop) n : 
    (forall i s ii e, i < n -> ii < n -> ii <> i -> P s -> P (subRow n i ii e s)) ->
    (forall i s e, i < n -> neqb e (nofZ 0) = false -> P s -> P (scaleRow n i e s)) ->
    (forall i s ii, i < n -> ii < n -> ii <> i -> P s -> P (swapRows n i ii s)) ->
    forall is s s', (forall i, In i is -> i < n) -> P s -> pivotLoop n is s = Some s' -> P s'.
  Proof.
    intros Ksub Kscale Kswap. induction is as [|i is IH]; simpl; intros s s' B Hs E; [injection E as <-; auto|].
    destruct (pivotStep n i s) as [s1|] eqn:E1; [|discriminate]. apply (IH s1); auto.
    apply (pivotStep_ind P n i s s1); auto.
  Qed.
  Lemma shapes_pivotLoop n is s s' : (forall i, In i is -> i < n) -> shapes n s -> pivotLoop n is s = Some s' -> shapes n s'.
  Proof.
    apply pivotLoop_ind; auto using shapes_scale; intros.
    - apply shapes_sub; auto. - apply shapes_swap; auto.
  Qed.
  Lemma identity_shape n : shape n n (identityRows n).
  Proof.
    unfold identityRows. split; [now rewrite map_length, seq_length|]. rewrite Forall_forall.
    intros r Hr. apply in_map_iff in Hr as (i & <- & _). now rewrite map_length, seq_length.
  Qed.
  Lemma identity_entry n i j : i < n -> j < n -> mget (identityRows n) i j = if Nat.eqb i j then nofZ 1 else nofZ 0.
  Proof.
    intros Hi Hj. unfold mget, identityRows.
    set (f := fun row => _). rewrite (nth_indep _ [] (f 0)) by (rewrite map_length, seq_length; auto).
    rewrite map_nth, seq_nth by auto. unfold f. simpl plus.
    set (g := fun col => _). rewrite (nth_indep _ (nofZ 0) (g 0)) by (rewrite map_length, seq_length; auto).
    rewrite map_nth, seq_nth by auto. reflexivity.
  Qed.
  Lemma copy_entry (M : matrix T) n C : copyRows M n = Ok C -> shape n n C /\ forall i j, i < n -> j < n -> mget C i j = mget M i j.
  Proof.
    unfold copyRows. intros E. pose proof (mapM_length _ _ _ E) as L. rewrite seq_length in L.
    apply mapM_Ok in E. split; [split; auto|].
    - assert (G : forall l1 l2, Forall2 (fun row b => mapM (fun col => let* r := idx M row in idx r col) (seq 0 n) = Ok b) l1 l2 ->
                  Forall (fun row => length row = n) l2).
      { induction 1 as [|x y l1 l2 Hx F IH]; constructor; auto. apply mapM_length in Hx. now rewrite seq_length in Hx. }
      eapply G; eauto.
    - intros i j Hi Hj.
      assert (R : forall k l1 l2, Forall2 (fun row b => mapM (fun col => let* r := idx M row in idx r col) (seq 0 n) = Ok b) l1 l2 ->
                  k < length l1 -> mapM (fun col => let* r := idx M (nth k l1 0) in idx r col) (seq 0 n) = Ok (nth k l2 [])).
      { induction k; intros l1 l2 F Hk; destruct F; simpl in *; try lia; auto. apply IHk; auto; lia. }
      specialize (R i _ _ E). rewrite seq_length, seq_nth in R by auto. specialize (R Hi). simpl in R.
      apply mapM_Ok in R.
      assert (R2 : forall k l1 l2, Forall2 (fun col b => (let* r := idx M i in idx r col) = Ok b) l1 l2 ->
                  k < length l1 -> (let* r := idx M i in idx r (nth k l1 0)) = Ok (nth k l2 (nofZ 0))).
      { induction k; intros l1 l2 F Hk; destruct F; simpl in *; try lia; auto. apply IHk; auto; lia. }
      specialize (R2 j _ _ R). rewrite seq_length, seq_nth in R2 by auto. specialize (R2 Hj). simpl in R2.
      unfold mget. apply bind_Ok in R2 as (r & Er & Ej). apply idx_Ok in Er, Ej.
      rewrite (nth_error_nth _ _ [] Er), (nth_error_nth _ _ (nofZ 0) Ej). auto.
  Qed.
  Lemma copy_square (M : matrix T) n : length M = n -> (forall r, In r M -> n <= length r) -> exists C, copyRows M n = Ok C.
  Proof.
    intros L F. unfold copyRows.
    exists (map (fun row => map (fun col => nth col (nth row M []) (nofZ 0)) (seq 0 n)) (seq 0 n)).
    apply mapM_Ok. assert (B : forall i, In i (seq 0 n) -> i < n) by (intros i Hi; apply in_seq in Hi; lia).
    assert (G : forall l, (forall i, In i l -> i < n) -> Forall2 (fun a b => mapM (fun col => let* r := idx M a in idx r col) (seq 0 n) = Ok b) l
        (map (fun row => map (fun col => nth col (nth row M []) (nofZ 0)) (seq 0 n)) l)).
    { induction l as [|i l IH]; intros Bl; simpl; constructor; [|apply IH; intros; apply Bl; simpl; auto].
      assert (Hi : i < n) by (apply Bl; simpl; auto).
      rewrite (idx_nth M i []) by lia. cbn [bind].
      assert (Ln : n <= length (nth i M [])) by (apply F, nth_In; lia).
      rewrite (mapM_ext _ (fun col => Ok (nth col (nth i M []) (nofZ 0)))).
      - clear. induction (seq 0 n); simpl; auto. rewrite IHl. auto.
      - intros c Hc. apply B in Hc. apply idx_nth. lia. }
    apply G, B.
  Qed.
  Lemma copy_short (M : matrix T) n i : i < n -> length (nth i M []) < n -> i < length M -> exists e, copyRows M n = Err e /\ e = IndexError.
  Proof.
    intros Hi Hs Hl. unfold copyRows.
    destruct (mapM _ (seq 0 n)) as [C|e] eqn:E.
    - exfalso. apply mapM_Ok in E.
      assert (R : exists b, mapM (fun col => let* r := idx M i in idx r col) (seq 0 n) = Ok b).
      { assert (G : forall l1 l2, Forall2 (fun row b => mapM (fun col => let* r := idx M row in idx r col) (seq 0 n) = Ok b) l1 l2 ->
                  In i l1 -> exists b, mapM (fun col => let* r := idx M i in idx r col) (seq 0 n) = Ok b).
        { induction 1; simpl; [tauto|]. intros [->|]; eauto. }
        eapply G; eauto. apply in_seq; lia. }
      destruct R as (b & R). rewrite (idx_nth M i []) in R by auto. cbn [bind] in R. apply mapM_Ok in R.
      assert (G : forall l1 l2, Forall2 (fun col b => idx (nth i M []) col = Ok b) l1 l2 -> ~ In (n - 1) l1).
      { induction 1; simpl; auto. intros [->|]; auto. rewrite idx_Err in H0 by lia. discriminate. }
      apply (G _ _ R). apply in_seq; lia.
    - exists e; split; auto. apply mapM_Err in E as (l1 & a & l2 & bs & _ & _ & E).
      apply mapM_Err in E as (l1' & a' & l2' & bs' & _ & _ & E). unfold idx in E. destruct (nth_error M a); cbn [bind] in E; [|congruence].
      destruct (nth_error l a'); congruence.
  Qed.

  (** C26 *)
  Theorem invert_shapes (M : matrix T) :
    (M = [] -> matrixInvert M = Err IndexError) /\
    (forall r0 rest, M = r0 :: rest ->
      (length M <> length r0 -> matrixInvert M = Ok None) /\
      (length M = length r0 ->
         ((exists r, In r M /\ length r < length r0) -> matrixInvert M = Err IndexError) /\
         ((forall r, In r M -> length r0 <= length r) ->
            matrixInvert M = Ok None \/ exists I, matrixInvert M = Ok (Some I) /\ shape (length M) (length M) I))).
  Proof.
    split; [intros ->; reflexivity|]. intros r0 rest E. subst M. set (M := r0 :: rest).
    unfold matrixInvert. change (idx M 0) with (Ok r0). cbn [bind]. split; [|intros L; split].
    - intros N. apply Nat.eqb_neq in N. now rewrite N.
    - intros (r & Hr & Ls). rewrite L, Nat.eqb_refl. cbn [negb].
      apply In_nth with (d := []) in Hr as (i & Hi & <-).
      destruct (copy_short M (length r0) i) as (e & -> & ->); auto. lia.
    - intros F. rewrite L, Nat.eqb_refl. cbn [negb].
      destruct (copy_square M (length r0) L F) as (C & EC). rewrite EC. cbn [bind].
      destruct (pivotLoop _ _ _) as [[C' I']|] eqn:EP; auto. right. exists I'; split; auto.
      apply copy_entry in EC as [SC _].
      apply (shapes_pivotLoop (length r0)) in EP; [apply EP| |].
      + intros i Hi; apply in_seq in Hi; lia.
      + split; cbn [fst snd]; auto. apply identity_shape.
  Qed.
End Shape.

(** ** Sums *)
Local Open Scope R_scope.
Lemma rsum_ext n f g : (forall k, (k < n)%nat -> f k = g k) -> rsum n f = rsum n g.
Proof. induction n; simpl; intros K; auto. rewrite IHn, K; auto. Qed.
Lemma rsum_0 n f : (forall k, (k < n)%nat -> f k = 0) -> rsum n f = 0.
Proof. induction n; simpl; intros K; auto. rewrite IHn, K by auto. ring. Qed.
Lemma rsum_plus n f g : rsum n (fun k => f k + g k) = rsum n f + rsum n g.
Proof. induction n; simpl; [ring|]. rewrite IHn; ring. Qed.
Lemma rsum_scal n c f : rsum n (fun k => c * f k) = c * rsum n f.
Proof. induction n; simpl; [ring|]. rewrite IHn; ring. Qed.
Lemma rsum_scal_r n c f : rsum n (fun k => f k * c) = rsum n f * c.
Proof. induction n; simpl; [ring|]. rewrite IHn; ring. Qed.
Lemma rsum_swap n m f : rsum n (fun i => rsum m (fun j => f i j)) = rsum m (fun j => rsum n (fun i => f i j)).
Proof.
  induction n; simpl; [symmetry; apply rsum_0; auto|]. rewrite IHn. symmetry. apply rsum_plus.
Qed.
Lemma rsum_delta n i f : (i < n)%nat -> rsum n (fun k => if Nat.eqb k i then f k else 0) = f i.
Proof.
  induction n; intros Hi; [lia|]. simpl. destruct (Nat.eqb_spec n i) as [->|N].
  - rewrite rsum_0; [ring|]. intros k Hk. destruct (Nat.eqb_spec k i); auto; lia.
  - rewrite IHn by lia. ring.
Qed.
Lemma rsum_split n i f : (i < n)%nat -> rsum n f = f i + rsum n (fun k => if Nat.eqb k i then 0 else f k).
Proof.
  intros Hi. rewrite <- (rsum_delta n i f Hi) at 1. rewrite <- rsum_plus. apply rsum_ext. intros k Hk.
  destruct (Nat.eqb k i); ring.
Qed.
Lemma rsum_delta_l n i f : (i < n)%nat -> rsum n (fun k => (if Nat.eqb i k then 1 else 0) * f k) = f i.
Proof.
  intros Hi. rewrite <- (rsum_delta n i f Hi). apply rsum_ext. intros k _. rewrite Nat.eqb_sym.
  destruct (Nat.eqb k i); ring.
Qed.
Lemma rsum_delta_r n i f : (i < n)%nat -> rsum n (fun k => f k * (if Nat.eqb k i then 1 else 0)) = f i.
Proof.
  intros Hi. rewrite <- (rsum_delta n i f Hi). apply rsum_ext. intros k _. destruct (Nat.eqb k i); ring.
Qed.

(** ** Row operations as linear maps *)
(** Square matrices as functions. *)
Definition mmul (n : nat) (A B : nat -> nat -> R) (i j : nat) : R := rsum n (fun k => A i k * B k j).
Lemma mmul_ext n A A' B B' i j : (forall k, (k < n)%nat -> A i k = A' i k) -> (forall k, (k < n)%nat -> B k j = B' k j) ->
  mmul n A B i j = mmul n A' B' i j.
Proof. intros EA EB. apply rsum_ext. intros k Hk. rewrite EA, EB; auto. Qed.
Lemma mmul_assoc n m A B C i j : mmul n (mmul m A B) C i j = mmul m A (mmul n B C) i j.
Proof.
  unfold mmul. rewrite (rsum_ext n _ (fun k => rsum m (fun l => A i l * B l k * C k j))).
  2: { intros k _. now rewrite <- rsum_scal_r. }
  rewrite rsum_swap. apply rsum_ext. intros l _. rewrite <- rsum_scal. apply rsum_ext. intros; ring.
Qed.

(** Left-linear row transformers commute with right multiplication. *)
Lemma gswap_mul n i ii A M r j : mmul n (fun r k => gswap i ii r (fun x => A x k)) M r j = gswap i ii r (fun x => mmul n A M x j).
Proof. unfold gswap, mmul. destruct (Nat.eqb r i); auto. destruct (Nat.eqb r ii); auto. Qed.
Lemma gscale_mul n i e A M r j : mmul n (fun r k => gscale i e r (fun x => A x k)) M r j = gscale i e r (fun x => mmul n A M x j).
Proof.
  unfold gscale, mmul; numRg. destruct (Nat.eqb r i); auto. unfold Rdiv. rewrite <- rsum_scal_r. apply rsum_ext. intros; ring.
Qed.
Lemma gsub_mul n i ii e A M r j : mmul n (fun r k => gsub i ii e r (fun x => A x k)) M r j = gsub i ii e r (fun x => mmul n A M x j).
Proof.
  unfold gsub, mmul; numRg. destruct (Nat.eqb r ii); auto. unfold Rminus. rewrite <- rsum_scal.
  rewrite <- (Rmult_1_l (rsum n (fun k => A ii k * M k j))), <- (rsum_scal n 1).
  replace (- rsum n (fun k => e * (A i k * M k j))) with (rsum n (fun k => - (e * (A i k * M k j)))).
  2: { rewrite <- (Rmult_1_l (rsum n (fun k => e * _))), Ropp_mult_distr_l, <- rsum_scal. apply rsum_ext; intros; ring. }
  rewrite <- rsum_plus. apply rsum_ext. intros; ring.
Qed.
(** Inverse operations on the columns of the left factor. *)
Lemma gswap_inv n i ii J C r j : (i < n)%nat -> (ii < n)%nat -> i <> ii ->
  mmul n (fun r k => gswap i ii k (fun x => J r x)) (fun k c => gswap i ii k (fun x => C x c)) r j = mmul n J C r j.
Proof.
  intros Hi Hii N. unfold mmul, gswap.
  set (f := fun k => J r k * C k j).
  rewrite (rsum_split n i _ Hi), (rsum_split n ii (fun k => if Nat.eqb k i then 0 else _) Hii).
  rewrite (rsum_split n i f Hi), (rsum_split n ii (fun k => if Nat.eqb k i then 0 else f k) Hii).
  rewrite !Nat.eqb_refl. destruct (Nat.eqb_spec ii i); [congruence|].
  rewrite (rsum_ext n (fun k => if Nat.eqb k ii then 0 else _) (fun k => if Nat.eqb k ii then 0 else if Nat.eqb k i then 0 else f k)).
  - unfold f; ring.
  - intros k Hk. destruct (Nat.eqb k ii); auto. destruct (Nat.eqb k i); auto.
Qed.
Definition hscale (i : nat) (e : R) (J : nat -> R) (k : nat) : R := if Nat.eqb k i then J i * e else J k.
Definition hsub (i ii : nat) (e : R) (J : nat -> R) (k : nat) : R := if Nat.eqb k i then J i + e * J ii else J k.
Lemma gscale_inv n i e J C r j : (i < n)%nat -> e <> 0 ->
  mmul n (fun r => hscale i e (J r)) (fun k c => gscale i e k (fun x => C x c)) r j = mmul n J C r j.
Proof.
  intros Hi N. unfold mmul, hscale, gscale; numRg. apply rsum_ext. intros k Hk.
  destruct (Nat.eqb_spec k i); auto. subst. field; auto.
Qed.
Lemma gsub_inv n i ii e J C r j : (i < n)%nat -> (ii < n)%nat -> i <> ii ->
  mmul n (fun r => hsub i ii e (J r)) (fun k c => gsub i ii e k (fun x => C x c)) r j = mmul n J C r j.
Proof.
  intros Hi Hii N. unfold mmul, hsub, gsub; numRg.
  set (f := fun k => J r k * C k j).
  rewrite (rsum_split n i _ Hi), (rsum_split n ii (fun k => if Nat.eqb k i then 0 else _) Hii).
  rewrite (rsum_split n i f Hi), (rsum_split n ii (fun k => if Nat.eqb k i then 0 else f k) Hii).
  rewrite !Nat.eqb_refl. destruct (Nat.eqb_spec ii i); [congruence|]. destruct (Nat.eqb_spec i ii); [congruence|].
  rewrite (rsum_ext n (fun k => if Nat.eqb k ii then 0 else _) (fun k => if Nat.eqb k ii then 0 else if Nat.eqb k i then 0 else f k)).
  - unfold f; ring.
  - intros k Hk. destruct (Nat.eqb_spec k ii); auto. destruct (Nat.eqb_spec k i); auto.
Qed.

(** ** The elimination invariant *)
Section Invert.
  Variable n : nat.
  Variable M : nat -> nat -> R.
  Definition idm (i j : nat) : R := if Nat.eqb i j then 1 else 0.
  Definition eqm (A B : nat -> nat -> R) : Prop := forall i j, (i < n)%nat -> (j < n)%nat -> A i j = B i j.
  Definition linv (s : CI R) : Prop :=
    shapes n s /\
    eqm (mmul n (mget (snd s)) M) (mget (fst s)) /\
    exists J, eqm (mmul n J (mget (fst s))) M /\ eqm (mmul n J (mget (snd s))) idm.

  Lemma linv_op (g : nat -> (nat -> R) -> R) (h : (nat -> R) -> nat -> R) s s' :
    (forall A X r j, mmul n (fun r k => g r (fun x => A x k)) X r j = g r (fun x => mmul n A X x j)) ->
    (forall r f f', (r < n)%nat -> (forall x, (x < n)%nat -> f x = f' x) -> g r f = g r f') ->
    (forall J C r j, mmul n (fun r => h (J r)) (fun k c => g k (fun x => C x c)) r j = mmul n J C r j) ->
    rowop n g (fst s) (fst s') -> rowop n g (snd s) (snd s') -> linv s -> linv s'.
  Proof.
    intros L X V [SC EC] [SI EI] (S & E & J & J1 & J2). split; [split; auto|]. split.
    - intros i j Hi Hj. rewrite EC by auto.
      rewrite (mmul_ext n _ (fun r k => g r (fun x => mget (snd s) x k)) M M); auto.
      rewrite L. apply X; auto.
    - exists (fun r => h (J r)). split; intros i j Hi Hj.
      + rewrite (mmul_ext n _ (fun r => h (J r)) _ (fun k c => g k (fun x => mget (fst s) x c))); auto.
        rewrite V. auto.
      + rewrite (mmul_ext n _ (fun r => h (J r)) _ (fun k c => g k (fun x => mget (snd s) x c))); auto.
        rewrite V. auto.
  Qed.
  Lemma linv_swap i ii s : (i < n)%nat -> (ii < n)%nat -> ii <> i -> linv s -> linv (swapRows n i ii s).
  Proof.
    intros Hi Hii N I. pose proof I as ([S1 S2] & _). destruct s as [C J]. destruct (swap_rowop n i ii C J) as [A B]; auto.
    apply (linv_op (gswap i ii) (fun J k => gswap i ii k J) (C, J)); auto.
    - intros; apply gswap_mul.
    - intros r f f' Hr E. unfold gswap. destruct (Nat.eqb r i); auto. destruct (Nat.eqb r ii); auto.
    - intros; apply gswap_inv; auto.
  Qed.
  Lemma linv_scale i e s : (i < n)%nat -> neqb e (nofZ 0) = false -> linv s -> linv (scaleRow n i e s).
  Proof.
    intros Hi N I. pose proof I as ([S1 S2] & _). destruct s as [C J]. destruct (scale_rowop n i e C J) as [A B]; auto.
    apply (linv_op (gscale i e) (hscale i e) (C, J)); auto.
    - intros; apply gscale_mul.
    - intros r f f' Hr E. unfold gscale. destruct (Nat.eqb r i); auto. now rewrite E.
    - intros; apply gscale_inv; auto. apply Reqb_false in N. exact N.
  Qed.
  Lemma linv_sub i ii e s : (i < n)%nat -> (ii < n)%nat -> ii <> i -> linv s -> linv (subRow n i ii e s).
  Proof.
    intros Hi Hii N I. pose proof I as ([S1 S2] & _). destruct s as [C J]. destruct (sub_rowop n i ii e C J) as [A B]; auto.
    apply (linv_op (gsub i ii e) (hsub i ii e) (C, J)); auto.
    - intros; apply gsub_mul.
    - intros r f f' Hr E. unfold gsub. destruct (Nat.eqb r ii); auto. now rewrite !E.
    - intros; apply gsub_inv; auto.
  Qed.

  (** Columns below [i] are unit columns. *)
  Definition ucols (i : nat) (s : CI R) : Prop :=
    forall r c, (r < n)%nat -> (c < n)%nat -> (c < i)%nat -> mget (fst s) r c = idm r c.

  (** Elimination of column [i], after rows below [k] are done. *)
  Lemma eliminate_col i s : (i < n)%nat -> linv s -> ucols i s -> mget (fst s) i i = 1 ->
    linv (eliminate n i s) /\ ucols (S i) (eliminate n i s).
  Proof.
    intros Hi L U P. unfold eliminate.
    assert (G : forall k, (k <= n)%nat -> let s' := fold_left (fun (s : CI R) ii =>
      if Nat.eqb ii i then s else let e := mget (fst s) ii i in subRow n i ii e s) (seq 0 k) s in
      linv s' /\ ucols i s' /\ mget (fst s') i i = 1 /\ forall r, (r < k)%nat -> r <> i -> mget (fst s') r i = 0).
    { induction k as [|k IH]; intros Hk; [cbv zeta; simpl fold_left; split; [|split; [|split]]; auto; intros; lia|].
      rewrite seq_S, fold_left_app. cbn [fold_left plus]. destruct IH as (L' & U' & P' & Z'); [lia|].
      set (s' := fold_left _ _ s) in *.
      cbv zeta. destruct (Nat.eqb_spec k i) as [->|N].
      - split; [|split; [|split]]; auto. intros r Hr Nr. apply Z'; auto; lia.
      - assert (Hk' : (k < n)%nat) by lia. pose proof L' as ([S1 S2] & _).
        split; [apply linv_sub; auto|]. destruct s' as [C I] eqn:Es. cbn [fst] in *.
        destruct (sub_rowop n i k (mget C k i) C I) as [[_ A] _]; auto.
        split; [|split].
        + intros r c Hr Hc Hci. rewrite A by auto. unfold gsub; numRg. destruct (Nat.eqb_spec r k) as [->|]; [|apply U'; auto].
          assert (E : mget C i c = 0). { pose proof (U' i c Hi Hc Hci) as E; cbn [fst] in E; rewrite E. unfold idm. destruct (Nat.eqb_spec i c); auto; lia. }
          pose proof (U' k c Hk' Hc Hci) as E2. cbn [fst] in E2. rewrite E, <- E2. ring.
        + rewrite A by auto. unfold gsub; numRg. destruct (Nat.eqb_spec i k); auto; congruence.
        + intros r Hr Nr. rewrite A by lia. unfold gsub; numRg. destruct (Nat.eqb_spec r k) as [->|]; [|apply Z'; auto; lia].
          rewrite P'. ring. }
    destruct (G n (le_n n)) as (L' & U' & P' & Z'). split; auto.
    intros r c Hr Hc Hci. destruct (Nat.eq_dec c i) as [->|]; [|apply U'; auto; lia].
    unfold idm. destruct (Nat.eqb_spec r i) as [->|]; auto.
  Qed.
  Lemma findSwap_spec i s : (i < n)%nat -> linv s -> ucols i s -> mget (fst s) i i = 0 ->
    forall iis, (forall ii, In ii iis -> (i < ii < n)%nat) ->
    let s' := findSwap n i iis s in
    linv s' /\ ucols i s' /\
    (mget (fst s') i i <> 0 \/ s' = s /\ forall ii, In ii iis -> mget (fst s) ii i = 0).
  Proof.
    intros Hi L U Z. induction iis as [|ii iis IH]; intros B; cbv zeta; cbn [findSwap]; numRg.
    - split; [|split]; auto. right; split; auto. intros ? [].
    - assert (Bii : (i < ii < n)%nat) by (apply B; simpl; auto). destruct (Reqb_spec (mget (fst s) ii i) 0) as [E|E]; cbn [negb].
      + destruct IH as (L' & U' & D); [intros; apply B; simpl; auto|]. split; [|split]; auto.
        destruct D as [D|[D1 D2]]; auto. right; split; auto. intros x [<-|Hx]; auto.
      + split; [apply linv_swap; auto; lia|]. pose proof L as ([S1 S2] & _). destruct s as [C I]. cbn [fst snd] in *.
        destruct (swap_rowop n i ii C I) as [[_ A] _]; auto; try lia. split.
        * intros r c Hr Hc Hci. rewrite A by lia. unfold gswap.
          pose proof (U i c Hi Hc Hci) as E1. assert (Hii : (ii < n)%nat) by lia. pose proof (U ii c Hii Hc Hci) as E2.
          cbn [fst] in E1, E2. unfold idm in *.
          destruct (Nat.eqb_spec r i) as [->|]; [|destruct (Nat.eqb_spec r ii) as [->|]; [|apply U; auto]].
          -- rewrite E2. destruct (Nat.eqb_spec ii c), (Nat.eqb_spec i c); auto; lia.
          -- rewrite E1. destruct (Nat.eqb_spec ii c), (Nat.eqb_spec i c); auto; lia.
        * left. rewrite A by lia. unfold gswap. rewrite Nat.eqb_refl. exact E.
  Qed.
  Definition kernel (A : nat -> nat -> R) : Prop :=
    exists v : nat -> R, (exists k, (k < n)%nat /\ v k <> 0) /\ forall i, (i < n)%nat -> rsum n (fun k => A i k * v k) = 0.
  (** A zero pivot column gives a kernel vector of C, hence of M. *)
  Lemma stuck_kernel i s : (i < n)%nat -> linv s -> ucols i s ->
    (forall r, (i <= r < n)%nat -> mget (fst s) r i = 0) -> kernel M.
  Proof.
    intros Hi (_ & _ & J & J1 & _) U Z. set (C := mget (fst s)) in *.
    set (v := fun k => if Nat.ltb k i then - C k i else if Nat.eqb k i then 1 else 0).
    exists v. split.
    - exists i; split; auto. unfold v. destruct (Nat.ltb_spec i i); [lia|]. rewrite Nat.eqb_refl. lra.
    - assert (CV : forall r, (r < n)%nat -> rsum n (fun k => C r k * v k) = 0).
      { intros r Hr. rewrite (rsum_split n i _ Hi).
        rewrite (rsum_ext n _ (fun k => if Nat.eqb k r then (if Nat.ltb k i then - C k i else 0) else 0)).
        - rewrite rsum_delta by auto. unfold v. destruct (Nat.ltb_spec i i); [lia|]. rewrite Nat.eqb_refl.
          destruct (Nat.ltb_spec r i); [ring|]. rewrite Z by lia. ring.
        - intros k Hk. unfold v. destruct (Nat.eqb_spec k i) as [->|Nk].
          + destruct (Nat.ltb_spec i i); [lia|]. destruct (Nat.eqb i r); auto.
          + destruct (Nat.ltb_spec k i).
            * unfold C. rewrite U by auto. unfold idm. rewrite Nat.eqb_sym. destruct (Nat.eqb_spec k r); [|ring]. subst; ring.
            * destruct (Nat.eqb k r); ring. }
      intros r Hr. rewrite (rsum_ext n _ (fun k => mmul n J C r k * v k)) by (intros; now rewrite <- J1).
      change (mmul n (mmul n J C) (fun k _ => v k) r 0%nat = 0). rewrite mmul_assoc. apply rsum_0.
      intros k Hk. unfold mmul. rewrite CV by auto. ring.
  Qed.
  Lemma pivotStep_spec i s : (i < n)%nat -> linv s -> ucols i s ->
    (pivotStep n i s = None -> kernel M) /\
    (forall s', pivotStep n i s = Some s' -> linv s' /\ ucols (S i) s').
  Proof.
    intros Hi L U. unfold pivotStep.
    assert (K : forall s e, linv s -> ucols i s -> e = mget (fst s) i i -> e <> 0 ->
                linv (eliminate n i (scaleRow n i e s)) /\ ucols (S i) (eliminate n i (scaleRow n i e s))).
    { clear s L U. intros s e L U He Ne. pose proof L as ([S1 S2] & _). apply eliminate_col; auto.
      - apply linv_scale; auto. apply Reqb_false; auto.
      - destruct s as [C I]. cbn [fst snd] in *. destruct (scale_rowop n i e C I) as [[_ A] _]; auto.
        intros r c Hr Hc Hci. rewrite A by auto. unfold gscale; numRg. destruct (Nat.eqb_spec r i) as [->|]; [|apply U; auto].
        pose proof (U i c Hi Hc Hci) as E1. cbn [fst] in E1. rewrite E1. unfold idm. destruct (Nat.eqb_spec i c); [lia|]. field; auto.
      - destruct s as [C I]. cbn [fst snd] in *. destruct (scale_rowop n i e C I) as [[_ A] _]; auto.
        rewrite A by auto. unfold gscale; numRg. rewrite Nat.eqb_refl, <- He. field; auto. }
    numRg. destruct (Reqb_spec (mget (fst s) i i) 0) as [E|E].
    - destruct (findSwap_spec i s Hi L U E (seq (i + 1) (n - (i + 1)))) as (L' & U' & D).
      { intros ii Hii; apply in_seq in Hii; lia. }
      set (s1 := findSwap _ _ _ _) in *. destruct (Reqb_spec (mget (fst s1) i i) 0) as [E1|E1].
      + split; [|discriminate]. intros _. destruct D as [D|[D1 D2]]; [contradiction|].
        apply (stuck_kernel i s); auto. intros r [Hr1 Hr2]. destruct (Nat.eq_dec r i) as [->|]; auto. apply D2. apply in_seq. lia.
      + split; [discriminate|]. intros s' Es; injection Es as <-. apply K; auto.
    - split; [discriminate|]. intros s' Es; injection Es as <-. apply K; auto.
  Qed.
  Lemma pivotLoop_spec : forall m i s, (i + m = n)%nat -> linv s -> ucols i s ->
    (pivotLoop n (seq i m) s = None -> kernel M) /\
    (forall s', pivotLoop n (seq i m) s = Some s' -> linv s' /\ ucols n s').
  Proof.
    induction m as [|m IH]; intros i s Hm L U; simpl.
    - split; [discriminate|]. intros s' E; injection E as <-. replace n with i by lia. auto.
    - destruct (pivotStep_spec i s ltac:(lia) L U) as [P1 P2].
      destruct (pivotStep n i s) as [s1|] eqn:E; [|split; [auto | discriminate]].
      destruct (P2 s1 eq_refl) as [L1 U1]. apply (IH (S i)); auto. lia.
  Qed.
End Invert.

Lemma mget_entry (M : list (list R)) i j : mget M i j = entry M i j.
Proof. reflexivity. Qed.
Lemma invert_run (n : nat) (M : list (list R)) : (0 < n)%nat -> shape n n M ->
  exists C, matrixInvert M = match pivotLoop n (seq 0 n) (C, identityRows n) with None => Ok None | Some (_, I') => Ok (Some I') end /\
    linv n (entry M) (C, identityRows n) /\ ucols n 0 (C, identityRows n).
Proof.
  intros Hn S. destruct (copy_square M n) as (C & EC); [apply S | |].
  { intros r Hr. destruct S as [L F]. rewrite Forall_forall in F. rewrite (F r); auto. }
  exists C. unfold matrixInvert. destruct S as [L F]. destruct M as [|r0 rest] eqn:EM; [simpl in L; lia|]. rewrite <- EM in *.
  assert (Lr : length r0 = n). { rewrite Forall_forall in F. apply F. rewrite EM; simpl; auto. }
  assert (I0 : idx M 0 = Ok r0) by (rewrite EM; reflexivity). rewrite I0. cbn [bind]. rewrite L, Lr, Nat.eqb_refl. cbn [negb].
  rewrite EC. cbn [bind]. split; [reflexivity|]. apply copy_entry in EC as [SC E]. split; [|intros r c _ _ Hc; lia].
  split; [split; cbn [fst snd]; auto; apply identity_shape|]. cbn [fst snd]. split.
  - intros i j Hi Hj. rewrite E by auto. unfold mmul.
    rewrite (rsum_ext n _ (fun k => (if Nat.eqb i k then 1 else 0) * entry M k j)).
    + rewrite rsum_delta_l by auto. reflexivity.
    + intros k Hk. rewrite identity_entry by auto. numRg. destruct (Nat.eqb i k); ring.
  - exists idm. unfold idm. split; intros i j Hi Hj; unfold mmul; rewrite (rsum_delta_l n i (fun k => mget _ k j)) by auto.
    + rewrite E by auto. reflexivity.
    + rewrite identity_entry by auto. numRg. reflexivity.
Qed.

(** C24 *)
Theorem invert_sound (n : nat) (M I : list (list R)) : (0 < n)%nat -> shape n n M -> matrixInvert M = Ok (Some I) ->
  shape n n I /\ inverse_of n M I /\ inverse_of n I M.
Proof.
  intros Hn S E. destruct (invert_run n M Hn S) as (C & R & L & U). rewrite R in E.
  destruct (pivotLoop_spec n (entry M) n 0 _ ltac:(lia) L U) as [_ P].
  destruct (pivotLoop n (seq 0 n) (C, identityRows n)) as [[C' I']|]; [|discriminate]. injection E as ->.
  destruct (P _ eq_refl) as ([ [SC SI] (A & J & J1 & J2)] & U'). cbn [fst snd] in *. split; auto.
  assert (JM : forall i k, (i < n)%nat -> (k < n)%nat -> J i k = entry M i k).
  { intros i k Hi Hk. rewrite <- J1 by auto. unfold mmul.
    rewrite (rsum_ext n _ (fun x => J i x * (if Nat.eqb x k then 1 else 0))).
    - now rewrite rsum_delta_r.
    - intros x Hx. f_equal. specialize (U' x k Hx Hk Hk). cbn [fst] in U'. exact U'. }
  split; intros i j Hi Hj.
  - change (mmul n (entry M) (entry I) i j = idm i j). rewrite <- J2 by auto. apply mmul_ext; auto.
    intros; symmetry; apply JM; auto.
  - change (mmul n (mget I) (entry M) i j = idm i j). rewrite A by auto.
    specialize (U' i j Hi Hj Hj). exact U'.
Qed.
(** C25 *)
Theorem invert_complete (n : nat) (M : list (list R)) : (0 < n)%nat -> shape n n M ->
  exists o, matrixInvert M = Ok o /\ (o = None -> singular n M).
Proof.
  intros Hn S. destruct (invert_run n M Hn S) as (C & R & L & U).
  destruct (pivotLoop_spec n (entry M) n 0 _ ltac:(lia) L U) as [P _].
  destruct (pivotLoop n (seq 0 n) (C, identityRows n)) as [[C' I']|]; rewrite R; eexists; split; try reflexivity.
  - discriminate.
  - intros _. apply P; auto.
Qed.
Lemma left_inverse_nonsingular n L M : inverse_of n L M -> ~ singular n M.
Proof.
  intros H (v & (k & Hk & Nk) & K). apply Nk.
  assert (E : mmul n (mmul n (entry L) (entry M)) (fun k _ => v k) k 0%nat = v k).
  { unfold mmul at 1. rewrite (rsum_ext n _ (fun j => (if Nat.eqb k j then 1 else 0) * v j)).
    - now apply rsum_delta_l.
    - intros j Hj. f_equal. apply H; auto. }
  rewrite <- E, mmul_assoc. apply rsum_0. intros j Hj. unfold mmul. rewrite K by auto. ring.
Qed.
Lemma left_inverse_found n L M : (0 < n)%nat -> shape n n M -> inverse_of n L M -> exists I, matrixInvert M = Ok (Some I).
Proof.
  intros Hn S H. destruct (invert_complete n M Hn S) as (o & E & K). destruct o as [I|]; eauto.
  exfalso. eapply left_inverse_nonsingular; eauto.
Qed.
(** For square matrices a left inverse is a right inverse. *)
Lemma left_right n A B : (0 < n)%nat -> shape n n B -> inverse_of n A B -> inverse_of n B A.
Proof.
  intros Hn S H. destruct (left_inverse_found n A B Hn S H) as (I & E).
  destruct (invert_sound n B I Hn S E) as (_ & H1 & _).
  assert (EA : forall i j, (i < n)%nat -> (j < n)%nat -> entry A i j = entry I i j).
  { intros i j Hi Hj.
    transitivity (mmul n (entry A) (mmul n (entry B) (entry I)) i j).
    - unfold mmul at 1. rewrite (rsum_ext n _ (fun k => entry A i k * (if Nat.eqb k j then 1 else 0))).
      + now rewrite rsum_delta_r.
      + intros k Hk. f_equal. apply H1; auto.
    - rewrite <- mmul_assoc. unfold mmul at 1. rewrite (rsum_ext n _ (fun k => (if Nat.eqb i k then 1 else 0) * entry I k j)).
      + now rewrite rsum_delta_l.
      + intros k Hk. f_equal. apply H; auto. }
  intros i j Hi Hj. rewrite <- (H1 i j Hi Hj). apply rsum_ext. intros k Hk. f_equal. apply EA; auto.
Qed.
Theorem invert_invertible (n : nat) (M X : list (list R)) : (0 < n)%nat -> shape n n M -> shape n n X ->
  inverse_of n M X \/ inverse_of n X M ->
  exists I, matrixInvert M = Ok (Some I) /\ forall i j, (i < n)%nat -> (j < n)%nat -> entry I i j = entry X i j.
Proof.
  intros Hn SM SX D.
  assert (HX : inverse_of n X M) by (destruct D as [D|D]; auto; apply (left_right n M X); auto).
  destruct (left_inverse_found n X M Hn SM HX) as (I & E). exists I; split; auto.
  destruct (invert_sound n M I Hn SM E) as (_ & H1 & _). intros i j Hi Hj.
  transitivity (mmul n (mmul n (entry X) (entry M)) (entry I) i j).
  - unfold mmul at 1. rewrite (rsum_ext n _ (fun k => (if Nat.eqb i k then 1 else 0) * entry I k j)).
    + now rewrite rsum_delta_l.
    + intros k Hk. f_equal. apply HX; auto.
  - rewrite mmul_assoc. unfold mmul at 1. rewrite (rsum_ext n _ (fun k => entry X i k * (if Nat.eqb k j then 1 else 0))).
    + now rewrite rsum_delta_r.
    + intros k Hk. f_equal. apply H1; auto.
Qed.
