(** Proofs for C147: inverse matrices, their algebra, and transforms undone by them. *)
From Coq Require Import List ZArith Bool Reals Lra Lia.
From Verif Require Import Py Inst SpecGeom SpecMatrix SpecTransform SpecUndo MTransform MMatrix MCurveFit ProofTransform ProofMatrix ProofFit.
Import ListNotations.
Local Open Scope R_scope.

Lemma invert_is n (M X : list (list R)) : (0 < n)%nat -> shape n n M -> shape n n X -> inverse_of n M X \/ inverse_of n X M -> matrixInvert M = Ok (Some X).
Proof.
  intros Hn SM SX H. destruct (invert_invertible n M X Hn SM SX H) as (I & E & En). rewrite E. do 2 f_equal.
  apply (mat_ext n n); auto. exact (proj1 (invert_sound n M I Hn SM E)).
Qed.
Theorem invert_twice n (M I : list (list R)) : (0 < n)%nat -> shape n n M -> matrixInvert M = Ok (Some I) -> matrixInvert I = Ok (Some M).
Proof. intros Hn SM E. destruct (invert_sound n M I Hn SM E) as (SI & H1 & H2). apply (invert_is n); auto. Qed.
Lemma times_inverse n (A B P : list (list R)) : (0 < n)%nat -> shape n n A -> shape n n B -> multiply A B = Ok P -> (inverse_of n A B <-> is_id n P).
Proof.
  intros Hn SA SB E. destruct (multiply_full n n n A B Hn SA SB) as (P' & E' & SP & HP). assert (P' = P) by congruence. subst P'.
  split.
  - intros H. split; [exact SP|]. intros i j Hi Hj. rewrite HP by auto. auto.
  - intros [_ H] i j Hi Hj. rewrite <- HP by auto. auto.
Qed.
Theorem invert_product n (A B I J : list (list R)) : (0 < n)%nat -> shape n n A -> shape n n B -> matrixInvert A = Ok (Some I) -> matrixInvert B = Ok (Some J) ->
  exists P Q, multiply A B = Ok P /\ multiply J I = Ok Q /\ matrixInvert P = Ok (Some Q).
Proof.
  intros Hn SA SB EA EB. destruct (invert_sound n A I Hn SA EA) as (SI & A1 & _). destruct (invert_sound n B J Hn SB EB) as (SJ & B1 & _).
  destruct (multiply_full n n n A B Hn SA SB) as (P & EP & SP & _). destruct (multiply_full n n n J I Hn SJ SI) as (Q & EQ & SQ & _).
  exists P, Q. split; [exact EP|]. split; [exact EQ|]. apply (invert_is n); auto. left.
  destruct (multiply_full n n n P Q Hn SP SQ) as (E & EE & SE & _). apply (times_inverse n P Q E); auto.
  destruct (multiply_assoc n n n n A B Q Hn Hn SA SB SQ) as (AB & BQ & Z & X1 & X2 & X3 & X4).
  destruct (multiply_assoc n n n n B J I Hn Hn SB SJ SI) as (BJ & JI & Z' & Y1 & Y2 & Y3 & Y4).
  assert (AB = P) by congruence. assert (JI = Q) by congruence. subst AB JI. assert (Z = E) by congruence. subst Z. assert (Z' = BQ) by congruence. subst Z'.
  assert (D : is_id n BJ) by (apply (times_inverse n B J BJ); auto).
  assert (BQ = I) by (pose proof (proj2 (multiply_id n n I BJ Hn Hn SI) D); congruence). subst BQ.
  apply (times_inverse n A I E); auto.
Qed.
Theorem invert_transpose n (M I : list (list R)) : (0 < n)%nat -> shape n n M -> matrixInvert M = Ok (Some I) ->
  exists Mt It, transpose M = Ok Mt /\ transpose I = Ok It /\ matrixInvert Mt = Ok (Some It).
Proof.
  intros Hn SM E. destruct (invert_sound n M I Hn SM E) as (SI & H1 & _).
  destruct (transpose_full n n M Hn SM) as (Mt & EM & SMt & HM & _). destruct (transpose_full n n I Hn SI) as (It & EI & SIt & HI & _).
  exists Mt, It. split; [exact EM|]. split; [exact EI|]. apply (invert_is n); auto. right.
  intros i j Hi Hj. unfold prod_entry. rewrite (rsum_ext n _ (fun k => entry M j k * entry I k i)).
  - transitivity (prod_entry n M I j i); [reflexivity|]. rewrite H1 by auto. rewrite Nat.eqb_sym. reflexivity.
  - intros k Hk. rewrite HI, HM by auto. ring.
Qed.
(** ** Three by three *)
Lemma three_shape (m : list (list R)) : shape 3 3 m -> exists a b p c d q x y s, m = [[a; b; p]; [c; d; q]; [x; y; s]].
Proof.
  intros [L F]. destruct m as [|r0 [|r1 [|r2 [|]]]]; try (simpl in L; lia).
  repeat match goal with K : List.Forall _ (_ :: _) |- _ => inversion K; clear K; subst end.
  destruct r0 as [|a [|b [|p [|]]]]; try (simpl in *; lia). destruct r1 as [|c [|d [|q [|]]]]; try (simpl in *; lia). destruct r2 as [|x [|y [|s [|]]]]; try (simpl in *; lia).
  do 9 eexists. reflexivity.
Qed.
Ltac three_rows H a b p c d q x y s := destruct (three_shape _ H) as (a & b & p & c & d & q & x & y & s & ->).
Theorem two_products (m1 m2 : list (list R)) : shape 3 3 m1 -> shape 3 3 m2 -> multiplyMatrixByMatrix m1 m2 = multiply m1 m2.
Proof.
  intros S1 S2. destruct (multiply_full 3 3 3 m1 m2 ltac:(lia) S1 S2) as (P & EP & SP & HP). rewrite EP.
  three_rows S1 a b p c d q x y s. three_rows S2 a' b' p' c' d' q' x' y' s'.
  eassert (E : multiplyMatrixByMatrix [[a; b; p]; [c; d; q]; [x; y; s]] [[a'; b'; p']; [c'; d'; q']; [x'; y'; s']] = Ok _) by reflexivity.
  rewrite E. f_equal. apply (mat_ext 3 3); [split; [reflexivity|repeat constructor]|exact SP|].
  intros i j Hi Hj. rewrite HP by auto. unfold prod_entry, entry. cbn [rsum]. destruct i as [|[|[|]]]; try lia; destruct j as [|[|[|]]]; try lia; cbn [nth]; numR; ring.
Qed.
Theorem undo_point (m I : list (list R)) (p q : pt) : shape 3 3 m -> matrixInvert m = Ok (Some I) -> applyToPoint m p = Ok q -> applyToPoint I q = Ok p.
Proof.
  intros S E A. destruct (invert_sound 3 m I ltac:(lia) S E) as (SI & H & _). destruct p as [u v].
  three_rows S a b p c d r x y s. three_rows SI a' b' p' c' d' r' x' y' s'.
  assert (K : forall i j, (i < 3)%nat -> (j < 3)%nat -> entry [[a; b; p]; [c; d; r]; [x; y; s]] i 0 * entry [[a'; b'; p']; [c'; d'; r']; [x'; y'; s']] 0 j
     + entry [[a; b; p]; [c; d; r]; [x; y; s]] i 1 * entry [[a'; b'; p']; [c'; d'; r']; [x'; y'; s']] 1 j + entry [[a; b; p]; [c; d; r]; [x; y; s]] i 2 * entry [[a'; b'; p']; [c'; d'; r']; [x'; y'; s']] 2 j = if Nat.eqb i j then 1 else 0).
  { intros i j Hi Hj. rewrite <- (H i j Hi Hj). unfold prod_entry. cbn [rsum]. ring. }
  pose proof (K 0%nat 0%nat ltac:(lia) ltac:(lia)) as K00. pose proof (K 0%nat 1%nat ltac:(lia) ltac:(lia)) as K01. pose proof (K 0%nat 2%nat ltac:(lia) ltac:(lia)) as K02.
  pose proof (K 1%nat 0%nat ltac:(lia) ltac:(lia)) as K10. pose proof (K 1%nat 1%nat ltac:(lia) ltac:(lia)) as K11. pose proof (K 1%nat 2%nat ltac:(lia) ltac:(lia)) as K12.
  pose proof (K 2%nat 0%nat ltac:(lia) ltac:(lia)) as K20. pose proof (K 2%nat 1%nat ltac:(lia) ltac:(lia)) as K21. pose proof (K 2%nat 2%nat ltac:(lia) ltac:(lia)) as K22. clear K H E.
  unfold entry in *. cbn [nth Nat.eqb] in *.
  set (w := u * p + v * r + 1 * s) in *.
  assert (AE : forall a b p c d r x y s u v : R, applyToPoint [[a; b; p]; [c; d; r]; [x; y; s]] (u, v) =
    if Reqb (u * p + v * r + 1 * s) 0 then Err ZeroDivisionError else Ok ((u * a + v * c + 1 * x) / (u * p + v * r + 1 * s), (u * b + v * d + 1 * y) / (u * p + v * r + 1 * s))).
  { intros. unfold applyToPoint. cbn [multiplyRowByMatrix unpack3 bind idx nth_error]. unfold ndiv. numR. destruct (Reqb _ 0); reflexivity. }
  rewrite AE in A. fold w in A. destruct (Reqb_spec w 0) as [|W]; [discriminate|]. inversion A; subst q. clear A. rewrite AE.
  set (X := u * a + v * c + 1 * x). set (Y := u * b + v * d + 1 * y).
  assert (C0 : X * a' + Y * c' + w * x' = u).
  { unfold X, Y, w. replace (_ + _ + _) with (u * (a * a' + b * c' + p * x') + v * (c * a' + d * c' + r * x') + (x * a' + y * c' + s * x')) by ring. rewrite K00, K10, K20. ring. }
  assert (C1 : X * b' + Y * d' + w * y' = v).
  { unfold X, Y, w. replace (_ + _ + _) with (u * (a * b' + b * d' + p * y') + v * (c * b' + d * d' + r * y') + (x * b' + y * d' + s * y')) by ring. rewrite K01, K11, K21. ring. }
  assert (C2 : X * p' + Y * r' + w * s' = 1).
  { unfold X, Y, w. replace (_ + _ + _) with (u * (a * p' + b * r' + p * s') + v * (c * p' + d * r' + r * s') + (x * p' + y * r' + s * s')) by ring. rewrite K02, K12, K22. ring. }
  clearbody X Y w. assert (C3 : X / w * p' + Y / w * r' + 1 * s' = / w).
  { transitivity ((X * p' + Y * r' + w * s') * / w); [field; exact W|rewrite C2; ring]. }
  rewrite C3.
  destruct (Reqb_spec (/ w) 0) as [Z|_]; [exfalso; exact (Rinv_neq_0_compat w W Z)|]. do 2 f_equal.
  - rewrite <- C0. field. exact W.
  - rewrite <- C1. field. exact W.
Qed.
Theorem none_iff_det (m : list (list R)) : shape 3 3 m -> (matrixInvert m = Ok None <-> det3 m = 0).
Proof.
  intros S. split.
  - intros E. destruct (invert_complete 3 m ltac:(lia) S) as (o & Eo & H). destruct (H ltac:(congruence)) as (z & (k & Hk & Zk) & Hz). clear H Eo E.
    pose proof (Hz 0%nat ltac:(lia)) as Z0. pose proof (Hz 1%nat ltac:(lia)) as Z1. pose proof (Hz 2%nat ltac:(lia)) as Z2. clear Hz.
    three_rows S a b p c d r x y s. unfold det3, entry in *. cbv zeta in *. cbn [nth rsum] in *.
    set (D := a * (d * s - r * y) - b * (c * s - r * x) + p * (c * y - d * x)).
    destruct (Req_dec D 0) as [H|H]; [exact H|]. exfalso. apply Zk.
    assert (E0 : D * z 0%nat = 0).
    { transitivity ((d * s - r * y) * (0 + a * z 0%nat + b * z 1%nat + p * z 2%nat) - (b * s - p * y) * (0 + c * z 0%nat + d * z 1%nat + r * z 2%nat) + (b * r - p * d) * (0 + x * z 0%nat + y * z 1%nat + s * z 2%nat)); [unfold D; ring|]. rewrite Z0, Z1, Z2. ring. }
    assert (E1 : D * z 1%nat = 0).
    { transitivity (- (c * s - r * x) * (0 + a * z 0%nat + b * z 1%nat + p * z 2%nat) + (a * s - p * x) * (0 + c * z 0%nat + d * z 1%nat + r * z 2%nat) - (a * r - p * c) * (0 + x * z 0%nat + y * z 1%nat + s * z 2%nat)); [unfold D; ring|]. rewrite Z0, Z1, Z2. ring. }
    assert (E2 : D * z 2%nat = 0).
    { transitivity ((c * y - d * x) * (0 + a * z 0%nat + b * z 1%nat + p * z 2%nat) - (a * y - b * x) * (0 + c * z 0%nat + d * z 1%nat + r * z 2%nat) + (a * d - b * c) * (0 + x * z 0%nat + y * z 1%nat + s * z 2%nat)); [unfold D; ring|]. rewrite Z0, Z1, Z2. ring. }
    destruct k as [|[|[|]]]; try lia; [destruct (Rmult_integral _ _ E0)|destruct (Rmult_integral _ _ E1)|destruct (Rmult_integral _ _ E2)]; auto; contradiction.
  - intros D. destruct (invert_complete 3 m ltac:(lia) S) as ([I|] & E & _); [|exact E]. exfalso.
    destruct (invert_sound 3 m I ltac:(lia) S E) as (SI & H & _).
    three_rows S a b p c d r x y s. three_rows SI a' b' p' c' d' r' x' y' s'.
    assert (K : det3 [[a; b; p]; [c; d; r]; [x; y; s]] * det3 [[a'; b'; p']; [c'; d'; r']; [x'; y'; s']] = 1).
    { assert (Q : forall i j, (i < 3)%nat -> (j < 3)%nat -> prod_entry 3 [[a; b; p]; [c; d; r]; [x; y; s]] [[a'; b'; p']; [c'; d'; r']; [x'; y'; s']] i j = if Nat.eqb i j then 1 else 0) by exact H.
      pose proof (Q 0%nat 0%nat ltac:(lia) ltac:(lia)) as K00. pose proof (Q 0%nat 1%nat ltac:(lia) ltac:(lia)) as K01. pose proof (Q 0%nat 2%nat ltac:(lia) ltac:(lia)) as K02.
      pose proof (Q 1%nat 0%nat ltac:(lia) ltac:(lia)) as K10. pose proof (Q 1%nat 1%nat ltac:(lia) ltac:(lia)) as K11. pose proof (Q 1%nat 2%nat ltac:(lia) ltac:(lia)) as K12.
      pose proof (Q 2%nat 0%nat ltac:(lia) ltac:(lia)) as K20. pose proof (Q 2%nat 1%nat ltac:(lia) ltac:(lia)) as K21. pose proof (Q 2%nat 2%nat ltac:(lia) ltac:(lia)) as K22. clear Q H E D.
      unfold prod_entry, det3, entry in *. cbv zeta in *. cbn [nth rsum Nat.eqb] in *.
      transitivity ((0 + a * a' + b * c' + p * x') * ((0 + c * b' + d * d' + r * y') * (0 + x * p' + y * r' + s * s') - (0 + c * p' + d * r' + r * s') * (0 + x * b' + y * d' + s * y'))
        - (0 + a * b' + b * d' + p * y') * ((0 + c * a' + d * c' + r * x') * (0 + x * p' + y * r' + s * s') - (0 + c * p' + d * r' + r * s') * (0 + x * a' + y * c' + s * x'))
        + (0 + a * p' + b * r' + p * s') * ((0 + c * a' + d * c' + r * x') * (0 + x * b' + y * d' + s * y') - (0 + c * b' + d * d' + r * y') * (0 + x * a' + y * c' + s * x'))); [ring|].
      rewrite K00, K01, K02, K10, K11, K12, K20, K21, K22. ring. }
    rewrite D in K. lra.
Qed.
Lemma wf_shape (m : list (list R)) : shape 3 3 m -> wf3 m.
Proof. intros S. three_rows S a b p c d q x y s. repeat constructor. Qed.
Theorem undo_chain (ms invs : list (list (list R))) : ms <> [] -> List.Forall (shape 3 3) ms -> Forall2 (fun m i => matrixInvert m = Ok (Some i)) ms invs ->
  exists t u, mkTransform ms = Ok t /\ shape 3 3 t /\ mkTransform (rev invs) = Ok u /\ matrixInvert t = Ok (Some u).
Proof.
  intros Ne F H. revert Ne F. induction H as [|m i ms invs Em H IH]; intros Ne F; [congruence|].
  inversion F as [|? ? Sm Fm]; subst. destruct (invert_sound 3 m i ltac:(lia) Sm Em) as (Si & _).
  destruct ms as [|m' ms].
  - inversion H; subst. exists m, i. repeat (split; [reflexivity || assumption|]). exact Em.
  - destruct IH as (t & u & Et & St & Eu & Ei); [discriminate|exact Fm|]. destruct (invert_sound 3 t u ltac:(lia) St Ei) as (Su & _).
    destruct (invert_product 3 m t i u ltac:(lia) Sm St Em Ei) as (P & Q & EP & EQ & EI).
    assert (Fi : List.Forall (shape 3 3) (rev invs)).
    { apply Forall_rev. clear - H Fm. induction H as [|a b la lb E H IH]; [constructor|]. inversion Fm; subst. constructor; [exact (proj1 (invert_sound 3 a b ltac:(lia) H2 E))|auto]. }
    destruct (concat_regroup [m] (m' :: ms)) as (a & b & c & A1 & A2 & A3 & A4); [discriminate|discriminate|constructor; [apply wf_shape; exact Sm|constructor]|eapply Forall_impl; [|exact Fm]; apply wf_shape|].
    destruct (concat_regroup (rev invs) [i]) as (a' & b' & c' & B1 & B2 & B3 & B4);
      [intros Z; apply (f_equal (@length _)) in Z; rewrite rev_length in Z; inversion H; subst; discriminate Z|discriminate|eapply Forall_impl; [|exact Fi]; apply wf_shape|constructor; [apply wf_shape; exact Si|constructor]|].
    assert (a = m) by (cbn in A1; congruence). assert (b = t) by congruence. assert (a' = u) by congruence. assert (b' = i) by (cbn in B2; congruence). subst a b a' b'.
    assert (c = P). { cbn [mkTransform concatenateMatrices foldM] in A4. rewrite two_products, EP in A4 by assumption. cbn [bind] in A4. congruence. }
    assert (c' = Q). { cbn [mkTransform concatenateMatrices foldM] in B4. rewrite two_products, EQ in B4 by assumption. cbn [bind] in B4. congruence. }
    subst c c'. exists P, Q. split; [exact A3|]. split.
    + destruct (multiply_full 3 3 3 m t ltac:(lia) Sm St) as (P' & E' & SP & _). congruence.
    + split; [cbn [rev]; exact B3|exact EI].
Qed.
(** ** Lists of points and the named transforms *)
Lemma mapM_undo {A B} (f : A -> res B) (g : B -> res A) : forall l l', (forall a b, f a = Ok b -> g b = Ok a) -> mapM f l = Ok l' -> mapM g l' = Ok l.
Proof.
  intros l l' H. revert l'. induction l as [|a l IH]; intros l' E; cbn [mapM] in E; [inversion E; reflexivity|].
  destruct (f a) as [b|e] eqn:F; cbn [bind] in E; [|discriminate]. destruct (mapM f l) as [bs|e]; cbn [bind] in E; [|discriminate]. inversion E; subst.
  cbn [mapM]. rewrite (H a b F). cbn [bind]. rewrite (IH bs eq_refl). reflexivity.
Qed.
Theorem undo_contours (m I : list (list R)) : shape 3 3 m -> matrixInvert m = Ok (Some I) ->
  (forall s s', applyToSegment m s = Ok s' -> applyToSegment I s' = Ok s) /\ (forall c c', applyToContour m c = Ok c' -> applyToContour I c' = Ok c) /\
  (forall l l', applyToContours m l = Ok l' -> applyToContours I l' = Ok l).
Proof.
  intros S E. assert (P := fun p q => undo_point m I p q S E).
  assert (A : forall s s', applyToSegment m s = Ok s' -> applyToSegment I s' = Ok s) by (intros s s'; apply mapM_undo; exact P).
  assert (B : forall c c', applyToContour m c = Ok c' -> applyToContour I c' = Ok c) by (intros c c'; apply mapM_undo; exact A).
  split; [exact A|]. split; [exact B|]. intros l l'. apply mapM_undo. exact B.
Qed.
Lemma s33 (a b p c d q x y s : R) : shape 3 3 [[a; b; p]; [c; d; q]; [x; y; s]].
Proof. split; [reflexivity|repeat constructor]. Qed.
Ltac entries := intros i j Hi Hj; unfold prod_entry, entry; cbn [rsum]; destruct i as [|[|[|]]]; try lia; destruct j as [|[|[|]]]; try lia; cbn [nth Nat.eqb].
Ltac by33 := apply (invert_is 3); [lia|apply s33|apply s33|left; entries].
Lemma undo_move (a b : pt) : matrixInvert (_translateMatrix a b) = Ok (Some (_translateMatrix b a)).
Proof. destruct a as [ax ay], b as [bx by_]. unfold _translateMatrix, _matrix. numR. by33; ring. Qed.
Lemma undo_scale (sx sy : R) : sx <> 0 -> sy <> 0 -> matrixInvert (_scaleMatrix sx sy) = Ok (Some (_scaleMatrix (/ sx) (/ sy))).
Proof. intros X Y. unfold _scaleMatrix, _matrix. numR. by33; field; auto. Qed.
Lemma undo_mirror (x y : bool) : matrixInvert (_mirrorMatrix x y) = Ok (Some (@_mirrorMatrix R _ x y)).
Proof. unfold _mirrorMatrix, _matrix. numR. destruct x, y; by33; ring. Qed.
Lemma undo_shear (s : R) : matrixInvert (_shearMatrix s 0) = Ok (Some (_shearMatrix (- s) 0)) /\ matrixInvert (_shearMatrix 0 s) = Ok (Some (_shearMatrix 0 (- s))).
Proof. split; unfold _shearMatrix, _matrix; numR; by33; ring. Qed.
Lemma undo_rotation (d : R) (ccw : bool) : matrixInvert (@_rotationMatrix R _ RExact d ccw) = Ok (Some (@_rotationMatrix R _ RExact d (negb ccw))).
Proof.
  assert (K : @tf_cos R _ RExact d * @tf_cos R _ RExact d + @tf_sin R _ RExact d * @tf_sin R _ RExact d = 1).
  { unfold tf_cos, tf_sin. numR. unfold id. rewrite Rplus_comm. apply sin2_cos2. }
  unfold _rotationMatrix, _matrix. set (c := tf_cos d) in *. set (s := tf_sin d) in *. clearbody c s. numR.
  destruct ccw; cbn [negb]; by33; try ring; rewrite <- K; ring.
Qed.
Lemma undo_perspective (p q s : R) : s <> 0 -> matrixInvert (_perspectiveMatrix p q s) = Ok (Some (_perspectiveMatrix (- p / s) (- q / s) (/ s))).
Proof. intros S. unfold _perspectiveMatrix, _matrix. numR. by33; field; auto. Qed.
Theorem undo_named :
  (forall a b : pt, matrixInvert (_translateMatrix a b) = Ok (Some (_translateMatrix b a))) /\
  (forall sx sy : R, sx <> 0 -> sy <> 0 -> matrixInvert (_scaleMatrix sx sy) = Ok (Some (_scaleMatrix (/ sx) (/ sy)))) /\
  (forall x y, matrixInvert (_mirrorMatrix x y) = Ok (Some (@_mirrorMatrix R _ x y))) /\
  (forall s : R, matrixInvert (_shearMatrix s 0) = Ok (Some (_shearMatrix (- s) 0)) /\ matrixInvert (_shearMatrix 0 s) = Ok (Some (_shearMatrix 0 (- s)))) /\
  (forall (d : R) (ccw : bool), matrixInvert (@_rotationMatrix R _ RExact d ccw) = Ok (Some (@_rotationMatrix R _ RExact d (negb ccw)))) /\
  (forall p q s : R, s <> 0 -> matrixInvert (_perspectiveMatrix p q s) = Ok (Some (_perspectiveMatrix (- p / s) (- q / s) (/ s)))).
Proof. exact (conj undo_move (conj undo_scale (conj undo_mirror (conj undo_shear (conj undo_rotation undo_perspective))))). Qed.
Theorem no_undo_named (sx sy p q s : R) : (matrixInvert (_scaleMatrix sx sy) = Ok None <-> sx = 0 \/ sy = 0) /\
  (matrixInvert (_shearMatrix sx sy) = Ok None <-> sx * sy = 1) /\ (matrixInvert (_perspectiveMatrix p q s) = Ok None <-> s = 0).
Proof.
  unfold _scaleMatrix, _shearMatrix, _perspectiveMatrix, _matrix. numR. rewrite !none_iff_det by apply s33. unfold det3, entry. cbv zeta. cbn [nth].
  split; [|split; split; lra]. split.
  - intros H. apply Rmult_integral. lra.
  - intros [-> | ->]; ring.
Qed.
Lemma undo_three (m1 m2 m3 i1 i2 i3 : list (list R)) : shape 3 3 m1 -> shape 3 3 m2 -> shape 3 3 m3 ->
  matrixInvert m1 = Ok (Some i1) -> matrixInvert m2 = Ok (Some i2) -> matrixInvert m3 = Ok (Some i3) ->
  exists t u, mkTransform [m1; m2; m3] = Ok t /\ mkTransform [i3; i2; i1] = Ok u /\ matrixInvert t = Ok (Some u).
Proof.
  intros S1 S2 S3 E1 E2 E3. destruct (undo_chain [m1; m2; m3] [i1; i2; i3]) as (t & u & A & _ & B & C); [discriminate|repeat constructor; auto; apply S1 || apply S2 || apply S3|repeat constructor; assumption|].
  exists t, u. auto.
Qed.
Lemma move_shape (a b : pt) : shape 3 3 (_translateMatrix a b).
Proof. destruct a, b. apply s33. Qed.
Lemma rot_shape d ccw : shape 3 3 (@_rotationMatrix R _ RExact d ccw).
Proof. unfold _rotationMatrix. destruct ccw; apply s33. Qed.
Theorem undo_about (about : pt) (d p q : R) (ccw x y : bool) :
  (exists t u, @rotationAbout R _ RExact about d ccw = Ok t /\ @rotationAbout R _ RExact about d (negb ccw) = Ok u /\ matrixInvert t = Ok (Some u)) /\
  (exists t, mirrorAround about x y = Ok t /\ matrixInvert t = Ok (Some t)) /\
  (exists t u, perspectiveFrom about p q = Ok t /\ perspectiveFrom about (- p) (- q) = Ok u /\ matrixInvert t = Ok (Some u)).
Proof.
  split; [|split].
  - unfold rotationAbout. apply undo_three; auto using move_shape, rot_shape, undo_move, undo_rotation.
  - unfold mirrorAround. destruct about as [cx cy]. match goal with |- context [_translateMatrix (cx, cy) ?m] => set (mp := m) end.
    destruct (undo_three (_translateMatrix (cx, cy) mp) (_mirrorMatrix x y) (_translateMatrix mp (cx, cy)) (_translateMatrix mp (cx, cy)) (_mirrorMatrix x y) (_translateMatrix (cx, cy) mp))
      as (t & u & A & B & C); auto using move_shape, undo_move, undo_mirror; [apply s33|]. exists t. split; [exact A|]. congruence.
  - unfold perspectiveFrom. apply undo_three; auto using move_shape, undo_move; [apply s33|].
    replace (_perspectiveMatrix (- p) (- q) (nofZ 1)) with (_perspectiveMatrix (- p / 1) (- q / 1) (/ 1)).
    + apply undo_perspective. lra.
    + unfold _perspectiveMatrix, _matrix. numR. replace (- p / 1) with (- p) by field. replace (- q / 1) with (- q) by field. rewrite Rinv_1. reflexivity.
Qed.
