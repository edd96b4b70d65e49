(** Proofs about _align and align with exact trigonometry. *)
From Coq Require Import List ZArith Bool Reals Lra Lia Psatz.
From Verif Require Import Py Inst SpecGeom SpecMatrix SpecFit SpecUtil SpecBezier SpecOrder SpecBounds
  MTransform MBounds MBezUtil MPathUtil MBezier SpecCurve
  ProofTransform ProofMatrix ProofFit ProofUtil ProofBounds ProofBezier ProofBezier2 ProofBezier3.
Import ListNotations.
Local Open Scope R_scope.
#[local] Existing Instance RExact.

Lemma atan2_polar (y x : R) : let h := sqrt (x * x + y * y) in
  h * cos (Ratan2 y x) = x /\ h * sin (Ratan2 y x) = y.
Proof.
  intros h. unfold Ratan2.
  assert (K : forall u v : R, v <> 0 -> let k := sqrt (v * v + u * u) in
    k * (1 / sqrt (1 + (u / v)²)) = Rabs v /\ k * (u / v / sqrt (1 + (u / v)²)) = u / v * Rabs v).
  { intros u v N k. assert (P : 0 < 1 + (u / v)²) by (pose proof (Rle_0_sqr (u / v)); lra).
    assert (E : k = Rabs v * sqrt (1 + (u / v)²)).
    { unfold k. rewrite <- sqrt_Rsqr_abs, <- sqrt_mult; [|apply Rle_0_sqr|lra]. f_equal. unfold Rsqr. field. auto. }
    pose proof (sqrt_lt_R0 _ P). rewrite E. split; field; try split; lra. }
  destruct (Rlt_dec 0 x) as [X|X].
  - destruct (K y x ltac:(lra)) as [A B]. rewrite cos_atan, sin_atan. unfold h. rewrite A, B, Rabs_right by lra. split; [auto | field; lra].
  - destruct (Rlt_dec x 0) as [X'|X'].
    + destruct (K y x ltac:(lra)) as [A B].
      assert (C : h * - (1 / sqrt (1 + (y / x)²)) = x /\ h * - (y / x / sqrt (1 + (y / x)²)) = y).
      { unfold h. split.
        - transitivity (- Rabs x); [rewrite <- A; ring | rewrite Rabs_left by lra; ring].
        - transitivity (- (y / x * Rabs x)); [rewrite <- B; ring | rewrite Rabs_left by lra; field; lra]. }
      destruct (Rle_dec 0 y).
      * rewrite neg_cos, neg_sin, cos_atan, sin_atan. exact C.
      * assert (E1 : cos (atan (y / x) - PI) = - cos (atan (y / x))).
        { rewrite <- neg_cos. replace (atan (y / x) + PI) with ((atan (y / x) - PI) + 2 * INR 1 * PI) by (simpl; ring). now rewrite cos_period. }
        assert (E2 : sin (atan (y / x) - PI) = - sin (atan (y / x))).
        { rewrite <- neg_sin. replace (atan (y / x) + PI) with ((atan (y / x) - PI) + 2 * INR 1 * PI) by (simpl; ring). now rewrite sin_period. }
        rewrite E1, E2, cos_atan, sin_atan. exact C.
    + assert (x = 0) by lra. subst x. unfold h. replace (0 * 0 + y * y) with (Rsqr y) by (unfold Rsqr; ring). rewrite sqrt_Rsqr_abs.
      destruct (Rlt_dec 0 y); [|destruct (Rlt_dec y 0)].
      * rewrite cos_PI2, sin_PI2, Rabs_right by lra. lra.
      * rewrite cos_neg, sin_neg, cos_PI2, sin_PI2, Rabs_left by lra. lra.
      * assert (y = 0) by lra. subst. rewrite Rabs_R0. lra.
Qed.

(** The image of [p] when the segment from [a] to [b] is laid on the x axis from the origin. *)
Definition laid (a b p : pt) : pt := rot (- Ratan2 (snd b - snd a) (fst b - fst a)) (vsub p a).
Lemma endPoints_nth (s : segment R) : (1 <= length s)%nat -> endPoints s = Ok (nth 0 s (0, 0), nth (length s - 1) s (0, 0)).
Proof.
  intros L. unfold endPoints. rewrite (idx_nth s 0 (0, 0)) by lia. cbn [bind]. unfold idx_last. rewrite last_error_nth.
  now rewrite (nth_error_nth' s (0, 0)) by lia.
Qed.
Theorem alignPoints_ok (p s : segment R) : (1 <= length s)%nat ->
  alignPoints p s = Ok (map (laid (nth 0 s (0, 0)) (nth (length s - 1) s (0, 0))) p).
Proof.
  intros L. unfold alignPoints, rawSlopeAngle, getDeltas. rewrite endPoints_nth by auto. cbn [bind].
  rewrite (idx_nth s 0 (0, 0)) by lia. cbn [bind].
  generalize (nth 0 s (0, 0)) (nth (length s - 1) s (0, 0)). intros [ax ay] [bx by']. cbn [fst snd].
  set (th := Ratan2 (by' - ay) (bx - ax)).
  assert (R1 : radians (- degrees th) = - th).
  { unfold radians, degrees. numRg. pose proof PI_RGT_0. field. lra. }
  change (tatan2 _ _) with th. change (nopp (degrees th)) with (- degrees th).
  unfold moveAndRotate, mkTransform, concatenateMatrices.
  unfold _translateMatrix, _rotationMatrix, _matrix, tf_sin, tf_cos. rewrite R1. numRg.
  set (sn := sin (- th)). set (cs := cos (- th)).
  cbn [bind foldM multiplyMatrixByMatrix mapM multiplyRowByMatrix unpack3]. numRg.
  unfold applyToSegment. apply mapM_pure. intros [x y] _.
  rewrite apply_Ok by lra. unfold laid, rot, vsub; cbn [fst snd]. fold th. fold sn cs. apply Ok_pair; field; lra.
Qed.
Lemma laid_form (a b p : pt) : let h := vdist a b in
  h * fst (laid a b p) = vdot (vsub b a) (vsub p a) /\ h * snd (laid a b p) = vcross (vsub b a) (vsub p a).
Proof.
  destruct a as [ax ay], b as [bx by'], p as [x y]. intros h. unfold laid, rot, vsub, vdot, vcross; cbn [fst snd].
  destruct (atan2_polar (by' - ay) (bx - ax)) as [A B]. rewrite cos_neg, sin_neg.
  replace (sqrt _) with h in A, B by (unfold h, vdist, dist2; cbn [fst snd]; f_equal; ring).
  set (th := Ratan2 _ _) in *.
  split.
  - transitivity ((h * cos th) * (x - ax) + (h * sin th) * (y - ay)); [ring | rewrite A, B; ring].
  - transitivity ((h * cos th) * (y - ay) - (h * sin th) * (x - ax)); [ring | rewrite A, B; ring].
Qed.
Lemma vdist_pos (a b : pt) : a <> b -> 0 < vdist a b.
Proof.
  destruct a as [ax ay], b as [bx by']. intros N. unfold vdist, dist2; cbn [fst snd]. apply sqrt_lt_R0.
  destruct (Req_dec ax bx) as [->|X]; [destruct (Req_dec ay by') as [->|Y]; [congruence|]|].
  - pose proof (pow2_ge_0 (bx - bx)). pose proof (Rsqr_pos_lt (ay - by') ltac:(lra)) as Q; unfold Rsqr in Q. lra.
  - pose proof (pow2_ge_0 (ay - by')). pose proof (Rsqr_pos_lt (ax - bx) ltac:(lra)) as Q; unfold Rsqr in Q. lra.
Qed.
Lemma vdist_sq (a b : pt) : vdist a b * vdist a b = dist2 a b.
Proof. apply sqrt_sqrt. apply dist2_pos. Qed.
Lemma laid_first (a b : pt) : laid a b a = (0, 0).
Proof. destruct a as [ax ay]. unfold laid, rot, vsub; cbn [fst snd]. f_equal; ring. Qed.
Lemma laid_last (a b : pt) : laid a b b = (vdist a b, 0).
Proof.
  destruct (Req_dec (vdist a b) 0) as [Z|Z].
  - assert (a = b). { destruct (Req_dec (fst a) (fst b)) as [X|X]; [destruct (Req_dec (snd a) (snd b)) as [Y|Y]|]; [now apply injective_projections| |];
      exfalso; assert (P : 0 < vdist a b) by (apply vdist_pos; intros ->; congruence); lra. }
    subst b. rewrite laid_first, Z. reflexivity.
  - destruct (laid_form a b b) as [A B]. pose proof (vdist_sq a b) as S. destruct (laid a b b) as [x y]. cbn [fst snd] in *.
    f_equal; apply Rmult_eq_reg_l with (vdist a b); auto.
    + rewrite A, S. unfold vdot, vsub, dist2; cbn [fst snd]. ring.
    + rewrite B. unfold vcross, vsub; cbn [fst snd]. ring.
Qed.
Lemma laid_dist (a b p q : pt) : vdist (laid a b p) (laid a b q) = vdist p q.
Proof.
  destruct a as [ax ay], b as [bx by'], p as [px py], q as [qx qy]. unfold vdist. f_equal. unfold dist2, laid, rot, vsub; cbn [fst snd].
  set (th := - _). pose proof (sin2_cos2 th) as N. unfold Rsqr in N.
  transitivity ((sin th * sin th + cos th * cos th) * ((px - qx) ^ 2 + (py - qy) ^ 2)); [ring | rewrite N; ring].
Qed.
Lemma laid_axis (a b p : pt) : a <> b -> snd (laid a b p) = 0 <-> on_line a b p.
Proof.
  intros N. rewrite on_line_iff by auto. unfold collinear. destruct (laid_form a b p) as [_ B]. rewrite <- B.
  pose proof (vdist_pos a b N). split; [intros ->; ring|]. intros E. apply Rmult_integral in E as [E|E]; lra.
Qed.
Lemma curve_laid (a b : pt) (p : list pt) t : (1 <= length p)%nat -> curve (map (laid a b) p) t = laid a b (curve p t).
Proof.
  intros L. set (th := - Ratan2 (snd b - snd a) (fst b - fst a)).
  pose proof (curve_affine p (cos th) (sin th) (- sin th) (cos th) (- (cos th * fst a - sin th * snd a)) (- (sin th * fst a + cos th * snd a)) t L) as E.
  cbv zeta in E. rewrite (map_ext _ (laid a b)) in E.
  - rewrite E. unfold laid. fold th. unfold rot, vsub; cbn [fst snd]. f_equal; ring.
  - intros [x y]. unfold laid. fold th. unfold rot, vsub; cbn [fst snd]. f_equal; ring.
Qed.
(** C61 *)
Theorem align_spec (b : bezier R) (seg : option (segment R)) : (2 <= length (cps b))%nat -> seg = None \/ seg = Some [] ->
  let p0 := nth 0 (cps b) (0, 0) in let pn := nth (length (cps b) - 1) (cps b) (0, 0) in
  exists c f, align b seg = Ok c /\ cps c = map f (cps b) /\ f p0 = (0, 0) /\ f pn = (vdist p0 pn, 0) /\
    (forall p q, vdist (f p) (f q) = vdist p q) /\ forall t x, get b t = Ok x -> get c t = Ok (f x).
Proof.
  intros L S p0 pn. assert (E0 : align b seg = align b None) by (destruct S as [-> | ->]; reflexivity). rewrite E0. clear E0 S.
  unfold align. rewrite alignPoints_ok by lia. cbn [bind].
  rewrite newBezier_ok by (rewrite map_length; auto). do 2 eexists. split; [reflexivity|]. split; [reflexivity|].
  fold p0 pn. split; [apply laid_first|]. split; [apply laid_last|]. split; [intros; apply laid_dist|].
  intros t x E. rewrite get_ok in E by lia. injection E as <-. rewrite get_ok by (cbn [cps]; rewrite map_length; lia). cbn [cps].
  now rewrite curve_laid by lia.
Qed.
(** Relative to a given line. *)
Theorem align_line_spec (b : bezier R) (s : segment R) : (2 <= length (cps b))%nat -> s <> [] ->
  let s0 := nth 0 s (0, 0) in let sn := nth (length s - 1) s (0, 0) in
  exists c f, align b (Some s) = Ok c /\ cps c = map f (cps b) /\ f s0 = (0, 0) /\ f sn = (vdist s0 sn, 0) /\
    (forall p q, vdist (f p) (f q) = vdist p q) /\ forall t x, get b t = Ok x -> get c t = Ok (f x).
Proof.
  intros L N s0 sn. unfold align. destruct s as [|x s']; [congruence|]. rewrite alignPoints_ok by (simpl; lia). cbn [bind].
  rewrite newBezier_ok by (rewrite map_length; auto). do 2 eexists. split; [reflexivity|]. split; [reflexivity|].
  fold s0 sn. split; [apply laid_first|]. split; [apply laid_last|]. split; [intros; apply laid_dist|].
  intros t y E. rewrite get_ok in E by lia. injection E as <-. rewrite get_ok by (cbn [cps]; rewrite map_length; lia). cbn [cps].
  now rewrite curve_laid by lia.
Qed.
