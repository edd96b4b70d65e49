(** Proofs for C149: compositions of the named transforms, determinants and areas. *)
From Coq Require Import List ZArith Bool Reals Lra Lia.
From Verif Require Import Py Inst SpecGeom SpecMatrix SpecTransform SpecUndo SpecArea MTransform MMatrix MCurveFit ProofTransform ProofMatrix ProofFit ProofUndo.
Import ListNotations.
Local Open Scope R_scope.

Definition ex_rot := @_rotationMatrix R _ RExact.
Ltac mats := cbn [mkTransform concatenateMatrices foldM bind multiplyMatrixByMatrix mapM multiplyRowByMatrix unpack3]; unfold _matrix in *; numR; cbn [multiplyMatrixByMatrix mapM multiplyRowByMatrix unpack3 bind].
Ltac same := repeat match goal with |- Ok _ = Ok _ => f_equal | |- _ :: _ = _ :: _ => f_equal end.
Lemma two (m1 m2 : list (list R)) : mkTransform [m1; m2] = multiplyMatrixByMatrix m1 m2.
Proof. unfold mkTransform, concatenateMatrices. cbn [foldM bind]. destruct (multiplyMatrixByMatrix m1 m2); reflexivity. Qed.
Lemma prod9 (a b p c d q x y s a' b' p' c' d' q' x' y' s' : R) :
  mkTransform [[[a; b; p]; [c; d; q]; [x; y; s]]; [[a'; b'; p']; [c'; d'; q']; [x'; y'; s']]] =
  Ok [[a * a' + b * c' + p * x'; a * b' + b * d' + p * y'; a * p' + b * q' + p * s'];
      [c * a' + d * c' + q * x'; c * b' + d * d' + q * y'; c * p' + d * q' + q * s'];
      [x * a' + y * c' + s * x'; x * b' + y * d' + s * y'; x * p' + y * q' + s * s']].
Proof. reflexivity. Qed.
Theorem compose_move (a b c d : pt) : mkTransform [_translateMatrix a b; _translateMatrix c d] = Ok (_translateMatrix (fst a + fst c, snd a + snd c) (fst b + fst d, snd b + snd d)).
Proof. destruct a, b, c, d. unfold _translateMatrix, _matrix. cbn [fst snd]. numR. rewrite prod9. same; ring. Qed.
Theorem compose_scale (a b c d : R) : mkTransform [_scaleMatrix a b; _scaleMatrix c d] = Ok (_scaleMatrix (a * c) (b * d)).
Proof. unfold _scaleMatrix, _matrix. numR. rewrite prod9. same; ring. Qed.
Theorem compose_shear (a b : R) : mkTransform [_shearMatrix a 0; _shearMatrix b 0] = Ok (_shearMatrix (a + b) 0) /\ mkTransform [_shearMatrix 0 a; _shearMatrix 0 b] = Ok (_shearMatrix 0 (a + b)).
Proof. unfold _shearMatrix, _matrix. numR. rewrite !prod9. split; same; ring. Qed.
Theorem compose_perspective (a b c d : R) : mkTransform [_perspectiveMatrix a b 1; _perspectiveMatrix c d 1] = Ok (_perspectiveMatrix (a + c) (b + d) 1).
Proof. unfold _perspectiveMatrix, _matrix. numR. rewrite prod9. same; ring. Qed.
Theorem compose_mirror (a b c d : bool) : mkTransform [_mirrorMatrix a b; _mirrorMatrix c d] = Ok (@_mirrorMatrix R _ (xorb a c) (xorb b d)).
Proof. unfold _mirrorMatrix, _matrix. numR. rewrite prod9. destruct a, b, c, d; cbn [xorb]; same; lra. Qed.
Theorem compose_rotation (a b : R) (ccw : bool) : mkTransform [ex_rot a ccw; ex_rot b ccw] = Ok (ex_rot (a + b) ccw).
Proof.
  assert (S : @tf_sin R _ RExact (a + b) = @tf_sin R _ RExact a * @tf_cos R _ RExact b + @tf_cos R _ RExact a * @tf_sin R _ RExact b).
  { unfold tf_sin, tf_cos, radians. numR. unfold id. rewrite <- sin_plus. f_equal. ring. }
  assert (C : @tf_cos R _ RExact (a + b) = @tf_cos R _ RExact a * @tf_cos R _ RExact b - @tf_sin R _ RExact a * @tf_sin R _ RExact b).
  { unfold tf_sin, tf_cos, radians. numR. unfold id. rewrite <- cos_plus. f_equal. ring. }
  unfold ex_rot, _rotationMatrix, _matrix. cbv zeta. rewrite S, C. generalize (@tf_sin R _ RExact a) (@tf_sin R _ RExact b) (@tf_cos R _ RExact a) (@tf_cos R _ RExact b). intros sa sb ca cb. numR.
  destruct ccw; rewrite prod9; same; ring.
Qed.
Theorem turn_signs (d : R) (ccw : bool) : ex_rot (- d) ccw = ex_rot d (negb ccw).
Proof.
  assert (S : @tf_sin R _ RExact (- d) = - @tf_sin R _ RExact d) by (unfold tf_sin, radians; numR; unfold id; rewrite <- sin_neg; f_equal; ring).
  assert (C : @tf_cos R _ RExact (- d) = @tf_cos R _ RExact d) by (unfold tf_cos, radians; numR; unfold id; rewrite <- cos_neg; f_equal; ring).
  unfold ex_rot, _rotationMatrix, _matrix. cbv zeta. rewrite S, C. numR. destruct ccw; cbn [negb]; same; ring.
Qed.
Theorem half_turn (ccw : bool) : ex_rot 180 ccw = @_mirrorMatrix R _ true true.
Proof.
  assert (S : @tf_sin R _ RExact 180 = 0) by (unfold tf_sin, radians; numR; unfold id; replace (180 * (PI / 180)) with PI by field; apply sin_PI).
  assert (C : @tf_cos R _ RExact 180 = -1) by (unfold tf_cos, radians; numR; unfold id; replace (180 * (PI / 180)) with PI by field; apply cos_PI).
  unfold ex_rot, _rotationMatrix, _mirrorMatrix, _matrix. cbv zeta. rewrite S, C. numR. destruct ccw; same; lra.
Qed.
Theorem undo_move_rotate (a b : pt) (d : R) : exists t u, @moveAndRotate R _ RExact a b d = Ok t /\ @rotateAndMove R _ RExact b a (- d) = Ok u /\ matrixInvert t = Ok (Some u) /\ matrixInvert u = Ok (Some t).
Proof.
  destruct (undo_chain [_translateMatrix a b; @_rotationMatrix R _ RExact d true] [_translateMatrix b a; @_rotationMatrix R _ RExact d false]) as (t & u & A & S & B & C);
    [discriminate|repeat (constructor; [apply move_shape || apply rot_shape|]); constructor|repeat (constructor; [apply undo_move || apply undo_rotation|]); constructor|].
  exists t, u. split; [exact A|]. split; [unfold rotateAndMove; change (@_rotationMatrix R _ RExact (- d) true) with (ex_rot (- d) true); rewrite turn_signs; exact B|]. split; [exact C|]. exact (invert_twice 3 t u ltac:(lia) S C).
Qed.
(** ** Determinants *)
Lemma det9 (a b p c d q x y s : R) : det3 [[a; b; p]; [c; d; q]; [x; y; s]] = a * (d * s - q * y) - b * (c * s - q * x) + p * (c * y - d * x).
Proof. reflexivity. Qed.
Theorem det_product (m1 m2 P : list (list R)) : shape 3 3 m1 -> shape 3 3 m2 -> multiplyMatrixByMatrix m1 m2 = Ok P -> det3 P = det3 m1 * det3 m2.
Proof.
  intros S1 S2 E. three_rows S1 a b p c d q x y s. three_rows S2 a' b' p' c' d' q' x' y' s'. rewrite <- two, prod9 in E. injection E as <-. rewrite !det9. ring.
Qed.
Theorem det_chain (ms : list (list (list R))) t : List.Forall (shape 3 3) ms -> mkTransform ms = Ok t -> det3 t = fold_right Rmult 1 (map det3 ms).
Proof.
  intros F E. destruct ms as [|m ms]; [discriminate E|]. cbn [map fold_right]. inversion F as [|? ? Sm Fm]; subst. clear F. cbn [mkTransform] in E. unfold mkTransform, concatenateMatrices in E.
  revert m Sm E. induction Fm as [|m' ms S' _ IH]; intros m Sm E; cbn [foldM] in E.
  - injection E as <-. cbn. ring.
  - destruct (multiplyMatrixByMatrix m m') as [P|e] eqn:EP; cbn [bind] in E; [|discriminate E].
    destruct (multiply_full 3 3 3 m m' ltac:(lia) Sm S') as (P' & E' & SP & _). rewrite two_products in EP by assumption. assert (P' = P) by congruence. subst P'.
    rewrite (IH P SP E). rewrite (det_product m m' P Sm S') by (rewrite two_products by assumption; exact EP). cbn [map fold_right]. ring.
Qed.
Theorem det_named (a b : pt) (sx sy p q s d : R) (ccw x y : bool) : det3 (_translateMatrix a b) = 1 /\ det3 (_scaleMatrix sx sy) = sx * sy /\ det3 (_shearMatrix sx sy) = 1 - sx * sy /\
  det3 (_mirrorMatrix x y) = (if xorb x y then -1 else 1) /\ det3 (ex_rot d ccw) = 1 /\ det3 (_perspectiveMatrix p q s) = s.
Proof.
  assert (K : @tf_cos R _ RExact d * @tf_cos R _ RExact d + @tf_sin R _ RExact d * @tf_sin R _ RExact d = 1).
  { unfold tf_cos, tf_sin. numR. unfold id. rewrite Rplus_comm. apply sin2_cos2. }
  split; [destruct a, b; unfold _translateMatrix, _matrix; numR; rewrite det9; ring|]. split; [unfold _scaleMatrix, _matrix; numR; rewrite det9; ring|]. split; [unfold _shearMatrix, _matrix; numR; rewrite det9; ring|].
  split; [unfold _mirrorMatrix, _matrix; numR; rewrite det9; destruct x, y; cbn [xorb]; ring|]. split; [|unfold _perspectiveMatrix, _matrix; numR; rewrite det9; ring].
  unfold ex_rot, _rotationMatrix, _matrix. cbv zeta. revert K. generalize (@tf_sin R _ RExact d) (@tf_cos R _ RExact d). intros st ct K. numR. destruct ccw; rewrite det9; (transitivity (ct * ct + st * st); [ring|exact K]).
Qed.
(** ** Areas *)
Lemma apply9 (a b p c d r x y s u v : R) : applyToPoint [[a; b; p]; [c; d; r]; [x; y; s]] (u, v) =
  if Reqb (u * p + v * r + 1 * s) 0 then Err ZeroDivisionError else Ok ((u * a + v * c + 1 * x) / (u * p + v * r + 1 * s), (u * b + v * d + 1 * y) / (u * p + v * r + 1 * s)).
Proof. unfold applyToPoint. cbn [multiplyRowByMatrix unpack3 bind idx nth_error]. unfold ndiv. numR. destruct (Reqb _ 0); reflexivity. Qed.
Theorem triangle_area (m : list (list R)) (p q r p' q' r' : pt) : shape 3 3 m -> applyToPoint m p = Ok p' -> applyToPoint m q = Ok q' -> applyToPoint m r = Ok r' ->
  twice_area [p'; q'; r'] * (weight m p * weight m q * weight m r) = det3 m * twice_area [p; q; r] /\ weight m p * weight m q * weight m r <> 0.
Proof.
  intros S. destruct (three_shape _ S) as (a & b & e & c & d & f & x & y & g & ->). destruct p as [p1 p2], q as [q1 q2], r as [r1 r2]. rewrite !apply9.
  destruct (Reqb_spec (p1 * e + p2 * f + 1 * g) 0) as [|P]; [discriminate|]. destruct (Reqb_spec (q1 * e + q2 * f + 1 * g) 0) as [|Q]; [discriminate|]. destruct (Reqb_spec (r1 * e + r2 * f + 1 * g) 0) as [|R0]; [discriminate|].
  intros [= <-] [= <-] [= <-]. unfold weight. rewrite det9. unfold twice_area, round_trip, wedge. cbn [fst snd]. rewrite !Rmult_1_l in *. split.
  - field. auto.
  - repeat apply Rmult_integral_contrapositive_currified; assumption.
Qed.
Lemma round_trip_affine a b c d x y first prev rest : let f := fun p : pt => (fst p * a + snd p * c + x, fst p * b + snd p * d + y) in
  let h := fun p : pt => (fst p * a + snd p * c) * y - (fst p * b + snd p * d) * x in
  round_trip (f first) (f prev) (map f rest) = (a * d - b * c) * round_trip first prev rest + h prev - h first.
Proof.
  intros f h. revert prev. induction rest as [|q rest IH]; intros prev; cbn [map round_trip].
  - unfold wedge, f, h. cbn [fst snd]. ring.
  - rewrite IH. unfold wedge, f, h. cbn [fst snd]. ring.
Qed.
Theorem polygon_area (m : list (list R)) (l l' : list pt) : affine m -> applyToSegment m l = Ok l' -> twice_area l' = det3 m * twice_area l.
Proof.
  intros (a & b & c & d & x & y & ->) E. set (f := fun p : pt => (fst p * a + snd p * c + x, fst p * b + snd p * d + y)).
  assert (F : l' = map f l).
  { unfold applyToSegment in E. rewrite (mapM_pure _ f) in E; [congruence|]. intros [u v] _. rewrite apply9. destruct (Reqb_spec (u * 0 + v * 0 + 1 * 1) 0) as [Z|Z]; [lra|]. unfold f; cbn [fst snd]; do 2 f_equal; field. }
  subst l'. rewrite det9. destruct l as [|p l]; cbn [map twice_area]; [ring|]. unfold f. rewrite (round_trip_affine a b c d x y p p l). ring.
Qed.
Theorem polygon_applies (m : list (list R)) (l : list pt) : affine m -> exists l', applyToSegment m l = Ok l'.
Proof.
  intros (a & b & c & d & x & y & ->). eexists. unfold applyToSegment. apply (mapM_pure _ (fun p : pt => (fst p * a + snd p * c + x, fst p * b + snd p * d + y))).
  intros [u v] _. rewrite apply9. destruct (Reqb_spec (u * 0 + v * 0 + 1 * 1) 0) as [Z|Z]; [lra|]. cbn [fst snd]; do 2 f_equal; field.
Qed.
Theorem affine_chain (ms : list (list (list R))) t : List.Forall affine ms -> mkTransform ms = Ok t -> affine t.
Proof.
  intros F E. destruct ms as [|m ms]; [discriminate E|]. inversion F as [|? ? Sm Fm]; subst. clear F. unfold mkTransform, concatenateMatrices in E.
  revert m Sm E. induction Fm as [|m' ms S' _ IH]; intros m Sm E; cbn [foldM] in E.
  - injection E as <-. exact Sm.
  - destruct Sm as (a & b & c & d & x & y & ->), S' as (a' & b' & c' & d' & x' & y' & ->). rewrite <- two, prod9 in E. cbn [bind] in E. apply IH in E; [exact E|].
    exists (a * a' + b * c'), (a * b' + b * d'), (c * a' + d * c'), (c * b' + d * d'), (x * a' + y * c' + x'), (x * b' + y * d' + y'). same; ring.
Qed.
Theorem affine_named (a b : pt) (sx sy d : R) (ccw x y : bool) : List.Forall affine [_translateMatrix a b; _scaleMatrix sx sy; _shearMatrix sx sy; _mirrorMatrix x y; ex_rot d ccw].
Proof. destruct a, b. repeat constructor; unfold _translateMatrix, _scaleMatrix, _shearMatrix, _mirrorMatrix, ex_rot, _rotationMatrix, _matrix, affine; numR; try destruct ccw; do 6 eexists; reflexivity. Qed.
