(** The tight bounding box (Bezier.py 267-274), with rounded and with exact trigonometry. *)
From Coq Require Import List ZArith Bool Reals Lra Lia Psatz.
From Verif Require Import Py Inst SpecGeom SpecMatrix SpecFit SpecUtil SpecBezier SpecOrder SpecBounds
  MTransform MBounds MBezUtil MPathUtil MBezier SpecCurve
  ProofTransform ProofMatrix ProofFit ProofUtil ProofBounds ProofBezier ProofBezier2 ProofBezier3 ProofBBox ProofAlign ProofLut.
Import ListNotations.
Local Open Scope R_scope.

(** ** Rounding is odd *)
Lemma Rround_opp x : Rround (- x) = (- Rround x)%Z.
Proof.
  unfold Rround. pose proof (Int_part_bounds x) as [A1 A2]. pose proof (Int_part_bounds (- x)) as [B1 B2].
  set (f := Int_part x) in *. set (g := Int_part (- x)) in *.
  destruct (Req_dec (x - IZR f) 0) as [Z|NZ].
  - assert (E : (g = - f)%Z).
    { assert (X : x = IZR f) by lra. rewrite X, <- opp_IZR in B1, B2. apply le_IZR in B1. rewrite <- plus_IZR in B2. apply lt_IZR in B2. lia. }
    rewrite E, opp_IZR. replace (- x - - IZR f) with 0 by lra. rewrite Z. destruct (Rlt_dec 0 (1 / 2)); [reflexivity|lra].
  - assert (E : (g = - f - 1)%Z).
    { assert (C1 : (g < - f)%Z) by (apply lt_IZR; rewrite opp_IZR; lra). assert (C2 : (- f - 2 < g)%Z) by (apply lt_IZR; rewrite minus_IZR, opp_IZR; lra). lia. }
    rewrite E, minus_IZR, opp_IZR. replace (- x - (- IZR f - 1)) with (1 - (x - IZR f)) by lra.
    destruct (Rlt_dec (1 - (x - IZR f)) (1 / 2)); destruct (Rlt_dec (x - IZR f) (1 / 2)); try lra; try lia.
    + destruct (Rlt_dec (1 / 2) (x - IZR f)); [lia|lra].
    + destruct (Rlt_dec (1 / 2) (1 - (x - IZR f))); [lia|lra].
    + destruct (Rlt_dec (1 / 2) (1 - (x - IZR f))); [lra|]. destruct (Rlt_dec (1 / 2) (x - IZR f)); [lra|].
      replace (- f - 1)%Z with (- (f + 1))%Z by lia. rewrite Z.even_opp, Z.even_add. destruct (Z.even f); simpl; lia.
Qed.
Lemma round15_opp x : round15 (- x) = - round15 x.
Proof. unfold round15. replace (- x * 10 ^ 15) with (- (x * 10 ^ 15)) by ring. rewrite Rround_opp, opp_IZR. unfold Rdiv. ring. Qed.

Section Tight.
  Context (rnd : R -> R) (odd : forall x, rnd (- x) = - rnd x).
  #[local] Hint Extern 0 (TrigOps R) => exact (RTrig rnd) : typeclass_instances.
  Lemma slope_turn (p : segment R) : (1 <= length p)%nat -> exists th, rawSlopeAngle p = Ok (degrees th) /\
    th = Ratan2 (snd (nth (length p - 1) p (0, 0)) - snd (nth 0 p (0, 0))) (fst (nth (length p - 1) p (0, 0)) - fst (nth 0 p (0, 0))).
  Proof.
    intros L. eexists. split; [|reflexivity]. unfold rawSlopeAngle, getDeltas. rewrite endPoints_nth by auto. cbn [bind].
    destruct (nth 0 p (0, 0)), (nth (length p - 1) p (0, 0)). reflexivity.
  Qed.
  Lemma rad_deg th : radians (degrees th) = th /\ radians (nopp (degrees th)) = - th.
  Proof. unfold radians, degrees. numRg. pose proof PI_RGT_0. split; field; lra. Qed.
  Theorem tight_frame (b : bezier R) : (2 <= length (cps b) <= 4)%nat ->
    let p0 := nth 0 (cps b) (0, 0) in let pn := nth (length (cps b) - 1) (cps b) (0, 0) in
    let th := Ratan2 (snd pn - snd p0) (fst pn - fst p0) in let u := (rnd (cos th), rnd (sin th)) in let k := vdot u u in
    exists c w h, 0 <= w /\ 0 <= h /\
      tightbbox b = Ok [[frame c u 0 0; frame c u 0 h]; [frame c u 0 h; frame c u w h]; [frame c u w h; frame c u w 0]; [frame c u w 0; frame c u 0 0]] /\
      (forall t, 0 <= t <= 1 -> exists x y, 0 <= x <= w /\ 0 <= y <= h /\ along p0 (curve (cps b) t) k = frame c u x y) /\
      (exists t y, 0 <= t <= 1 /\ along p0 (curve (cps b) t) k = frame c u 0 y) /\ (exists t y, 0 <= t <= 1 /\ along p0 (curve (cps b) t) k = frame c u w y) /\
      (exists t x, 0 <= t <= 1 /\ along p0 (curve (cps b) t) k = frame c u x 0) /\ (exists t x, 0 <= t <= 1 /\ along p0 (curve (cps b) t) k = frame c u x h).
  Proof.
    intros L p0 pn th u k. destruct (slope_turn (cps b) ltac:(lia)) as (th' & Ea & Et). fold p0 pn in Et. fold th in Et. subst th'.
    destruct (rad_deg th) as [R1 R2]. set (cs := rnd (cos th)) in *. set (sn := rnd (sin th)) in *.
    (* the aligned curve *)
    set (f := fun q : pt => (fst q * cs + snd q * sn + - (fst p0 * cs + snd p0 * sn), fst q * - sn + snd q * cs + - (fst p0 * - sn + snd p0 * cs))).
    assert (Al : alignPoints (cps b) (cps b) = Ok (map f (cps b))).
    { unfold alignPoints. rewrite Ea. cbn [bind]. rewrite (idx_nth (cps b) 0 (0, 0)) by lia. cbn [bind]. fold p0.
      destruct p0 as [ax ay] eqn:E0. unfold moveAndRotate, mkTransform, concatenateMatrices.
      unfold _translateMatrix, _rotationMatrix, _matrix, tf_sin, tf_cos. rewrite R2. numRg. rewrite cos_neg, sin_neg, odd. fold cs sn.
      cbn [bind foldM multiplyMatrixByMatrix mapM multiplyRowByMatrix unpack3]. numRg.
      unfold applyToSegment. apply mapM_pure. intros [x y] _. rewrite apply_Ok by lra. unfold f; cbn [fst snd]. apply Ok_pair; field; lra. }
    set (b' := mkBez (map f (cps b)) 0 1).
    assert (Al' : align b None = Ok b'). { unfold align. rewrite Al. cbn [bind]. rewrite newBezier_ok by (rewrite map_length; lia). reflexivity. }
    assert (Cv : forall t, curve (cps b') t = f (curve (cps b) t)).
    { intros t. unfold b'; cbn [cps]. apply (curve_affine (cps b) cs (- sn) sn cs (- (fst p0 * cs + snd p0 * sn)) (- (fst p0 * - sn + snd p0 * cs)) t). lia. }
    destruct (boundsRectangle_spec rnd b' ltac:(unfold b'; cbn [cps]; rewrite map_length; lia)) as (r & Er & In_ & Ti).
    set (back := fun q : pt => (fst p0 + (cs * fst q - sn * snd q), snd p0 + (sn * fst q + cs * snd q))).
    assert (Bf : forall q, back (f q) = along p0 q k).
    { intros [x y]. unfold back, f, along, k, u, vdot, vadd, vscale, vsub; cbn [fst snd]. f_equal; ring. }
    assert (Bk : forall o : pt, exists tr, rotateAndMove (nofZ 0, nofZ 0) o (degrees th) = Ok tr /\
      forall q, applyToPoint tr q = Ok (fst o + (cs * fst q - sn * snd q), snd o + (sn * fst q + cs * snd q))).
    { intros [ax ay]. unfold rotateAndMove, mkTransform, concatenateMatrices.
      unfold _translateMatrix, _rotationMatrix, _matrix, tf_sin, tf_cos. rewrite R1. numRg. fold cs sn.
      cbn [bind foldM multiplyMatrixByMatrix mapM multiplyRowByMatrix unpack3]. numRg. eexists. split; [reflexivity|].
      intros [x y]. rewrite apply_Ok by lra. cbn [fst snd]. apply Ok_pair; field; lra. }
    destruct (Bk p0) as (tr & Etr & Ap).
    assert (Tb : tightbbox b = Ok (map (map back) (rcontour r))).
    { unfold tightbbox. rewrite Al'. cbn [bind]. rewrite Er. cbn [bind]. rewrite Ea. cbn [bind]. rewrite (idx_nth (cps b) 0 (0, 0)) by lia. cbn [bind]. fold p0.
      rewrite Etr. cbn [bind]. unfold applyToContour, applyToSegment. apply mapM_pure. intros s _. apply mapM_pure. intros q _. apply Ap. }
    set (c := back (left r, bottom r)). exists c, (right r - left r), (top r - bottom r).
    assert (Fr : forall x y, frame c u (x - left r) (y - bottom r) = back (x, y)).
    { intros x y. unfold frame, c, back, u, turned, vadd, vscale; cbn [fst snd]. fold cs sn. f_equal; ring. }
    assert (Enc : forall t, 0 <= t <= 1 -> left r <= fst (f (curve (cps b) t)) <= right r /\ bottom r <= snd (f (curve (cps b) t)) <= top r).
    { intros t Ht. pose proof (In_ t Ht) as E. rewrite Cv in E. apply enclosesPoint_iff in E. unfold in_box in E. numR. rewrite !Rleb_true in E. lra. }
    pose proof (Enc 0 ltac:(lra)) as E0. split; [lra|]. split; [lra|]. split.
    { rewrite Tb. unfold rcontour. cbn [map]. repeat (f_equal; try (rewrite <- Fr; unfold Rminus; rewrite ?Rplus_opp_r; reflexivity)). }
    assert (Pt : forall t, along p0 (curve (cps b) t) k = frame c u (fst (f (curve (cps b) t)) - left r) (snd (f (curve (cps b) t)) - bottom r)).
    { intros t. rewrite Fr, <- Bf. f_equal. }
    split.
    { intros t Ht. exists (fst (f (curve (cps b) t)) - left r), (snd (f (curve (cps b) t)) - bottom r). specialize (Enc t Ht). split; [lra|]. split; [lra|]. apply Pt. }
    destruct Ti as ((t1 & T1 & F1) & (t2 & T2 & F2) & (t3 & T3 & F3) & (t4 & T4 & F4)).
    { exists 0. split; [lra|]. rewrite Cv. assert (C0 : curve (cps b) 0 = p0) by (apply curve_0; lia). rewrite C0. unfold f; cbn [fst snd].
      replace (fst p0 * cs + snd p0 * sn + - (fst p0 * cs + snd p0 * sn)) with 0 by ring. replace (fst p0 * - sn + snd p0 * cs + - (fst p0 * - sn + snd p0 * cs)) with 0 by ring. rewrite Rabs_R0. lra. }
    rewrite Cv in F1, F2, F3, F4. split; [|split; [|split]].
    - exists t1. eexists. split; [exact T1|]. rewrite Pt, F1. replace (left r - left r) with 0 by ring. reflexivity.
    - exists t2. eexists. split; [exact T2|]. rewrite Pt, F2. reflexivity.
    - exists t3. eexists. split; [exact T3|]. rewrite Pt, F3. replace (bottom r - bottom r) with 0 by ring. reflexivity.
    - exists t4. eexists. split; [exact T4|]. rewrite Pt, F4. reflexivity.
  Qed.
End Tight.
(** C80 *)
Theorem tight_rounded (b : bezier R) : (2 <= length (cps b) <= 4)%nat ->
  let p0 := nth 0 (cps b) (0, 0) in let pn := nth (length (cps b) - 1) (cps b) (0, 0) in
  exists c u w h k, 0 <= w /\ 0 <= h /\ vdot u u = k /\ Rabs (k - 1) <= 4 * / 10 ^ 15 /\
    (let v := vsub (vscale (vdist p0 pn) u) (vsub pn p0) in Rabs (fst v) <= / 2 * / 10 ^ 15 * vdist p0 pn /\ Rabs (snd v) <= / 2 * / 10 ^ 15 * vdist p0 pn) /\
    @tightbbox R RNum RPy b = Ok [[frame c u 0 0; frame c u 0 h]; [frame c u 0 h; frame c u w h]; [frame c u w h; frame c u w 0]; [frame c u w 0; frame c u 0 0]] /\
    (forall t, 0 <= t <= 1 -> exists x y, 0 <= x <= w /\ 0 <= y <= h /\ along p0 (curve (cps b) t) k = frame c u x y) /\
    (exists t y, 0 <= t <= 1 /\ along p0 (curve (cps b) t) k = frame c u 0 y) /\ (exists t y, 0 <= t <= 1 /\ along p0 (curve (cps b) t) k = frame c u w y) /\
    (exists t x, 0 <= t <= 1 /\ along p0 (curve (cps b) t) k = frame c u x 0) /\ (exists t x, 0 <= t <= 1 /\ along p0 (curve (cps b) t) k = frame c u x h).
Proof.
  intros L p0 pn. destruct (tight_frame round15 round15_opp b L) as (c & w & h & W & H & E & I & S). fold p0 pn in E, I, S.
  set (th := Ratan2 (snd pn - snd p0) (fst pn - fst p0)) in *. set (u := (round15 (cos th), round15 (sin th))) in *.
  exists c, u, w, h, (vdot u u). split; [exact W|]. split; [exact H|]. split; [reflexivity|]. split; [|split; [|split; [exact E|split; [exact I|exact S]]]].
  - pose proof (rounded_pair (th * 180 / PI)) as K. unfold rad in K. replace (th * 180 / PI * PI / 180) with th in K by (pose proof PI_RGT_0; field; lra).
    unfold vdot, u; cbn [fst snd]. replace (round15 (cos th) * round15 (cos th) + round15 (sin th) * round15 (sin th)) with (round15 (cos th) ^ 2 + round15 (sin th) ^ 2) by ring. exact K.
  - destruct (atan2_polar (snd pn - snd p0) (fst pn - fst p0)) as [A B]. fold th in A, B.
    replace (sqrt _) with (vdist p0 pn) in A, B by (unfold vdist, dist2; f_equal; ring). set (d := vdist p0 pn) in *. assert (0 <= d) by apply sqrt_pos.
    unfold vsub, vscale, u; cbn [fst snd]. rewrite <- A, <- B, <- !Rmult_minus_distr_l, !Rabs_mult, (Rabs_pos_eq d) by assumption.
    pose proof (round15_err (cos th)). pose proof (round15_err (sin th)). split; rewrite Rmult_comm; apply Rmult_le_compat_r; assumption.
Qed.
Theorem tight_exact (b : bezier R) : (2 <= length (cps b) <= 4)%nat ->
  let p0 := nth 0 (cps b) (0, 0) in let pn := nth (length (cps b) - 1) (cps b) (0, 0) in
  exists c u w h, 0 <= w /\ 0 <= h /\ vdot u u = 1 /\ vscale (vdist p0 pn) u = vsub pn p0 /\
    @tightbbox R RNum RExact b = Ok [[frame c u 0 0; frame c u 0 h]; [frame c u 0 h; frame c u w h]; [frame c u w h; frame c u w 0]; [frame c u w 0; frame c u 0 0]] /\
    (forall t, 0 <= t <= 1 -> exists x y, 0 <= x <= w /\ 0 <= y <= h /\ curve (cps b) t = frame c u x y) /\
    (exists t y, 0 <= t <= 1 /\ curve (cps b) t = frame c u 0 y) /\ (exists t y, 0 <= t <= 1 /\ curve (cps b) t = frame c u w y) /\
    (exists t x, 0 <= t <= 1 /\ curve (cps b) t = frame c u x 0) /\ (exists t x, 0 <= t <= 1 /\ curve (cps b) t = frame c u x h).
Proof.
  intros L p0 pn. destruct (tight_frame (fun x => x) (fun _ => eq_refl) b L) as (c & w & h & W & H & E & I & S). fold p0 pn in E, I, S.
  set (th := Ratan2 (snd pn - snd p0) (fst pn - fst p0)) in *. set (u := (cos th, sin th)) in *.
  assert (K : vdot u u = 1). { unfold vdot, u; cbn [fst snd]. pose proof (sin2_cos2 th) as K. unfold Rsqr in K. lra. }
  rewrite K in I, S. assert (One : forall q, along p0 q 1 = q). { intros [x y]. unfold along, vadd, vscale, vsub; cbn [fst snd]. f_equal; ring. }
  exists c, u, w, h. split; [exact W|]. split; [exact H|]. split; [exact K|]. split.
  { destruct (atan2_polar (snd pn - snd p0) (fst pn - fst p0)) as [A B]. fold th in A, B.
    replace (sqrt _) with (vdist p0 pn) in A, B by (unfold vdist, dist2; f_equal; ring). unfold vsub, vscale, u; cbn [fst snd]. now rewrite A, B. }
  split; [exact E|]. split; [intros t T; destruct (I t T) as (x & y & X & Y & Z); exists x, y; rewrite <- (One (curve _ _)); auto|].
  destruct S as ((t1 & y1 & A1 & A2) & (t2 & y2 & B1 & B2) & (t3 & y3 & C1 & C2) & (t4 & y4 & D1 & D2)). rewrite One in A2, B2, C2, D2.
  split; [exists t1, y1; auto|]. split; [exists t2, y2; auto|]. split; [exists t3, y3; auto|]. exists t4, y4; auto.
Qed.
