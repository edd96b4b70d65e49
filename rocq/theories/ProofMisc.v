(** Proofs for C87-C92: the remaining small functions of Transform.py, PathUtilities.py,
    BezierUtilities.py and Bezier.py. *)
From Coq Require Import List ZArith Bool Reals Lra Lia Psatz.
From Verif Require Import Py Inst SpecGeom SpecMatrix SpecFit SpecUtil SpecBezier SpecOrder SpecBounds SpecTransform SpecCurve
  MTransform MBounds MBezUtil MPathUtil MBezier MContour
  ProofTransform ProofMatrix ProofFit ProofUtil ProofBounds ProofBezier ProofBezier2 ProofBezier3 ProofBBox ProofAlign ProofReduce ProofInter ProofTight ProofContour.
Import ListNotations.
Local Open Scope R_scope.

(** ** C87 *)
Section Trig.
  Context (rnd : R -> R).
  #[local] Hint Extern 0 (TrigOps R) => exact (RTrig rnd) : typeclass_instances.
  Definition turn15 (deg : R) (v : pt) : pt :=
    let s := rnd (sin (rad deg)) in let k := rnd (cos (rad deg)) in (k * fst v - s * snd v, s * fst v + k * snd v).
  Lemma moveAndRotate_raw (a b : pt) (deg : R) : exists t, moveAndRotate a b deg = Ok t /\
    forall p, applyToPoint t p = Ok (turn15 deg (vadd p (vsub b a))).
  Proof.
    destruct a as [ax ay], b as [bx by']. eexists; (split; [utr; reflexivity|]). intros [x y].
    unfold turn15, vadd, vsub, rad; cbv zeta; rewrite apply_Ok by lra; simpl; apply Ok_pair; unfold tf_sin, tf_cos, radians; numR; rewrite ?rad_assoc; field.
  Qed.
  Lemma rotateAndMove_raw (a b : pt) (deg : R) : exists t, rotateAndMove a b deg = Ok t /\
    forall p, applyToPoint t p = Ok (vadd (turn15 deg p) (vsub b a)).
  Proof.
    destruct a as [ax ay], b as [bx by']. eexists; (split; [utr; reflexivity|]). intros [x y].
    unfold turn15, vadd, vsub, rad; cbv zeta; rewrite apply_Ok by lra; simpl; apply Ok_pair; unfold tf_sin, tf_cos, radians; numR; rewrite ?rad_assoc; field.
  Qed.
End Trig.
Lemma turn_exact deg v : turn15 (fun x => x) deg v = rot (rad deg) v.
Proof. reflexivity. Qed.
Lemma rad_neg deg : rad (- deg) = - rad deg.
Proof. unfold rad. field. Qed.
Lemma turn_back (rnd : R -> R) deg v : (forall x, rnd (- x) = - rnd x) ->
  turn15 rnd (- deg) (turn15 rnd deg v) = vscale (rnd (cos (rad deg)) ^ 2 + rnd (sin (rad deg)) ^ 2) v.
Proof. intros O. unfold turn15, vscale. cbv zeta. rewrite rad_neg, sin_neg, cos_neg, O. cbn [fst snd]. f_equal; ring. Qed.
Lemma rot_back a v : rot (- a) (rot a v) = v.
Proof.
  destruct v as [x y]. unfold rot. rewrite sin_neg, cos_neg. cbn [fst snd]. pose proof (sin2_cos2 a) as N. unfold Rsqr in N.
  f_equal; [transitivity ((sin a * sin a + cos a * cos a) * x) | transitivity ((sin a * sin a + cos a * cos a) * y)]; try ring; rewrite N; ring.
Qed.
Theorem move_rotate_exact (a b : pt) (deg : R) :
  let tr := RExact in
  exists m r m' r', moveAndRotate a b deg = Ok m /\ rotateAndMove a b deg = Ok r /\
    moveAndRotate b a (- deg) = Ok m' /\ rotateAndMove b a (- deg) = Ok r' /\
    forall p, exists q1 q2, applyToPoint m p = Ok q1 /\ applyToPoint r p = Ok q2 /\
      q1 = rot (deg * PI / 180) (vadd p (vsub b a)) /\ q2 = vadd (rot (deg * PI / 180) p) (vsub b a) /\
      applyToPoint r' q1 = Ok p /\ applyToPoint m' q2 = Ok p.
Proof.
  destruct (moveAndRotate_raw (fun x => x) a b deg) as (m & Em & Hm).
  destruct (rotateAndMove_raw (fun x => x) a b deg) as (r & Er & Hr).
  destruct (moveAndRotate_raw (fun x => x) b a (- deg)) as (m' & Em' & Hm').
  destruct (rotateAndMove_raw (fun x => x) b a (- deg)) as (r' & Er' & Hr').
  cbv zeta. exists m, r, m', r'. split; [exact Em|]. split; [exact Er|]. split; [exact Em'|]. split; [exact Er'|].
  intros p. do 2 eexists. split; [apply Hm|]. split; [apply Hr|]. rewrite !turn_exact. split; [reflexivity|]. split; [reflexivity|]. split.
  - rewrite Hr', turn_exact, rad_neg, rot_back. destruct a, b, p; unfold vadd, vsub; cbn [fst snd]. apply Ok_pair; ring.
  - rewrite Hm', turn_exact, rad_neg.
    replace (vadd (vadd (rot (rad deg) p) (vsub b a)) (vsub a b)) with (rot (rad deg) p) by
      (destruct a, b; unfold vadd, vsub; cbn [fst snd]; rewrite (surjective_pairing (rot _ _)) at 1; f_equal; ring).
    now rewrite rot_back.
Qed.
Lemma turn15_near deg v : let w := rot (rad deg) v in let q := turn15 round15 deg v in
  Rabs (fst q - fst w) <= / 2 * / 10 ^ 15 * (Rabs (fst v) + Rabs (snd v)) /\
  Rabs (snd q - snd w) <= / 2 * / 10 ^ 15 * (Rabs (fst v) + Rabs (snd v)).
Proof.
  cbv zeta. unfold turn15. cbv zeta. destruct (err_eq _ _ _ (round15_err (cos (rad deg)))) as (e1 & -> & H1).
  destruct (err_eq _ _ _ (round15_err (sin (rad deg)))) as (e2 & -> & H2).
  set (d := / 2 * / 10 ^ 15) in *. destruct v as [x y].
  assert (B : forall a b e f, Rabs e <= d -> Rabs f <= d -> Rabs (e * a + f * b) <= d * (Rabs a + Rabs b)).
  { intros a b e f He Hf. eapply Rle_trans; [apply Rabs_triang|]. rewrite !Rabs_mult, Rmult_plus_distr_l.
    apply Rplus_le_compat; apply Rmult_le_compat_r; auto using Rabs_pos. }
  assert (O : forall e, Rabs e <= d -> Rabs (- e) <= d) by (intros; now rewrite Rabs_Ropp).
  unfold rot; cbn [fst snd]; split.
  - replace (_ - _) with (e1 * x + (- e2) * y) by ring; auto.
  - replace (_ - _) with (e2 * x + e1 * y) by ring; auto.
Qed.
Theorem move_rotate_rounded (a b : pt) (deg : R) :
  let tr := RPy in
  exists m r m' r', moveAndRotate a b deg = Ok m /\ rotateAndMove a b deg = Ok r /\
    moveAndRotate b a (- deg) = Ok m' /\ rotateAndMove b a (- deg) = Ok r' /\
    forall p, exists q1 q2 p1 p2 k, applyToPoint m p = Ok q1 /\ applyToPoint r p = Ok q2 /\
      applyToPoint r' q1 = Ok p1 /\ applyToPoint m' q2 = Ok p2 /\
      (let v := vadd p (vsub b a) in let w := rot (deg * PI / 180) v in
        Rabs (fst q1 - fst w) <= / 2 * / 10 ^ 15 * (Rabs (fst v) + Rabs (snd v)) /\
        Rabs (snd q1 - snd w) <= / 2 * / 10 ^ 15 * (Rabs (fst v) + Rabs (snd v))) /\
      (let w := vadd (rot (deg * PI / 180) p) (vsub b a) in
        Rabs (fst q2 - fst w) <= / 2 * / 10 ^ 15 * (Rabs (fst p) + Rabs (snd p)) /\
        Rabs (snd q2 - snd w) <= / 2 * / 10 ^ 15 * (Rabs (fst p) + Rabs (snd p))) /\
      Rabs (k - 1) <= 4 * / 10 ^ 15 /\
      p1 = vadd p (vscale (k - 1) (vadd p (vsub b a))) /\ p2 = vscale k p.
Proof.
  destruct (moveAndRotate_raw round15 a b deg) as (m & Em & Hm).
  destruct (rotateAndMove_raw round15 a b deg) as (r & Er & Hr).
  destruct (moveAndRotate_raw round15 b a (- deg)) as (m' & Em' & Hm').
  destruct (rotateAndMove_raw round15 b a (- deg)) as (r' & Er' & Hr').
  cbv zeta. exists m, r, m', r'. split; [exact Em|]. split; [exact Er|]. split; [exact Em'|]. split; [exact Er'|].
  intros p. exists (turn15 round15 deg (vadd p (vsub b a))), (vadd (turn15 round15 deg p) (vsub b a)).
  do 2 eexists. exists (round15 (cos (rad deg)) ^ 2 + round15 (sin (rad deg)) ^ 2).
  split; [apply Hm|]. split; [apply Hr|]. split; [apply Hr'|]. split; [apply Hm'|].
  split; [apply turn15_near|]. split.
  { destruct (turn15_near deg p) as [A B]. 
    split; [replace (_ - _) with (fst (turn15 round15 deg p) - fst (rot (rad deg) p)) by (unfold vadd, rad; cbn [fst snd]; ring)
           |replace (_ - _) with (snd (turn15 round15 deg p) - snd (rot (rad deg) p)) by (unfold vadd, rad; cbn [fst snd]; ring)]; auto. }
  split; [apply rounded_pair|]. split.
  - rewrite turn_back by apply round15_opp. destruct a, b, p; unfold vadd, vsub, vscale; cbn [fst snd]. f_equal; ring.
  - replace (vadd (vadd (turn15 round15 deg p) (vsub b a)) (vsub a b)) with (turn15 round15 deg p) by
      (destruct a, b; unfold vadd, vsub; cbn [fst snd]; rewrite (surjective_pairing (turn15 _ _ _)) at 1; f_equal; ring).
    rewrite turn_back by apply round15_opp. reflexivity.
Qed.

(** ** C88 *)
Section RotAny.
  Context {T : Type} {N : NumOps T} {Tr : TrigOps T}.
  Lemma rotationAbout_total (c : point T) deg ccw : exists t, rotationAbout c deg ccw = Ok t.
  Proof. destruct c, ccw; eexists; cbn; reflexivity. Qed.
  Theorem rotate_lists (about : point T) (deg : T) (ccw : bool) :
    (forall s s', rotateSegmentAbout s about deg ccw = Ok s' <-> Forall2 (fun p q => rotatePointAbout p about deg ccw = Ok q) s s') /\
    (forall c c', rotateContourAbout c about deg ccw = Ok c' <-> Forall2 (Forall2 (fun p q => rotatePointAbout p about deg ccw = Ok q)) c c') /\
    (forall cs cs', rotateContoursAbout cs about deg ccw = Ok cs' <->
       Forall2 (Forall2 (Forall2 (fun p q => rotatePointAbout p about deg ccw = Ok q))) cs cs').
  Proof.
    destruct (rotationAbout_total about deg ccw) as (t & E).
    unfold rotateSegmentAbout, rotateContourAbout, rotateContoursAbout, rotatePointAbout. rewrite E. cbn [bind].
    split; [|split]; intros x y; [apply applyToSegment_iff | apply applyToContour_iff | apply applyToContours_iff].
  Qed.
End RotAny.
Theorem rotate_point (p c : pt) (deg : R) (ccw : bool) :
  let tr := RPy in
  exists q r, rotatePointAbout p c deg ccw = Ok q /\ rotatePointAbout q c deg (negb ccw) = Ok r /\
    rotatePointAbout c c deg ccw = Ok c /\ rotatePointAbout p c (- deg) (negb ccw) = Ok q /\
    Rabs (dist2 q c - dist2 p c) <= 4 * / 10 ^ 15 * dist2 p c /\
    (exists k, Rabs (k - 1) <= 4 * / 10 ^ 15 /\ vsub r c = vscale k (vsub p c)) /\
    let v := vsub p c in let w := vadd c (rot (if ccw then deg * PI / 180 else - (deg * PI / 180)) v) in
    Rabs (fst q - fst w) <= / 2 * / 10 ^ 15 * (Rabs (fst v) + Rabs (snd v)) /\
    Rabs (snd q - snd w) <= / 2 * / 10 ^ 15 * (Rabs (fst v) + Rabs (snd v)).
Proof.
  destruct (rotation_direction c deg ccw p) as (t & q & E & A & D).
  destruct (rotation_back c deg ccw p) as (t1 & t' & q1 & r & E1 & E' & A1 & A' & B).
  destruct (rotation_fixes_centre c deg ccw) as (t2 & E2 & C).
  destruct (rotation_distance c deg ccw p c) as (t3 & q3 & q4 & E3 & A3 & A4 & K).
  rewrite E in E1, E2, E3. injection E1 as <-. injection E2 as <-. injection E3 as <-.
  rewrite A in A1, A3. injection A1 as <-. injection A3 as <-. rewrite C in A4. injection A4 as <-.
  cbv zeta. exists q, r. unfold rotatePointAbout.
  split; [etransitivity; [apply (f_equal (fun m => bind m _)); exact E|exact A]|].
  split; [etransitivity; [apply (f_equal (fun m => bind m _)); exact E'|exact A']|].
  split; [etransitivity; [apply (f_equal (fun m => bind m _)); exact E|exact C]|].
  split; [|split; [exact K|split; [exact B|exact D]]].
  destruct (rotationAbout_raw round15 c (- deg) (negb ccw) p) as (tn & En & Hn).
  destruct (rotationAbout_raw round15 c deg ccw p) as (tp & Ep & Hp).
  assert (X : tp = t) by (assert (Y : Ok tp = Ok t) by (etransitivity; [symmetry; exact Ep|exact E]); now injection Y). subst tp.
  etransitivity; [apply (f_equal (fun m => bind m _)); exact En|]. cbn [bind]. rewrite Hn, <- A, Hp. cbv zeta.
  fold (rad deg). fold (rad (- deg)). rewrite rad_neg, sin_neg, cos_neg, round15_opp.
  destruct ccw; cbn [negb]; apply Ok_pair; cbn [fst snd vadd]; ring.
Qed.

(** ** C89 *)
Lemma atan2_range y x : - PI < Ratan2 y x <= PI.
Proof.
  unfold Ratan2. pose proof PI_RGT_0 as P. pose proof (atan_bound (y / x)) as B.
  destruct (Rlt_dec 0 x); [lra|]. destruct (Rlt_dec x 0).
  - destruct (Rle_dec 0 y).
    + split; [lra|]. destruct (Req_dec y 0) as [->|Ny].
      * unfold Rdiv. rewrite Rmult_0_l, atan_0. lra.
      * assert (y / x < 0) by (pose proof (Rinv_lt_0_compat x ltac:(lra)); unfold Rdiv; nra).
        pose proof (atan_increasing _ _ H). rewrite atan_0 in H0. lra.
    + split; [|lra]. assert (0 < y / x). { replace (y / x) with ((- y) / (- x)) by (field; lra). apply Rdiv_lt_0_compat; lra. }
      pose proof (atan_increasing _ _ H). rewrite atan_0 in H0. lra.
  - destruct (Rlt_dec 0 y); [lra|]. destruct (Rlt_dec y 0); lra.
Qed.
Section Slope.
  Context (rnd : R -> R).
  #[local] Hint Extern 0 (TrigOps R) => exact (RTrig rnd) : typeclass_instances.
  Lemma rad_degrees a : degrees a * PI / 180 = a.
  Proof. unfold degrees. numRg. field. apply PI_neq0. Qed.
  Lemma vdist_h (a b : pt) : vdist a b = sqrt ((fst b - fst a) * (fst b - fst a) + (snd b - snd a) * (snd b - snd a)).
  Proof. unfold vdist, dist2. f_equal. ring. Qed.
  Lemma polar_zero (a : pt) : Ratan2 (snd a - snd a) (fst a - fst a) = 0.
  Proof. unfold Rminus. rewrite !Rplus_opp_r. unfold Ratan2. destruct (Rlt_dec 0 0); [lra|]. destruct (Rlt_dec 0 0); [lra|]. destruct (Rlt_dec 0 0); lra. Qed.
  Lemma deg_bound t c : t <= c * PI / 180 -> degrees t <= c.
  Proof. intros H. pose proof PI_RGT_0. rewrite <- (rad_degrees t) in H. nra. Qed.
  Theorem rawSlopeAngle_spec (s : segment R) (a b : pt) : seg_first s = Some a -> seg_last s = Some b ->
    exists d, rawSlopeAngle s = Ok d /\ -180 < d <= 180 /\
      vsub b a = vscale (vdist a b) (cos (d * PI / 180), sin (d * PI / 180)) /\ (a = b -> d = 0).
  Proof.
    intros F L. unfold rawSlopeAngle, getDeltas. rewrite (endPoints_ends s a b F L). cbn [bind].
    eexists; split; [reflexivity|]. numRg. set (t := Ratan2 (snd b - snd a) (fst b - fst a)).
    pose proof (atan2_range (snd b - snd a) (fst b - fst a)) as Rg. fold t in Rg.
    rewrite rad_degrees. pose proof PI_RGT_0 as P. split; [|split].
    - pose proof (rad_degrees t). nra.
    - destruct (atan2_polar (snd b - snd a) (fst b - fst a)) as [A B]. fold t in A, B. rewrite <- vdist_h in A, B.
      unfold vsub, vscale; cbn [fst snd]. now rewrite A, B.
    - intros ->. replace t with 0 by (symmetry; apply polar_zero). unfold degrees. numRg. field. apply PI_neq0.
  Qed.
  Theorem slopeAngle_spec (s : segment R) (a b : pt) : seg_first s = Some a -> seg_last s = Some b ->
    exists d, slopeAngle s = Ok d /\ 0 <= d <= 90 /\
      Rabs (fst b - fst a) = vdist a b * sin (d * PI / 180) /\ Rabs (snd b - snd a) = vdist a b * cos (d * PI / 180) /\ (a = b -> d = 0).
  Proof.
    intros F L. destruct (slopeAngle_range rnd s a b F L) as (d & E & Rg). exists d. split; auto. split; auto.
    unfold slopeAngle, getDeltas in E. rewrite (endPoints_ends s a b F L) in E. cbn [bind] in E. 
    assert (Ed : d = degrees (Ratan2 (Rabs (fst b - fst a)) (Rabs (snd b - snd a)))) by (symmetry; now injection E).
    set (t := Ratan2 (Rabs (fst b - fst a)) (Rabs (snd b - snd a))) in *. rewrite Ed, rad_degrees.
    destruct (atan2_polar (Rabs (fst b - fst a)) (Rabs (snd b - snd a))) as [A B]. fold t in A, B.
    replace (sqrt (Rabs (snd b - snd a) * Rabs (snd b - snd a) + Rabs (fst b - fst a) * Rabs (fst b - fst a))) with (vdist a b) in A, B.
    - split; auto. split; auto. intros ->. unfold t. replace (fst b - fst b) with 0 by ring. replace (snd b - snd b) with 0 by ring. rewrite Rabs_R0.
      unfold Ratan2. destruct (Rlt_dec 0 0); [lra|]. destruct (Rlt_dec 0 0); [lra|]. destruct (Rlt_dec 0 0); [lra|]. unfold degrees. numRg. field. apply PI_neq0.
    - rewrite vdist_h. f_equal. rewrite <- !Rabs_mult, !Rabs_pos_eq by apply Rle_0_sqr. ring.
  Qed.
  Theorem slope_spec (s : segment R) (a b : pt) : seg_first s = Some a -> seg_last s = Some b ->
    (fst a = fst b -> slope s = Ok SInf) /\
    (fst a <> fst b -> exists m d, slope s = Ok (SFin m) /\ rawSlopeAngle s = Ok d /\
       snd b - snd a = m * (fst b - fst a) /\ m = tan (d * PI / 180)).
  Proof.
    intros F L. unfold slope, getDeltas. destruct (rawSlopeAngle_spec s a b F L) as (d & Ed & _ & V & _).
    rewrite (endPoints_ends s a b F L). cbn [bind]. numRg. split.
    - intros E. rewrite E. destruct (Reqb_spec (fst b - fst b) 0); [reflexivity|lra].
    - intros Nx. destruct (Reqb_spec (fst b - fst a) 0); [lra|]. do 2 eexists. split; [reflexivity|]. split; [exact Ed|]. split; [field; auto|].
      unfold vsub, vscale in V. cbn [fst snd] in V. injection V as V1 V2. unfold tan. rewrite V2, V1. 
      field. split.
      + intros K. rewrite K in V1. lra.
      + intros K. rewrite K in V1. lra.
  Qed.
End Slope.

(** ** C90 *)
Lemma atan2_opp y x : (y = 0 -> 0 <= x) -> Ratan2 (- y) x = - Ratan2 y x.
Proof.
  intros H. unfold Ratan2. destruct (Rlt_dec 0 x).
  - replace (- y / x) with (- (y / x)) by (field; lra). apply atan_opp.
  - destruct (Rlt_dec x 0).
    + assert (y <> 0) by (intros K; specialize (H K); lra). replace (- y / x) with (- (y / x)) by (field; lra). rewrite atan_opp.
      destruct (Rle_dec 0 (- y)), (Rle_dec 0 y); lra.
    + destruct (Rlt_dec 0 (- y)), (Rlt_dec 0 y), (Rlt_dec (- y) 0), (Rlt_dec y 0); lra.
Qed.
Section Angle.
  Context (rnd : R -> R).
  #[local] Hint Extern 0 (TrigOps R) => exact (RTrig rnd) : typeclass_instances.
  Lemma angle_at (o v1 v2 : pt) : angle o v1 v2 = Ratan2 (vcross (vsub v1 o) (vsub v2 o)) (vdot (vsub v1 o) (vsub v2 o)).
  Proof. reflexivity. Qed.
  Theorem angle_spec (o v1 v2 : pt) : let th := angle o v1 v2 in
    - PI < th <= PI /\
    vscale (vdist o v2) (rot th (vsub v1 o)) = vscale (vdist o v1) (vsub v2 o) /\
    ((v1 = o \/ v2 = o) -> th = 0) /\
    (th <> PI -> angle o v2 v1 = - th) /\ (th = PI -> angle o v2 v1 = PI).
  Proof.
    intros th. pose proof (atan2_range (vcross (vsub v1 o) (vsub v2 o)) (vdot (vsub v1 o) (vsub v2 o))) as Rg. rewrite <- angle_at in Rg. fold th in Rg.
    split; auto. split; [|split].
    - destruct (atan2_polar (vcross (vsub v1 o) (vsub v2 o)) (vdot (vsub v1 o) (vsub v2 o))) as [A B]. rewrite <- angle_at in A, B. fold th in A, B.
      set (a := vsub v1 o) in *. set (b := vsub v2 o) in *.
      assert (Da : vdist o v1 = sqrt (fst a * fst a + snd a * snd a)) by (rewrite vdist_h; reflexivity).
      assert (Db : vdist o v2 = sqrt (fst b * fst b + snd b * snd b)) by (rewrite vdist_h; reflexivity).
      assert (Pa : 0 <= fst a * fst a + snd a * snd a) by (pose proof (Rle_0_sqr (fst a)); pose proof (Rle_0_sqr (snd a)); unfold Rsqr in *; lra).
      assert (Pb : 0 <= fst b * fst b + snd b * snd b) by (pose proof (Rle_0_sqr (fst b)); pose proof (Rle_0_sqr (snd b)); unfold Rsqr in *; lra).
      assert (H : sqrt (vdot a b * vdot a b + vcross a b * vcross a b) = vdist o v1 * vdist o v2).
      { rewrite Da, Db, <- sqrt_mult by auto. f_equal. unfold vdot, vcross. ring. }
      rewrite H in A, B. assert (Sa : vdist o v1 * vdist o v1 = fst a * fst a + snd a * snd a) by (rewrite Da; now apply sqrt_sqrt).
      destruct (Req_dec (vdist o v1) 0) as [Z|Z].
      + rewrite Z in Sa. assert (fst a = 0 /\ snd a = 0) as [X Y].
        { pose proof (Rle_0_sqr (fst a)); pose proof (Rle_0_sqr (snd a)); unfold Rsqr in *. split; apply Rsqr_0_uniq; unfold Rsqr; lra. }
        rewrite Z. unfold vscale, rot. rewrite X, Y. cbn [fst snd]. f_equal; ring.
      + unfold vscale, rot. cbn [fst snd]. f_equal.
        * apply (Rmult_eq_reg_l (vdist o v1)); auto.
          transitivity ((vdist o v1 * vdist o v2 * cos th) * fst a - (vdist o v1 * vdist o v2 * sin th) * snd a); [ring|].
          rewrite A, B, <- Rmult_assoc, Sa. unfold vdot, vcross. ring.
        * apply (Rmult_eq_reg_l (vdist o v1)); auto.
          transitivity ((vdist o v1 * vdist o v2 * sin th) * fst a + (vdist o v1 * vdist o v2 * cos th) * snd a); [ring|].
          rewrite A, B, <- Rmult_assoc, Sa. unfold vdot, vcross. ring.
    - intros E. unfold th. rewrite angle_at.
      replace (vcross (vsub v1 o) (vsub v2 o)) with 0 by (destruct E as [-> | ->]; unfold vcross, vsub; cbn [fst snd]; ring).
      replace (vdot (vsub v1 o) (vsub v2 o)) with 0 by (destruct E as [-> | ->]; unfold vdot, vsub; cbn [fst snd]; ring).
      unfold Ratan2. destruct (Rlt_dec 0 0); [lra|]. destruct (Rlt_dec 0 0); [lra|]. destruct (Rlt_dec 0 0); lra.
    - assert (S : angle o v2 v1 = Ratan2 (- vcross (vsub v1 o) (vsub v2 o)) (vdot (vsub v1 o) (vsub v2 o))).
      { rewrite angle_at. f_equal; unfold vcross, vdot; ring. }
      assert (Q : th = PI -> vcross (vsub v1 o) (vsub v2 o) = 0 /\ vdot (vsub v1 o) (vsub v2 o) <= 0).
      { intros K. destruct (atan2_polar (vcross (vsub v1 o) (vsub v2 o)) (vdot (vsub v1 o) (vsub v2 o))) as [A B].
        rewrite <- angle_at in A, B. fold th in A, B. rewrite K, cos_PI, sin_PI in *.
        split; [lra|]. rewrite <- A. pose proof (sqrt_pos (vdot (vsub v1 o) (vsub v2 o) * vdot (vsub v1 o) (vsub v2 o) + vcross (vsub v1 o) (vsub v2 o) * vcross (vsub v1 o) (vsub v2 o))). lra. }
      assert (Q' : vcross (vsub v1 o) (vsub v2 o) = 0 -> vdot (vsub v1 o) (vsub v2 o) < 0 -> th = PI).
      { intros K1 K2. unfold th. rewrite angle_at, K1. unfold Ratan2. destruct (Rlt_dec 0 (vdot (vsub v1 o) (vsub v2 o))); [lra|].
        destruct (Rlt_dec (vdot (vsub v1 o) (vsub v2 o)) 0); [|lra]. destruct (Rle_dec 0 0); [|lra]. unfold Rdiv. rewrite Rmult_0_l, atan_0. ring. }
      split.
      + intros K. rewrite S, atan2_opp; [reflexivity|]. intros Z. apply Rnot_lt_le. intros Z'. now apply K, Q'.
      + intros K. rewrite S. destruct (Q K) as [Z _]. rewrite Z, Ropp_0. rewrite <- K. unfold th. rewrite angle_at, Z. reflexivity.
  Qed.
End Angle.

(** ** C91 *)
Section Overlaps.
  Context (rnd : R -> R).
  #[local] Hint Extern 0 (TrigOps R) => exact (RTrig rnd) : typeclass_instances.
  Lemma extent_box (b : bezier R) : (2 <= length (cps b) <= 4)%nat ->
    (forall q, In q (cps b) -> Rabs (fst q) <= 32768 /\ Rabs (snd q) <= 32768) ->
    exists r, boundsRectangle b = Ok r /\ forall q, in_extent (cps b) q <-> left r <= fst q <= right r /\ bottom r <= snd q <= top r.
  Proof.
    intros L S. destruct (boundsRectangle_spec rnd b L) as (r & E & B & T). exists r. split; [exact E|].
    destruct T as ((t1 & H1 & E1) & (t2 & H2 & E2) & (t3 & H3 & E3) & (t4 & H4 & E4)).
    { exists 0. split; [lra|]. rewrite curve_cv, cv_0. apply S, nth_In. lia. }
    assert (B' : forall t, 0 <= t <= 1 -> left r <= fst (curve (cps b) t) <= right r /\ bottom r <= snd (curve (cps b) t) <= top r).
    { intros t Ht. specialize (B t Ht). apply enclosesPoint_iff in B. unfold in_box in B. numR. rewrite !Rleb_true in B. lra. }
    intros q. split.
    - intros ((s & t & Hs & Ht & X) & (s' & t' & Hs' & Ht' & Y)).
      pose proof (B' s Hs). pose proof (B' t Ht). pose proof (B' s' Hs'). pose proof (B' t' Ht'). lra.
    - intros [X Y]. split; [exists t1, t2 | exists t3, t4]; rewrite ?E1, ?E2, ?E3, ?E4; auto.
  Qed.
  Theorem overlaps_spec (a b : bezier R) : (2 <= length (cps a) <= 4)%nat -> (2 <= length (cps b) <= 4)%nat ->
    exists c, overlaps a b = Ok c /\ overlaps b a = Ok c /\
      (forall s t, 0 <= s <= 1 -> 0 <= t <= 1 -> curve (cps a) s = curve (cps b) t -> c = true) /\
      ((forall q, In q (cps a) \/ In q (cps b) -> Rabs (fst q) <= 32768 /\ Rabs (snd q) <= 32768) ->
         (c = true <-> exists q, in_extent (cps a) q /\ in_extent (cps b) q)).
  Proof.
    intros La Lb. destruct (boundsRectangle_spec rnd a La) as (ra & Ea & Ba & _). destruct (boundsRectangle_spec rnd b Lb) as (rb & Eb & Bb & _).
    destruct (overlaps_ok rnd a b ra rb Ea Eb) as (c & Ec & Hc). destruct (overlaps_ok rnd b a rb ra Eb Ea) as (c' & Ec' & Hc').
    rewrite intersection_some_R in Hc, Hc'.
    assert (I : forall x y z w, Rmax x y <= Rmin z w <-> (x <= z /\ y <= z /\ x <= w /\ y <= w)).
    { intros x y z w. unfold Rmax, Rmin. destruct (Rle_dec x y), (Rle_dec z w); lra. }
    rewrite !I in Hc, Hc'.
    exists c. split; [exact Ec|]. split.
    { rewrite Ec'. f_equal. destruct c, c'; auto.
      - apply Hc'. destruct Hc as [Hc _]. specialize (Hc eq_refl). tauto.
      - symmetry. apply Hc. destruct Hc' as [Hc' _]. specialize (Hc' eq_refl). tauto. }
    split.
    - intros s t Hs Ht E. apply Hc. specialize (Ba s Hs). specialize (Bb t Ht). rewrite E in Ba.
      apply enclosesPoint_iff in Ba, Bb. unfold in_box in Ba, Bb. numR. rewrite !Rleb_true in Ba, Bb. lra.
    - intros S. destruct (extent_box a La) as (ra' & Ea' & Xa); [auto|]. destruct (extent_box b Lb) as (rb' & Eb' & Xb); [auto|].
      rewrite Ea in Ea'. injection Ea' as <-. rewrite Eb in Eb'. injection Eb' as <-. rewrite Hc. split.
      + intros ((K1 & K2 & K3 & K4) & (K5 & K6 & K7 & K8)). exists (Rmax (left ra) (left rb), Rmax (bottom ra) (bottom rb)).
        rewrite Xa, Xb. cbn [fst snd]. unfold Rmax. destruct (Rle_dec (left ra) (left rb)), (Rle_dec (bottom ra) (bottom rb)); lra.
      + intros (q & Qa & Qb). rewrite Xa in Qa. rewrite Xb in Qb. lra.
  Qed.
End Overlaps.

(** ** C92 *)
Lemma unzip_acc {T} {N : NumOps T} (ps : list (point T)) : forall xs ys,
  fold_left (fun (st : list T * list T) (p : point T) => (fst st ++ [fst p], snd st ++ [snd p])) ps (xs, ys) = (xs ++ map fst ps, ys ++ map snd ps).
Proof. induction ps as [|p ps IH]; intros xs ys; simpl; [now rewrite !app_nil_r|]. rewrite IH, <- !app_assoc. reflexivity. Qed.
Theorem unzip_spec {T} {N : NumOps T} (ps : list (point T)) : let (xs, ys) := unzipPoints ps in
  length xs = length ps /\ length ys = length ps /\ combine xs ys = ps.
Proof.
  unfold unzipPoints. rewrite unzip_acc. simpl. rewrite !map_length. split; auto. split; auto.
  induction ps as [|[x y] ps IH]; simpl; auto. now rewrite IH.
Qed.
Theorem flatten_spec {T} {N : NumOps T} (cs : list (contour T)) :
  flatten cs = concat cs /\ forall s, In s (flatten cs) <-> exists c, In c cs /\ In s c.
Proof.
  assert (E : flatten cs = concat cs).
  { unfold flatten. rewrite flat_map_concat_map. f_equal. rewrite <- (map_id cs) at 2. apply map_ext. intros c.
    induction c as [|s c IH]; simpl; auto. now rewrite IH. }
  split; auto. intros s. rewrite E. rewrite in_concat. reflexivity.
Qed.
Theorem minMax_spec {T} {N : NumOps T} (D : T -> Prop) (O : TotalOrder D) (a b : T) : D a -> D b ->
  let (lo, hi) := minMax a b in (nleb lo hi = true) /\ ((lo = a /\ hi = b) \/ (lo = b /\ hi = a)).
Proof.
  intros Da Db. unfold minMax. destruct (nleb a b) eqn:E; [auto|]. split; auto. destruct (to_total D O a b Da Db) as [K|K]; congruence.
Qed.
Theorem toMicros_spec (f u : R) : (u = 0 -> toMicros f u = Err ZeroDivisionError) /\
  (u <> 0 -> exists m, toMicros f u = Ok m /\ m * u = f * 1000 /\ toMicros u u = Ok 1000).
Proof.
  unfold toMicros. numRg. split.
  - intros ->. apply ndivR0.
  - intros Nu. rewrite !ndivR by auto. eexists. split; [reflexivity|]. split; [field; auto|]. f_equal. field. auto.
Qed.
Section Between.
  Context (rnd : R -> R).
  #[local] Hint Extern 0 (TrigOps R) => exact (RTrig rnd) : typeclass_instances.
  Theorem approximately_spec (a b : R) : approximately a b = true <-> Rabs (a - b) <= / 10 ^ 6.
  Proof. unfold approximately, approximatelyP, epsilon. numRg. rewrite Rleb_true. replace (/ 10 ^ 6) with (1 / 1000000) by (simpl; field). reflexivity. Qed.
  Theorem between_spec (v m M : R) : between v m M = true <->
    (m <= v <= M \/ Rabs (v - m) <= / 10 ^ 6 \/ Rabs (v - M) <= / 10 ^ 6).
  Proof.
    unfold between. rewrite orb_true_iff, orb_true_iff, andb_true_iff, !approximately_spec. numRg. rewrite !Rleb_true. tauto.
  Qed.
  Theorem between_interval (v m M : R) : m <= M -> between v m M = true <-> m - / 10 ^ 6 <= v <= M + / 10 ^ 6.
  Proof.
    intros L. rewrite between_spec. set (e := / 10 ^ 6). assert (P : 0 < e) by (unfold e; simpl; lra). clearbody e.
    split.
    - intros [K|[K|K]]; [lra| |]; apply Rabs_inv in K; lra.
    - intros K. destruct (Rlt_dec v m); [right; left; apply Rabs_le; lra|]. destruct (Rlt_dec M v); [right; right; apply Rabs_le; lra|left; lra].
  Qed.
  Theorem pathFromSegments_spec (bs : list (bezier R)) : bs <> [] -> Forall (fun b => (2 <= length (cps b) <= 4)%nat) bs ->
    exists c, pathFromSegments bs = Ok c /\ map cps (c_beziers c) = map cps bs /\ map bt1 (c_beziers c) = map (fun _ => 0) bs /\
      map bt2 (c_beziers c) = map (fun _ => 1) bs /\
      seg_first (cps (nth 0 bs (mkBez [] 0 0))) = Some (c_start c) /\ seg_last (cps (last bs (mkBez [] 0 0))) = Some (c_end c).
  Proof.
    intros N F. unfold pathFromSegments. destruct (newContour_ok rnd (map cps bs)) as (c & E & B & _ & S & En & _).
    - apply Forall_map. eapply Forall_impl; [|exact F]. intros b L. exact L.
    - destruct bs; [congruence|discriminate].
    - exists c. split; [exact E|]. rewrite B. unfold curves. rewrite !map_map. cbn [cps bt1 bt2]. split; auto. split; auto. split; auto. split.
      + destruct bs; [congruence|]. exact S.
      + rewrite <- En. clear. induction bs as [|b [|b' bs] IH]; auto.
  Qed.
End Between.
