(** Properties C87-C92 and C95-C97, C109: the remaining small functions of Transform.py, PathUtilities.py,
    BezierUtilities.py and Bezier.py. *)
From Coq Require Import List ZArith QArith Bool Reals Lra Lia.
From Verif Require Import Py Inst InstFloat SpecGeom SpecMatrix SpecFit SpecUtil SpecBezier SpecOrder SpecBounds SpecCurve
  MTransform MBounds MBezUtil MPathUtil MBezier MContour MPlotter SpecPlot ProofBounds ProofBezier ProofBezier3 ProofMisc ProofMisc2.
Import ListNotations.
Local Open Scope R_scope.
#[local] Existing Instance RPy.

(** ** C87 *)
(** With exact sines and cosines: what the two transforms do, and that each undoes the other. *)
Theorem C87_exact_trigonometry (a b : pt) (deg : R) :
  let tr := RExact in
  exists m r m' r', moveAndRotate a b deg = Ok m /\ rotateAndMove a b deg = Ok r /\
    moveAndRotate b a (- deg) = Ok m' /\ rotateAndMove b a (- deg) = Ok r' /\
    forall p, exists q1 q2, applyToPoint m p = Ok q1 /\ applyToPoint r p = Ok q2 /\
      q1 = rot (deg * PI / 180) (vadd p (vsub b a)) /\ q2 = vadd (rot (deg * PI / 180) p) (vsub b a) /\
      applyToPoint r' q1 = Ok p /\ applyToPoint m' q2 = Ok p.
Proof. exact (move_rotate_exact a b deg). Qed.
Print Assumptions C87_exact_trigonometry.
(** With the rounding of the code. *)
Theorem C87_rounded (a b : pt) (deg : R) :
  exists m r m' r', moveAndRotate a b deg = Ok m /\ rotateAndMove a b deg = Ok r /\
    moveAndRotate b a (- deg) = Ok m' /\ rotateAndMove b a (- deg) = Ok r' /\
    forall p, exists q1 q2 p1 p2 k, applyToPoint m p = Ok q1 /\ applyToPoint r p = Ok q2 /\
      applyToPoint r' q1 = Ok p1 /\ applyToPoint m' q2 = Ok p2 /\
      (let v := vadd p (vsub b a) in let w := rot (deg * PI / 180) v in
        Rabs (fst q1 - fst w) <= / 2 * / 10 ^ 15 * (Rabs (fst v) + Rabs (snd v)) /\
        Rabs (snd q1 - snd w) <= / 2 * / 10 ^ 15 * (Rabs (fst v) + Rabs (snd v))) /\
      (let w := vadd (rot (deg * PI / 180) p) (vsub b a) in
        Rabs (fst q2 - fst w) <= / 2 * / 10 ^ 15 * (Rabs (fst p) + Rabs (snd p)) /\
        Rabs (snd q2 - snd w) <= / 2 * / 10 ^ 15 * (Rabs (fst p) + Rabs (snd p))) /\
      Rabs (k - 1) <= 4 * / 10 ^ 15 /\
      p1 = vadd p (vscale (k - 1) (vadd p (vsub b a))) /\ p2 = vscale k p.
Proof. exact (move_rotate_rounded a b deg). Qed.
Print Assumptions C87_rounded.
(** The two differ: a quarter turn of the moved point, and the moved quarter turn. *)
Example C87_case : rot (90 * PI / 180) (vadd (1, 0) (vsub (2, 1) (0, 0))) = (-1, 3) /\
  vadd (rot (90 * PI / 180) (1, 0)) (vsub (2, 1) (0, 0)) = (2, 2).
Proof.
  replace (90 * PI / 180) with (PI / 2) by field. unfold rot, vadd, vsub; cbn [fst snd]. rewrite cos_PI2, sin_PI2. split; f_equal; lra.
Qed.

(** ** C88 *)
Theorem C88_point (p c : pt) (deg : R) (ccw : bool) :
  exists q r, rotatePointAbout p c deg ccw = Ok q /\ rotatePointAbout q c deg (negb ccw) = Ok r /\
    rotatePointAbout c c deg ccw = Ok c /\ rotatePointAbout p c (- deg) (negb ccw) = Ok q /\
    Rabs (dist2 q c - dist2 p c) <= 4 * / 10 ^ 15 * dist2 p c /\
    (exists k, Rabs (k - 1) <= 4 * / 10 ^ 15 /\ vsub r c = vscale k (vsub p c)) /\
    let v := vsub p c in let w := vadd c (rot (if ccw then deg * PI / 180 else - (deg * PI / 180)) v) in
    Rabs (fst q - fst w) <= / 2 * / 10 ^ 15 * (Rabs (fst v) + Rabs (snd v)) /\
    Rabs (snd q - snd w) <= / 2 * / 10 ^ 15 * (Rabs (fst v) + Rabs (snd v)).
Proof. exact (rotate_point p c deg ccw). Qed.
Print Assumptions C88_point.
(** Segments, contours and lists of contours are turned point by point, for any numbers. *)
Theorem C88_pointwise (T : Type) (N : NumOps T) (Tr : TrigOps T) (about : point T) (deg : T) (ccw : bool) :
  (forall s s', rotateSegmentAbout s about deg ccw = Ok s' <-> Forall2 (fun p q => rotatePointAbout p about deg ccw = Ok q) s s') /\
  (forall c c', rotateContourAbout c about deg ccw = Ok c' <-> Forall2 (Forall2 (fun p q => rotatePointAbout p about deg ccw = Ok q)) c c') /\
  (forall cs cs', rotateContoursAbout cs about deg ccw = Ok cs' <->
     Forall2 (Forall2 (Forall2 (fun p q => rotatePointAbout p about deg ccw = Ok q))) cs cs').
Proof. exact (rotate_lists about deg ccw). Qed.
Print Assumptions C88_pointwise.
Example C88_case : vadd (1, 1) (rot (90 * PI / 180) (vsub (3, 1) (1, 1))) = (1, 3) /\ dist2 (3, 1) (1, 1) = 4.
Proof.
  replace (90 * PI / 180) with (PI / 2) by field. unfold rot, vadd, vsub, dist2; cbn [fst snd]. rewrite cos_PI2, sin_PI2. split; [f_equal|]; lra.
Qed.

(** ** C89 *)
Theorem C89_rawSlopeAngle (s : segment R) (a b : pt) : seg_first s = Some a -> seg_last s = Some b ->
  exists d, rawSlopeAngle s = Ok d /\ -180 < d <= 180 /\
    vsub b a = vscale (vdist a b) (cos (d * PI / 180), sin (d * PI / 180)) /\ (a = b -> d = 0).
Proof. exact (rawSlopeAngle_spec round15 s a b). Qed.
Print Assumptions C89_rawSlopeAngle.
Theorem C89_slopeAngle (s : segment R) (a b : pt) : seg_first s = Some a -> seg_last s = Some b ->
  exists d, slopeAngle s = Ok d /\ 0 <= d <= 90 /\
    Rabs (fst b - fst a) = vdist a b * sin (d * PI / 180) /\ Rabs (snd b - snd a) = vdist a b * cos (d * PI / 180) /\ (a = b -> d = 0).
Proof. exact (slopeAngle_spec round15 s a b). Qed.
Print Assumptions C89_slopeAngle.
Theorem C89_slope (s : segment R) (a b : pt) : seg_first s = Some a -> seg_last s = Some b ->
  (fst a = fst b -> slope s = Ok SInf) /\
  (fst a <> fst b -> exists m d, slope s = Ok (SFin m) /\ rawSlopeAngle s = Ok d /\
     snd b - snd a = m * (fst b - fst a) /\ m = tan (d * PI / 180)).
Proof. exact (slope_spec round15 s a b). Qed.
Print Assumptions C89_slope.
Example C89_case : let s := [(1, 1); (9, 9); (-2, 4)] in seg_first s = Some (1, 1) /\ seg_last s = Some (-2, 4) /\
  vsub (-2, 4) (1, 1) = (-3, 3).
Proof. split; [reflexivity|]. split; [reflexivity|]. unfold vsub; cbn [fst snd]. f_equal; lra. Qed.

(** ** C90 *)
Theorem C90_signed_angle (o v1 v2 : pt) : let th := angle o v1 v2 in
  - PI < th <= PI /\
  (* turning v1 - o by the angle gives the direction of v2 - o *)
  vscale (vdist o v2) (rot th (vsub v1 o)) = vscale (vdist o v1) (vsub v2 o) /\
  ((v1 = o \/ v2 = o) -> th = 0) /\
  (th <> PI -> angle o v2 v1 = - th) /\ (th = PI -> angle o v2 v1 = PI).
Proof. exact (angle_spec round15 o v1 v2). Qed.
Print Assumptions C90_signed_angle.
Example C90_case : vscale 2 (rot (PI / 2) (vsub (4, 1) (1, 1))) = vscale 3 (vsub (1, 3) (1, 1)).
Proof. unfold vscale, rot, vsub; cbn [fst snd]. rewrite cos_PI2, sin_PI2. f_equal; lra. Qed.

(** ** C91 *)
Theorem C91_overlaps (a b : bezier R) : (2 <= length (cps a) <= 4)%nat -> (2 <= length (cps b) <= 4)%nat ->
  exists c, overlaps a b = Ok c /\ overlaps b a = Ok c /\
    (forall s t, 0 <= s <= 1 -> 0 <= t <= 1 -> curve (cps a) s = curve (cps b) t -> c = true) /\
    ((forall q, In q (cps a) \/ In q (cps b) -> Rabs (fst q) <= 32768 /\ Rabs (snd q) <= 32768) ->
       (c = true <-> exists q, in_extent (cps a) q /\ in_extent (cps b) q)).
Proof. exact (overlaps_spec round15 a b). Qed.
Print Assumptions C91_overlaps.
(** Two curves whose extents meet though the curves do not, and two whose extents are apart. *)
Example C91_case : let a := [(0, 0); (4, 4)] in let b := [(3, 0); (5, 1)] in let c := [(5, 5); (6, 9)] in
  in_extent a (3, 1) /\ in_extent b (3, 1) /\ ~ exists q, in_extent a q /\ in_extent c q.
Proof.
  cbv zeta.
  assert (L : forall x0 y0 x1 y1 t, curve [(x0, y0); (x1, y1)] t = (x0 + t * (x1 - x0), y0 + t * (y1 - y0))).
  { intros. rewrite curve2. apply f_equal2; cbn [fst snd]; ring. }
  split; [|split].
  - split; exists 0, 1; rewrite !L; cbn [fst snd]; lra.
  - split; exists 0, 1; rewrite !L; cbn [fst snd]; lra.
  - intros (q & ((s & t & Hs & Ht & X) & _) & ((s' & t' & Hs' & Ht' & X') & _)). rewrite !L in *. cbn [fst snd] in *. nra.
Qed.

(** ** C92 *)
Theorem C92_unzipPoints (T : Type) (N : NumOps T) (ps : list (point T)) : let (xs, ys) := unzipPoints ps in
  length xs = length ps /\ length ys = length ps /\ combine xs ys = ps.
Proof. exact (unzip_spec ps). Qed.
Print Assumptions C92_unzipPoints.
Theorem C92_flatten (T : Type) (N : NumOps T) (cs : list (contour T)) :
  flatten cs = concat cs /\ forall s, In s (flatten cs) <-> exists c, In c cs /\ In s c.
Proof. exact (flatten_spec cs). Qed.
Print Assumptions C92_flatten.
Theorem C92_minMax (T : Type) (N : NumOps T) (D : T -> Prop) (O : TotalOrder D) (a b : T) : D a -> D b ->
  let (lo, hi) := minMax a b in (nleb lo hi = true) /\ ((lo = a /\ hi = b) \/ (lo = b /\ hi = a)).
Proof. exact (minMax_spec D O a b). Qed.
Print Assumptions C92_minMax.
Theorem C92_toMicros (f u : R) : (u = 0 -> toMicros f u = Err ZeroDivisionError) /\
  (u <> 0 -> exists m, toMicros f u = Ok m /\ m * u = f * 1000 /\ toMicros u u = Ok 1000).
Proof. exact (toMicros_spec f u). Qed.
Print Assumptions C92_toMicros.
Theorem C92_between (v m M : R) :
  (between v m M = true <-> (m <= v <= M \/ Rabs (v - m) <= / 10 ^ 6 \/ Rabs (v - M) <= / 10 ^ 6)) /\
  (m <= M -> between v m M = true <-> m - / 10 ^ 6 <= v <= M + / 10 ^ 6).
Proof. exact (conj (between_spec round15 v m M) (between_interval round15 v m M)). Qed.
Print Assumptions C92_between.
Theorem C92_pathFromSegments (bs : list (bezier R)) : bs <> [] -> Forall (fun b => (2 <= length (cps b) <= 4)%nat) bs ->
  exists c, pathFromSegments bs = Ok c /\ map cps (c_beziers c) = map cps bs /\ map bt1 (c_beziers c) = map (fun _ => 0) bs /\
    map bt2 (c_beziers c) = map (fun _ => 1) bs /\
    seg_first (cps (nth 0 bs (mkBez [] 0 0))) = Some (c_start c) /\ seg_last (cps (last bs (mkBez [] 0 0))) = Some (c_end c).
Proof. exact (pathFromSegments_spec round15 bs). Qed.
Print Assumptions C92_pathFromSegments.
Example C92_case : unzipPoints [(1, 2); (3, 4)]%Q = ([1; 3], [2; 4])%Q /\ minMax 3%Q 2%Q = (2, 3)%Q /\
  flatten [[[(1, 2); (3, 4)]; [(3, 4); (1, 2)]]; []; [[(0, 0)]]]%Q = [[(1, 2); (3, 4)]; [(3, 4); (1, 2)]; [(0, 0)]]%Q /\
  toMicros 512%Q 2048%Q = Ok 250%Q.
Proof. repeat split; vm_compute; reflexivity. Qed.

(** ** C95 *)
Theorem C95_tangent_normal (b : bezier R) (t : R) : (length (cps b) = 3 \/ length (cps b) = 4)%nat ->
  exists d, is_deriv (curve (cps b)) t d /\
    (d <> (0, 0) -> exists u, tangent b t = Ok u /\ vdot u u = 1 /\ d = vscale (sqrt (vdot d d)) u /\
       normal_ b t = Ok (quarter_turns 1 u) /\ normal b t = Ok (quarter_turns 1 u)) /\
    (d = (0, 0) -> tangent b t = Err ZeroDivisionError /\ normal_ b t = Err ZeroDivisionError).
Proof. exact (tangent_spec round15 b t). Qed.
Print Assumptions C95_tangent_normal.
Example C95_case : let b := mkBez [(0, 0); (3, 4); (6, 8)] 0 1 in length (cps b) = 3%nat /\ derivative b (1 / 3) = Ok (6, 8) /\ vdot (6, 8) (6, 8) = 10 * 10.
Proof. split; [reflexivity|]. split; [cbn; numRg; apply Ok_pair; lra|]. unfold vdot; cbn [fst snd]; lra. Qed.

(** ** C96 *)
Theorem C96_crossesX (T : Type) (N : NumOps T) (D : T -> Prop) (O : TotalOrder D) (r : rect T) (x : T) :
  D (bottom r) -> D (top r) -> D x -> nleb (bottom r) (top r) = true ->
  crossesX r x = true <-> exists p, fst p = x /\ D (snd p) /\ enclosesPoint r p = true.
Proof. exact (crossesX_spec D O r x). Qed.
Print Assumptions C96_crossesX.
Theorem C96_crossesY (T : Type) (N : NumOps T) (D : T -> Prop) (O : TotalOrder D) (r : rect T) (y : T) :
  D (left r) -> D (right r) -> D y -> nleb (left r) (right r) = true ->
  crossesY r y = true <-> exists p, snd p = y /\ D (fst p) /\ enclosesPoint r p = true.
Proof. exact (crossesY_spec D O r y). Qed.
Print Assumptions C96_crossesY.
Example C96_case : let r := BoundsRectangle [(1, 2); (5, 9)]%Q in crossesX r 5%Q = true /\ crossesX r 0%Q = false /\ crossesY r 2%Q = true /\ crossesY r 10%Q = false /\
  nleb (bottom r) (top r) = true /\ nleb (left r) (right r) = true.
Proof. repeat split. Qed.

(** ** C97 *)
Theorem C97_rotation (deg : R) (ccw : bool) : exists m m', rotation deg ccw = Ok m /\ rotationAbout (0, 0) deg ccw = Ok m' /\
  forall p, applyToPoint m p = applyToPoint m' p.
Proof. exact (rotation_origin round15 deg ccw). Qed.
Print Assumptions C97_rotation.
Theorem C97_perspective (p q s : R) : exists m, perspective p q s = Ok m /\ forall x y,
  (p * x + q * y + s = 0 -> applyToPoint m (x, y) = Err ZeroDivisionError) /\
  (p * x + q * y + s <> 0 -> applyToPoint m (x, y) = Ok (x / (p * x + q * y + s), y / (p * x + q * y + s))).
Proof. exact (perspective_spec p q s). Qed.
Print Assumptions C97_perspective.
Theorem C97_identity (p : pt) : applyToPoint _identityMatrix p = Ok p.
Proof. exact (identity_spec p). Qed.
Print Assumptions C97_identity.
Example C97_case : 1 * 2 + 2 * 3 + 2 <> 0 /\ 2 / (1 * 2 + 2 * 3 + 2) = 1 / 5 /\ 1 * 2 + (-1) * 3 + 1 = 0.
Proof. repeat split; lra. Qed.

(** ** C109.  Python's [x // 20] for real numbers is [floor20]. *)
Theorem C109_new_plotter {V : Type} (stroke0 : @strokeA V) (fill0 : @fillA V) (left bottom right top : R) (poly : bool) :
  exists s, newPlotter floor20 stroke0 fill0 (left, bottom, right, top) poly = Ok s /\
    pl_poly s = poly /\ pl_content s = [] /\ pl_strokeStack s = [] /\ pl_fillStack s = [] /\ pl_stroke s = stroke0 /\ pl_fill s = fill0 /\
    fst (pl_labelSize s) = snd (pl_labelSize s) /\
    ((top - bottom) / 40 - 1 / 2 < fst (pl_labelSize s) <= (top - bottom) / 40) /\
    (exists z : Z, 2 * fst (pl_labelSize s) = IZR z).
Proof. exact (new_plotter stroke0 fill0 left bottom right top poly). Qed.
Print Assumptions C109_new_plotter.
Theorem C109_margins (left bottom right top : R) : exists l t r b, contentMargins floor20 (left, bottom, right, top) = (l, t, r, b) /\ l = r /\ t = b /\
  ((right - left) / 20 - 1 < l <= (right - left) / 20) /\ ((top - bottom) / 20 - 1 < t <= (top - bottom) / 20).
Proof. exact (margins_spec left bottom right top). Qed.
Print Assumptions C109_margins.
Example C109_case : floor20 1010 = 50 /\ exists s, newPlotter floor20 (mkStroke tt tt tt tt) (mkFill tt tt) (0, -210, 500, 800) true = Ok s /\ pl_labelSize s = (25, 25).
Proof. exact new_plotter_case. Qed.
