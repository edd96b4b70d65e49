(** Proofs for C95-C98: tangents, crossing lines, rotation and perspective, and the rest of the plotter. *)
From Coq Require Import String List ZArith Bool Reals Lra Lia Psatz.
From Verif Require Import Py Inst SpecGeom SpecBezier SpecOrder SpecBounds SpecTransform SpecCurve SpecPlot
  MTransform MBounds MBezUtil MPathUtil MBezier MContour MPlotter
  ProofTransform ProofUtil ProofBounds ProofBezier ProofBezier2 ProofBezier3.
Import ListNotations.
Local Open Scope R_scope.

(** ** C95 *)
Section Tangent.
  Context (rnd : R -> R).
  #[local] Hint Extern 0 (TrigOps R) => exact (RTrig rnd) : typeclass_instances.
  Theorem tangent_spec (b : bezier R) t : (length (cps b) = 3 \/ length (cps b) = 4)%nat ->
    exists d, is_deriv (curve (cps b)) t d /\
      (d <> (0, 0) -> exists u, tangent b t = Ok u /\ vdot u u = 1 /\ d = vscale (sqrt (vdot d d)) u /\
         normal_ b t = Ok (quarter_turns 1 u) /\ normal b t = Ok (quarter_turns 1 u)) /\
      (d = (0, 0) -> tangent b t = Err ZeroDivisionError /\ normal_ b t = Err ZeroDivisionError).
  Proof.
    intros L. destruct (derivative_ok b t L) as (d & E & D). exists d. split; auto. split.
    - intros N. destruct (normal_of rnd b t d E N) as [Q EN]. set (q := sqrt _) in *.
      assert (S2 : q * q = fst d * fst d + snd d * snd d) by (apply sqrt_sqrt; nra).
      exists (fst d / q, snd d / q). unfold tangent, normal_. rewrite !E. cbn [bind].
      change (thypot (fst d) (snd d)) with q. rewrite !ndivR by lra. cbn [bind].
      split; [reflexivity|]. unfold vdot, vscale; cbn [fst snd]. split; [|split; [|split]].
      + apply Rmult_eq_reg_r with (q * q); [|nra]. field_simplify; [|lra]. nra.
      + fold q. destruct d as [dx dy]. cbn [fst snd]. apply f_equal2; field; lra.
      + reflexivity || (unfold quarter_turns; cbn; apply Ok_pair; numRg; field; lra).
      + etransitivity; [exact EN|]. unfold quarter_turns. cbn. apply Ok_pair; field; lra.
    - intros ->. unfold tangent, normal_. rewrite !E. cbn [bind fst snd].
      replace (thypot 0 0) with 0; [rewrite !ndivR0; auto|].
      change (thypot 0 0) with (sqrt (0 * 0 + 0 * 0)). replace (0 * 0 + 0 * 0) with 0 by ring. now rewrite sqrt_0.
  Qed.
End Tangent.

(** ** C96 *)
Section Cross.
  Context {T : Type} {N : NumOps T} (D : T -> Prop) (O : TotalOrder D).
  Theorem crossesX_spec (r : rect T) x : D (bottom r) -> D (top r) -> D x -> nleb (bottom r) (top r) = true ->
    crossesX r x = true <-> exists p, fst p = x /\ D (snd p) /\ enclosesPoint r p = true.
  Proof.
    intros Db Dt Dx B. unfold crossesX, enclosesPoint. split.
    - intros K. exists (x, bottom r). cbn [fst snd]. split; auto. split; auto. rewrite K, B, (to_refl D O _ Db). reflexivity.
    - intros ((px & py) & <- & _ & K). cbn [fst snd] in *. now apply andb_true_iff in K.
  Qed.
  Theorem crossesY_spec (r : rect T) y : D (left r) -> D (right r) -> D y -> nleb (left r) (right r) = true ->
    crossesY r y = true <-> exists p, snd p = y /\ D (fst p) /\ enclosesPoint r p = true.
  Proof.
    intros Db Dt Dx B. unfold crossesY, enclosesPoint. split.
    - intros K. exists (left r, y). cbn [fst snd]. split; auto. split; auto. rewrite K, B, (to_refl D O _ Db). reflexivity.
    - intros ((px & py) & <- & _ & K). cbn [fst snd] in *. now apply andb_true_iff in K.
  Qed.
End Cross.

(** ** C97 *)
Section Rotation.
  Context (rnd : R -> R).
  #[local] Hint Extern 0 (TrigOps R) => exact (RTrig rnd) : typeclass_instances.
  Theorem rotation_origin (deg : R) (ccw : bool) : exists m m', rotation deg ccw = Ok m /\ rotationAbout (0, 0) deg ccw = Ok m' /\
    forall p, applyToPoint m p = applyToPoint m' p.
  Proof.
    assert (Ex : exists m, rotation deg ccw = Ok m /\ forall p, let s := rnd (sin (deg * PI / 180)) in let k := rnd (cos (deg * PI / 180)) in
      applyToPoint m p = Ok (if ccw then (k * fst p - s * snd p, s * fst p + k * snd p) else (k * fst p + s * snd p, - s * fst p + k * snd p))).
    { destruct ccw; eexists; (split; [utr; reflexivity|]); intros [x y]; cbv zeta; rewrite apply_Ok by lra; simpl; apply Ok_pair; unfold tf_sin, tf_cos, radians; numR; rewrite ?rad_assoc; field. }
    destruct Ex as (m & E & H). destruct (rotationAbout_raw rnd (0, 0) deg ccw (0, 0)) as (m' & E' & _). exists m, m'. split; auto. split; auto.
    intros p. destruct (rotationAbout_raw rnd (0, 0) deg ccw p) as (m'' & E'' & H'').
    assert (m'' = m') by (rewrite E' in E''; now injection E''). subst m''. cbv zeta in H''.
    rewrite H, H''. unfold vadd, vsub; cbn [fst snd]. destruct ccw; cbn [fst snd]; apply Ok_pair; ring.
  Qed.
End Rotation.
Theorem perspective_spec (p q s : R) : exists m, perspective p q s = Ok m /\ forall x y,
  (p * x + q * y + s = 0 -> applyToPoint m (x, y) = Err ZeroDivisionError) /\
  (p * x + q * y + s <> 0 -> applyToPoint m (x, y) = Ok (x / (p * x + q * y + s), y / (p * x + q * y + s))).
Proof.
  eexists. split; [utr; reflexivity|]. intros x y. split; intros K.
  - cbn. numR. replace (x * p + y * q + 1 * s) with 0 by lra. rewrite !ndivR0. reflexivity.
  - rewrite apply_Ok by lra. apply Ok_pair; field; lra.
Qed.
Theorem identity_spec (p : pt) : applyToPoint _identityMatrix p = Ok p.
Proof. destruct p as [x y]. unfold _identityMatrix, _matrix. rewrite apply_Ok by (numR; lra). numR. apply Ok_pair; field. Qed.

(** ** C98 *)
Section Plot.
  Context {T : Type} {N : NumOps T} {V : Type} (truthy : V -> bool) (show : T -> string) (round2 : T -> T).
  Theorem arrow_spec (dash none : V) (s : @plotter T V) (a b : point T) (color : option V) : exists s',
    drawArrowBetweenPoints truthy dash none s a b color = (s', None) /\
    let o := pl_stroke s in let c := match color with Some v => if truthy v then v else s_color o | None => s_color o end in
    pl_content s' = (pl_content s ++ [IArrow a b (mkStroke (s_width o) c (s_opacity o) dash)])%list /\
    pl_stroke s' = mkStroke (s_width o) c (s_opacity o) none /\ pl_fill s' = pl_fill s /\
    pl_strokeStack s' = pl_strokeStack s /\ pl_fillStack s' = pl_fillStack s.
  Proof.
    unfold drawArrowBetweenPoints. eexists. split; [reflexivity|]. cbv zeta.
    destruct color as [v|]; cbn; [destruct (truthy v) eqn:E; cbn; rewrite ?E|]; repeat split.
  Qed.
  Theorem complex_circles (s : @plotter T V) (ps : list (point T)) (radius : T) (colors : list V) (fill : bool) :
    (ps <> [] -> drawComplexPointsAsCircles truthy s ps radius colors fill = drawPointsAsCircles truthy s ps radius colors fill) /\
    drawPointsAsCircles truthy s [] radius colors fill = (s, Some IndexError) /\
    snd (drawComplexPointsAsCircles truthy s ps radius colors fill) = None.
  Proof.
    split; [|split].
    - destruct ps; [congruence|reflexivity].
    - reflexivity.
    - unfold drawComplexPointsAsCircles. destruct colors as [|c cs]; [reflexivity|]. destruct fill; [reflexivity|].
      assert (K : forall ps i (s : @plotter T V), pl_strokeStack (circles truthy s i ps radius (c :: cs) false) = pl_strokeStack s).
      { clear. induction ps as [|p ps IH]; intros i s; [reflexivity|]. cbn [circles]. rewrite IH. cbn [emit pl_strokeStack].
        destruct (nth_error _ _) as [x|]; [destruct (truthy x)|]; reflexivity. }
      unfold popStroke. rewrite K. reflexivity.
  Qed.
  Theorem text_spec (s : @plotter T V) p text margin : let s' := drawText s p text margin in
    pl_content s' = (pl_content s ++ [ILabel margin p text (pl_labelSize s) (pl_fill s)])%list /\ same_graphics s s' /\ pl_labelSize s' = pl_labelSize s.
  Proof. repeat split. Qed.
End Plot.

(** ** C109 *)
Lemma floor20_bounds x : x / 20 - 1 < floor20 x <= x / 20.
Proof. unfold floor20. pose proof (Int_part_bounds (x / 20)). lra. Qed.
Theorem margins_spec (left bottom right top : R) : exists l t r b, contentMargins floor20 (left, bottom, right, top) = (l, t, r, b) /\ l = r /\ t = b /\
  ((right - left) / 20 - 1 < l <= (right - left) / 20) /\ ((top - bottom) / 20 - 1 < t <= (top - bottom) / 20).
Proof. eexists _, _, _, _. split; [reflexivity|]. split; [reflexivity|]. split; [reflexivity|]. split; apply floor20_bounds. Qed.
Theorem new_plotter {V : Type} (stroke0 : @strokeA V) (fill0 : @fillA V) (left bottom right top : R) (poly : bool) :
  exists s, newPlotter floor20 stroke0 fill0 (left, bottom, right, top) poly = Ok s /\
    pl_poly s = poly /\ pl_content s = [] /\ pl_strokeStack s = [] /\ pl_fillStack s = [] /\ pl_stroke s = stroke0 /\ pl_fill s = fill0 /\
    fst (pl_labelSize s) = snd (pl_labelSize s) /\
    ((top - bottom) / 40 - 1 / 2 < fst (pl_labelSize s) <= (top - bottom) / 40) /\
    (exists z : Z, 2 * fst (pl_labelSize s) = IZR z).
Proof.
  pose proof (floor20_bounds (top - bottom)) as B. unfold newPlotter, contentMargins. rewrite ndivR by (numR; lra). cbn [bind].
  eexists. split; [reflexivity|]. cbn [pl_poly pl_content pl_strokeStack pl_fillStack pl_stroke pl_fill pl_labelSize fst snd].
  numR. repeat (split; [reflexivity|]). split; [lra|]. exists (Int_part ((top - bottom) / 20)). unfold floor20. lra.
Qed.
Lemma new_plotter_case : floor20 1010 = 50 /\ exists s, newPlotter floor20 (mkStroke tt tt tt tt) (mkFill tt tt) (0, -210, 500, 800) true = Ok s /\ pl_labelSize s = (25, 25).
Proof.
  assert (E : floor20 1010 = 50).
  { unfold floor20. pose proof (Int_part_bounds (1010 / 20)) as B. assert (K : (Int_part (1010 / 20) = 50)%Z); [|now rewrite K].
    assert (H1 : IZR (Int_part (1010 / 20)) < IZR 51) by lra. assert (H2 : IZR 49 < IZR (Int_part (1010 / 20))) by lra. apply lt_IZR in H1, H2. lia. }
  split; [exact E|]. eexists. unfold newPlotter, contentMargins. numR. replace (800 - -210) with 1010 by lra. rewrite E, ndivR by (numR; lra). split; [reflexivity|].
  cbn [pl_labelSize]. f_equal; lra.
Qed.
