(** Property C132: glyphs, contours and outlines that are moved, resized or transformed as a whole.
    [call_at f] moves the points of a pen call, [aff tr] is the map of a transformation tuple, and
    [placed k v] multiplies by [k > 0] and then adds [v] (SpecWhole.v, SpecPen.v, SpecMove.v). *)
From Coq Require Import List ZArith Bool Reals Lra Lia String.
From Verif Require Import Py Inst SpecGeom SpecBezier SpecCurve SpecPen SpecMove SpecWhole MTransform MBounds MBezier MSegmentPen MContour ProofInter ProofWhole.
Import ListNotations.
Local Open Scope R_scope.
#[local] Hint Extern 0 (TrigOps R) => exact RPy : typeclass_instances.

(** ** C132 *)
(** Drawing transformed points gives the transformed contours. *)
Theorem C132_transformed_drawing (tr : R * R * R * R * R * R) (gs gs' : glyphset R) (fuel fuel' : nat) (cs : list (pencall R)) :
  area_factor tr <> 0 -> (forall c, In c cs -> ~ refers c) ->
  p_contours (penHistory gs' fuel' (map (call_at (aff tr)) cs)) = map (map (map (aff tr))) (p_contours (penHistory gs fuel cs)).
Proof. exact (drawn_transformed tr gs fuel gs' fuel' cs). Qed.
Print Assumptions C132_transformed_drawing.
(** A component is what its glyph would draw with the transformed points. *)
Theorem C132_component_is_a_drawing (tr : R * R * R * R * R * R) (gs : glyphset R) (fuel : nat) (s : pen R) (n : string) (q : R * R) (cs : list (pencall R)) :
  area_factor tr <> 0 -> gs n = Some (MoveTo q :: cs) -> (forall c, In c cs -> ~ refers c) ->
  addComponent gs (drawGlyph gs (S fuel)) s n tr =
  match drawGlyph gs (S fuel) (map (call_at (aff tr)) (MoveTo q :: cs)) with
  | (t, None) => (mkPen (p_contours s ++ p_contours t) (p_last s) (p_contour s), None)
  | (_, Some e) => (s, Some e)
  end.
Proof. exact (component_is_drawing tr gs fuel s n q cs). Qed.
Print Assumptions C132_component_is_a_drawing.
Example C132_drawing_case : let tr := (2, 1, 0, 3, 10, -5) in let cs := [MoveTo (0, 0); LineTo (4, 0); QCurveTo [(5, 1); (5, 3); (4, 4)]; ClosePath] in
  area_factor tr <> 0 /\ (forall c, In c cs -> ~ refers c).
Proof. cbv zeta. split; [unfold area_factor; lra|]. intros c C R. cbn [In] in C. decompose [or] C; subst; contradiction. Qed.
(** A transformation that flattens may lose a line. *)
Example C132_flat_differs : let tr := (0, 0, 0, 1, 0, 0) in let gs : glyphset R := fun _ => None in let cs := [MoveTo (0, 0); LineTo (4, 0); ClosePath] in
  p_contours (penHistory gs 1 (map (call_at (aff tr)) cs)) <> map (map (map (aff tr))) (p_contours (penHistory gs 1 cs)).
Proof. exact flat_differs. Qed.
(** A contour object built from placed segments is the contour object, placed: curves, box and ends. *)
Theorem C132_contours (k : R) (v : R * R) (c : contour R) : 0 < k ->
  (forall s, In s c -> (2 <= List.length s <= 4)%nat /\ stays_in_range k v s) ->
  newContour (map (map (placed k v)) c) = answer (placed_contour k v) (newContour c).
Proof. intros K. exact (newContour_placed round15 k v K c). Qed.
Print Assumptions C132_contours.
(** The same for outlines. *)
Theorem C132_outlines (k : R) (v : R * R) (cs : list (contour R)) : 0 < k -> cs <> [] ->
  (forall c s, In c cs -> In s c -> (2 <= List.length s <= 4)%nat /\ stays_in_range k v s) ->
  newOutline (map (map (map (placed k v))) cs) = answer (placed_outline k v) (newOutline cs).
Proof. intros K. exact (newOutline_placed round15 k v K cs). Qed.
Print Assumptions C132_outlines.
(** The samples of a contour, with what the call records. *)
Theorem C132_samples (k : R) (v : R * R) (c : bcontour R) (steps : Z) :
  contourLUT (placed_contour k v c) steps = (placed_contour k v (fst (contourLUT c steps)), answer (map (placed k v)) (snd (contourLUT c steps))).
Proof. exact (lut_mv k v c steps). Qed.
Print Assumptions C132_samples.
(** The closest point is the closest point, placed, and its distance is multiplied.  The other case is the
    search that never refined (property C69): it reports the start values, whatever the drawing. *)
Theorem C132_closest_point (k : R) (v : R * R) (c : bcontour R) (p : R * R) (steps : Z) : 0 < k ->
  stays_in_range k v [p] -> stays_in_range k v (c_lut c) -> (forall b, In b (c_beziers c) -> stays_in_range k v (cps b)) ->
  let r := findClosestPoint c p steps in let r' := findClosestPoint (placed_contour k v c) (placed k v p) steps in
  fst r' = placed_contour k v (fst r) /\
  match snd r with
  | Ok (d, q) => (d < 9007199254740991 /\ snd r' = Ok (k * d, placed k v q)) \/ (d = 9007199254740991 /\ snd r' = Ok (d, q))
  | Err e => snd r' = Err e
  end.
Proof. intros K. exact (closest_placed round15 k v K c p steps). Qed.
Print Assumptions C132_closest_point.
Example C132_case : let k := 2 in let v := (-50, 70) in let c := [[(0, 0); (100, 200); (200, 0)]; [(200, 0); (0, 0)]] in
  0 < k /\ [c] <> [] /\ (forall s, In s c -> (2 <= List.length s <= 4)%nat /\ stays_in_range k v s) /\ stays_in_range k v [(30, 40)].
Proof.
  cbv zeta. split; [lra|]. split; [discriminate|]. split.
  - intros s [<-|[<-|[]]]; (split; [simpl; lia|]); split; intros q H; cbn [map placed fst snd In] in H; decompose [or] H; try contradiction; subst q; unfold placed; cbn [fst snd];
      split; apply Rabs_le; lra.
  - split; intros q H; cbn [map placed fst snd In] in H; decompose [or] H; try contradiction; subst q; unfold placed; cbn [fst snd]; split; apply Rabs_le; lra.
Qed.
