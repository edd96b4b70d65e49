(** Properties C20-C23 and C110: SegmentPen.py. *)
From Coq Require Import List ZArith Bool QArith Reals Lra String.
From Verif Require Import Py Inst SpecGeom SpecPen MTransform MSegmentPen ProofPen ProofPen2.
Import ListNotations.
Local Open Scope list_scope.
Local Open Scope R_scope.

(** ** C20.  [penHistory] makes every call, catching exceptions and going on. *)
Theorem C20_nonempty_connected (T : Type) (N : NumOps T) gs fuel (cs : list (pencall T)) c :
  In c (p_contours (penHistory gs fuel cs)) ->
  c <> [] /\ connected c /\ exists a b, contour_first c = Some a /\ contour_last c = Some b.
Proof. exact (pen_connected gs fuel cs c). Qed.
Print Assumptions C20_nonempty_connected.
(** Closed as well, for numbers whose == is equality. *)
Theorem C20_closed (T : Type) (N : NumOps T) gs fuel (cs : list (pencall T)) c :
  (forall x y, neqb x y = true -> x = y) ->
  In c (p_contours (penHistory gs fuel cs)) -> closed_contour c.
Proof. exact (pen_closed gs fuel cs c). Qed.
Print Assumptions C20_closed.
Theorem C20_closed_real (gs : glyphset R) fuel (cs : list (pencall R)) c :
  In c (p_contours (penHistory gs fuel cs)) -> closed_contour c.
Proof. exact (pen_closed gs fuel cs c R_neqb_eq). Qed.
Print Assumptions C20_closed_real.
(** A history with raising calls, a zero-length line, a curve without points, a component, and a
    second path drawn without moveTo; three contours come out. *)
Definition C20_glyphs : glyphset Q := fun n =>
  if String.eqb n "bar" then Some [MoveTo (0, 0); LineTo (1, 0); ClosePath]%Q else None.
Example C20_case :
  List.length (p_contours (penHistory C20_glyphs 5
    [LineTo (1, 1); EndPath; MoveTo (0, 0); LineTo (0, 0); CurveTo []; LineTo (5, 0); CurveTo [(1, 2); (3, 4)]; ClosePath;
     AddComponent "bar" (2, 0, 0, 2, 7, 7); AddComponent "missing" (1, 0, 0, 1, 0, 0); LineTo (9, 9); ClosePath; ClosePath]%Q)) = 3%nat.
Proof. vm_compute. reflexivity. Qed.

(** ** C21 *)
Theorem C21_quadratic_spline (s : pen R) (c : contour R) (cs : list pt) (e : pt) : p_contour s = Some c ->
  qCurveTo s (cs ++ [e]) = (mkPen (p_contours s) e (Some (c ++ spline (p_last s) cs e)), None).
Proof. exact (qCurveTo_spline s c cs e). Qed.
Print Assumptions C21_quadratic_spline.
Theorem C21_at_most_one_off_curve (T : Type) (N : NumOps T) (s : pen T) c (ps : list (point T)) :
  p_contour s = Some c -> (List.length ps <= 2)%nat ->
  qCurveTo s ps = (mkPen (p_contours s) (last (p_last s :: ps) (p_last s)) (Some (c ++ [p_last s :: ps])), None).
Proof. exact (qCurveTo_short s c ps). Qed.
Print Assumptions C21_at_most_one_off_curve.
Theorem C21_before_moveTo (T : Type) (N : NumOps T) (s : pen T) (ps : list (point T)) : p_contour s = None ->
  qCurveTo s ps = (s, Some AttributeError).
Proof. exact (qCurveTo_unset s ps). Qed.
Print Assumptions C21_before_moveTo.
Example C21_case : spline (0, 0) [(0, 2); (2, 2); (2, 0)] (4, 0) =
  [[(0, 0); (0, 2); (1, 2)]; [(1, 2); (2, 2); (2, 1)]; [(2, 1); (2, 0); (4, 0)]].
Proof. unfold spline, mid; cbn [fst snd]. repeat f_equal; lra. Qed.

(** ** C22 *)
Theorem C22_component (gs : glyphset R) draw (s : pen R) n tr :
  (gs n = None -> addComponent gs draw s n tr = (s, Some KeyError)) /\
  (forall g cp e, gs n = Some g -> draw g = (cp, Some e) -> addComponent gs draw s n tr = (s, Some e)) /\
  (forall g cp, gs n = Some g -> draw g = (cp, None) ->
     addComponent gs draw s n tr =
     (mkPen (p_contours s ++ map (map (map (aff tr))) (p_contours cp)) (p_last s) (p_contour s), None)).
Proof. exact (addComponent_spec gs draw s n tr). Qed.
Print Assumptions C22_component.
(** A component that is itself a reference to a component: the transformations compose. *)
Theorem C22_nesting (gs : glyphset R) fuel (s : pen R) n1 n2 tr1 tr2 :
  gs n1 = Some [AddComponent n2 tr2] ->
  addComponent gs (drawGlyph gs (S fuel)) s n1 tr1 = addComponent gs (drawGlyph gs fuel) s n2 (aff_comp tr2 tr1) /\
  forall p, aff (aff_comp tr2 tr1) p = aff tr1 (aff tr2 p).
Proof. exact (fun E => conj (component_nesting gs fuel s n1 n2 tr1 tr2 E) (aff_comp_spec tr2 tr1)). Qed.
Print Assumptions C22_nesting.
Definition C22_glyphs : glyphset R := fun n =>
  if String.eqb n "base" then Some [MoveTo (0, 0); LineTo (1, 0); ClosePath]
  else if String.eqb n "ref" then Some [AddComponent "base"%string (1, 2, 0, 1, 5, 0)] else None.
Example C22_case : C22_glyphs "ref"%string = Some [AddComponent "base"%string (1, 2, 0, 1, 5, 0)] /\ C22_glyphs "x"%string = None /\
  aff (1, 2, 0, 1, 5, 0) (3, 4) = (8, 10).
Proof. repeat split. unfold aff; cbn [fst snd]; f_equal; lra. Qed.

(** ** C23.  [calls_of_subpath] is moveTo, the strokes as lineTo, curveTo or qCurveTo, closePath. *)
Theorem C23_drawing_recorded (gs : glyphset R) draw (d : list subpath) (s : pen R) :
  exists s', runCalls (penStep gs draw) (flat_map calls_of_subpath d) s = (s', None) /\
    p_contours s' = p_contours s ++ outline d.
Proof. exact (drawing_recorded gs draw d s). Qed.
Print Assumptions C23_drawing_recorded.
Theorem C23_glyph_drawn (gs : glyphset R) fuel (d : list subpath) :
  exists s', drawGlyph gs (S fuel) (flat_map calls_of_subpath d) = (s', None) /\ p_contours s' = outline d.
Proof. exact (drawing_recorded gs (drawGlyph gs fuel) d newPen). Qed.
Print Assumptions C23_glyph_drawn.
(** The closing line is added, the empty sub-path and the zero-length line are dropped. *)
Example C23_case : outline [((0, 0), [Line (1, 0); Line (1, 0); Line (1, 1)]); ((3, 3), [Line (3, 3)]);
                            ((0, 0), [Cubic [(1, 1); (2, 1)] (0, 0)])] =
  [[[(0, 0); (1, 0)]; [(1, 0); (1, 1)]; [(1, 1); (0, 0)]]; [[(0, 0); (1, 1); (2, 1); (0, 0)]]].
Proof.
  unfold outline, flat_map, stroke_list, stroke_segments, stroke_end, close; cbn [fst snd app contour_first contour_last seg_first seg_last hd_error].
  repeat (destruct (Req_EM_T _ _); try lra; cbn [fst snd app contour_first contour_last seg_first seg_last hd_error]). reflexivity.
Qed.

(** ** C110.  [glyphs f] is the glyph set of the font [f]; [calls_of_part] is [calls_of_subpath] for a sub-path,
    one addComponent call for a reference. *)
Theorem C110_recorded (f : font) (ps : list part) (cs : list (list (list pt))) : pictured f ps cs ->
  exists n0, forall fuel, (n0 <= fuel)%nat -> exists s', drawGlyph (glyphs f) fuel (flat_map calls_of_part ps) = (s', None) /\ p_contours s' = cs.
Proof. exact (pictured_drawn f ps cs). Qed.
Print Assumptions C110_recorded.
Theorem C110_nothing_else (f : font) (fuel : nat) (ps : list part) (s' : pen R) :
  drawGlyph (glyphs f) fuel (flat_map calls_of_part ps) = (s', None) -> pictured f ps (p_contours s').
Proof. exact (drawn_pictured f fuel ps s'). Qed.
Print Assumptions C110_nothing_else.
Theorem C110_errors (f : font) (fuel : nat) (ps : list part) (s' : pen R) (e : exn) :
  drawGlyph (glyphs f) fuel (flat_map calls_of_part ps) = (s', Some e) -> e = KeyError \/ e = RecursionError.
Proof. exact (only_errors f fuel ps s' e). Qed.
Print Assumptions C110_errors.
Theorem C110_cyclic (f : font) (C : string -> Prop) : (forall n, C n -> forall q, f n = Some q -> exists m tr, In (Ref m tr) q /\ C m) ->
  (forall n q, f n = Some q -> forall m tr, In (Ref m tr) q -> f m <> None) ->
  forall ps m tr, (forall n tr, In (Ref n tr) ps -> f n <> None) -> In (Ref m tr) ps -> C m ->
  forall fuel, snd (drawGlyph (glyphs f) fuel (flat_map calls_of_part ps)) = Some RecursionError.
Proof. exact (cyclic_fails f C). Qed.
Print Assumptions C110_cyclic.
(** A larger recursion limit never changes what was drawn. *)
Theorem C110_limit {T : Type} {N : NumOps T} (gs : glyphset T) (fuel fuel' : nat) (g : glyph T) (s' : pen T) : (fuel <= fuel')%nat ->
  drawGlyph gs fuel g = (s', None) -> drawGlyph gs fuel' g = (s', None).
Proof. exact (draw_more gs fuel fuel' g s'). Qed.
Print Assumptions C110_limit.
Definition C110_tri : subpath := ((0, 0), [Line (1, 0); Line (0, 1)]).
Definition C110_font : font := fun n =>
  if String.eqb n "base" then Some [Sub C110_tri]
  else if String.eqb n "pair" then Some [Ref "base"%string (1, 0, 0, 1, 5, 0); Ref "base"%string (2, 0, 0, 2, 0, 0)]
  else if String.eqb n "loop" then Some [Sub C110_tri; Ref "loop"%string (1, 0, 0, 1, 5, 0)] else None.
Example C110_case : exists cs, pictured C110_font [Ref "pair"%string (1, 0, 0, 1, 0, 7); Sub C110_tri] cs.
Proof. eexists. eapply pic_ref; [reflexivity | | repeat constructor]. eapply pic_ref; [reflexivity | repeat constructor|]. eapply pic_ref; [reflexivity | repeat constructor | constructor]. Qed.
Example C110_cyclic_case : let C := fun n => n = "loop"%string in
  (forall n, C n -> forall q, C110_font n = Some q -> exists m tr, In (Ref m tr) q /\ C m) /\
  (forall n q, C110_font n = Some q -> forall m tr, In (Ref m tr) q -> C110_font m <> None).
Proof.
  split.
  - intros n -> q E. cbn in E. injection E as <-. eexists _, _. split; [right; left; reflexivity | reflexivity].
  - intros n q. unfold C110_font. destruct (String.eqb n "base"); [|destruct (String.eqb n "pair"); [|destruct (String.eqb n "loop"); [|discriminate]]];
      intros E; injection E as <-; intros m tr I; cbn [In] in I; repeat (destruct I as [I|I]; [try discriminate I; injection I as <- _; discriminate|]); destruct I.
Qed.
