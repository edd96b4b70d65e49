(** Properties C70 to C73, C77 and C79: SVG path data and the plotter (Bezier.py d, ContourPlotter.py). *)
From Coq Require Import List ZArith Bool String Ascii Lia.
From Verif Require Import Py Inst InstZ SpecGeom SpecSvg SpecPlot MTransform MBounds MBezUtil MPathUtil MBezier MContour MPlotter ProofSvg ProofPlotter ProofPoly ProofHull ProofShape ProofMisc2.
Import ListNotations.
Local Open Scope Z_scope.
Local Open Scope string_scope.

(** ** C70 *)
(** For any numbers whose printed form is read back; [origin] is any point. *)
Theorem C70_d_draws {T : Type} {N : NumOps T} {TR : TrigOps T} (parse : string -> option T) (D : T -> Prop) (show : T -> string) (origin : point T) (c : contour T) (b : bcontour T) :
  printer parse D show -> good_contour D c -> newContour c = Ok b -> svg_draw parse origin (d_ show b) = Some (marks false c).
Proof. exact (new_draws parse D show origin c b). Qed.
Print Assumptions C70_d_draws.
(** Also after any calls that assign or delete curves, as long as the curves still form a connected contour. *)
Theorem C70_edited {T : Type} {N : NumOps T} {TR : TrigOps T} (parse : string -> option T) (D : T -> Prop) (show : T -> string) (origin : point T) (c : contour T) (b : bcontour T) (ks : list (ccall T)) :
  printer parse D show -> newContour c = Ok b -> good_contour D (map cps (c_beziers (chistory b ks))) ->
  svg_draw parse origin (d_ show (chistory b ks)) = Some (marks false (map cps (c_beziers (chistory b ks)))).
Proof. exact (edited_draws parse D show origin c b ks). Qed.
Print Assumptions C70_edited.
(** Printed integers are such numbers. *)
Example C70_numbers : printer readZ (fun _ => True) showZ.
Proof. exact Z_printer. Qed.
Definition path1 : contour Z := [[(0, 0); (10, 0)]; [(10, 0); (20, 0)]; [(20, 0); (20, 0)]; [(20, 0); (25, 5); (20, 10)]; [(20, 10); (20, -7)]; [(20, -7); (1, 1); (2, 2); (3, 3)]; [(3, 3); (0, 0)]].
Example C70_good : good_contour (fun _ => True) path1.
Proof.
  split; [intros s p _ _; auto|]. split; [|split; [|discriminate]].
  - intros s S. repeat (destruct S as [<-|S]; [cbn; lia|]). destruct S.
  - repeat (split; [eexists; split; reflexivity|]). exact I.
Qed.
Example C70_case : let b := mkContour (map (fun s => mkBez s 0 1) path1) (BoundsRectangle []) [] (0, 0) (0, 0) in
  d_ showZ b = "M0,0H10 20Q25,5 20,10V-7C1,1 2,2 3,3L0,0" /\
  svg_draw readZ (7, 7) (d_ showZ b) =
    Some [MoveTo (0, 0); Curve [(0, 0); (10, 0)]; Curve [(10, 0); (20, 0)]; Curve [(20, 0); (25, 5); (20, 10)]; Curve [(20, 10); (20, -7)]; Curve [(20, -7); (1, 1); (2, 2); (3, 3)]; Curve [(3, 3); (0, 0)]].
Proof. split; vm_compute; reflexivity. Qed.

(** ** C71 *)
Definition ink : @strokeA Z := mkStroke 1 0 1 0.
Definition paper : @fillA Z := mkFill 0 1.
Definition fresh (poly : bool) : @plotter Z Z := mkPlot poly "" (0, 0) ink paper [] [] [] (9, 9).
Definition truthZ (v : Z) : bool := negb (Z.eqb v 0).
(** Violated with poly=True: the last command is not forgotten at M, so the second of two contours that begin with
    quadratic curves is drawn as lines, and after one that begins with a horizontal line the path data is malformed. *)
Theorem C71_poly_refuted : let cs := [[[(0, 0); (1, 1); (2, 0)]]; [[(5, 5); (6, 6); (7, 5)]]] in
  exists s' d, drawContours truthZ showZ (fresh true) cs None false true = (s', None) /\ pl_content s' = [IStrokePath d ink] /\
    svg_draw readZ (0, 0) d = Some [MoveTo (0, 0); Curve [(0, 0); (1, 1); (2, 0)]; ClosePath; MoveTo (5, 5); Curve [(5, 5); (6, 6)]; Curve [(6, 6); (7, 5)]; ClosePath] /\
    svg_draw readZ (0, 0) d <> Some (List.concat (map (marks true) cs)).
Proof. eexists _, _. split; [reflexivity|]. split; [reflexivity|]. split; [vm_compute; reflexivity|vm_compute; discriminate]. Qed.
Print Assumptions C71_poly_refuted.
Theorem C71_poly_malformed_refuted : let cs := [[[(0, 0); (9, 0)]]; [[(5, 5); (7, 5)]]] in
  exists s' d, drawContours truthZ showZ (fresh true) cs None false false = (s', None) /\ pl_content s' = [IStrokePath d ink] /\ svg_draw readZ (0, 0) d = None.
Proof. eexists _, _. split; [reflexivity|]. split; [reflexivity|]. vm_compute. reflexivity. Qed.
Print Assumptions C71_poly_malformed_refuted.
(** Violated with poly=True: the same happens to a single contour after an earlier call, and to paths. *)
Theorem C71_history_refuted : let c := [[(0, 0); (9, 0)]] in let s := phistory truthZ showZ (fresh true) [PContours [c] None false false] in
  exists s' d, drawContours truthZ showZ s [c] None false false = (s', None) /\ pl_content s' = (pl_content s ++ [IStrokePath d ink])%list /\ svg_draw readZ (0, 0) d = None.
Proof. eexists _, _. split; [reflexivity|]. split; [reflexivity|]. vm_compute. reflexivity. Qed.
Print Assumptions C71_history_refuted.
Theorem C71_paths_refuted : let s := fst (drawPaths truthZ showZ (fresh true) [((0, 0), [[(0, 0); (9, 0)]])] None false) in
  exists s' d, drawPaths truthZ showZ s [((0, 0), [[(0, 0); (9, 0)]])] None false = (s', None) /\ pl_content s' = (pl_content s ++ [IStrokePath d ink])%list /\ svg_draw readZ (0, 0) d = None.
Proof. eexists _, _. split; [reflexivity|]. split; [reflexivity|]. vm_compute. reflexivity. Qed.
Print Assumptions C71_paths_refuted.

Section C71.
  Context {T : Type} {N : NumOps T} {V : Type} (truthy : V -> bool) (parse : string -> option T) (D : T -> Prop) (show : T -> string).
  Notation plotter := (@plotter T V).
  (** With poly=False, after any earlier calls, one path is appended and it draws the contours.
      Missing for the full claim: poly=True with several contours or earlier calls. *)
  Theorem C71_drawContours_partial (s0 : plotter) (hs : list pcall) (cs : list (contour T)) (color : option V) (close : bool) (origin : point T) :
    let s := phistory truthy show s0 hs in printer parse D show -> pl_poly s0 = false -> (forall c, In c cs -> good_contour D c) ->
    exists s' d a, drawContours truthy show s cs color false close = (s', None) /\ pl_content s' = (pl_content s ++ [IStrokePath d a])%list /\
      svg_draw parse origin d = Some (List.concat (map (marks close) cs)).
  Proof.
    intros s P Po G. assert (Ne : forall c, In c cs -> exists p seg r, c = (p :: seg) :: r).
    { intros c C. destruct (good_first D c (good_of D c (G c C))) as (p & seg & r & E & _). eauto. }
    destruct (drawContourList_ok show close cs (begin truthy s color) Ne) as [d E]. destruct (drawContours_ok truthy show s cs color close d E) as (s' & E' & K & C').
    exists s', d, (with_color truthy s color). split; [exact E'|]. split; [exact C'|]. rewrite (svg_tok parse).
    apply (list_draws show parse D P close cs (fun c C => good_of D c (G c C)) (begin truthy s color) d Begin origin origin false); [|discriminate|exact E].
    rewrite begin_poly. unfold s. now rewrite phistory_poly.
  Qed.
  (** With poly=True one contour is drawn as long as no command, or the command L, was written last. *)
  Theorem C71_poly_single_partial (s : plotter) (c : contour T) (color : option V) (close : bool) (origin : point T) :
    printer parse D show -> pl_last s = "" \/ pl_last s = "L" -> good_contour D c ->
    exists s' d a, drawContours truthy show s [c] color false close = (s', None) /\ pl_content s' = (pl_content s ++ [IStrokePath d a])%list /\
      svg_draw parse origin d = Some (marks close c).
  Proof.
    intros P La G. destruct (good_first D c (good_of D c G)) as (p & seg & r & Ec & _).
    destruct (drawContourList_ok show close [c] (begin truthy s color)) as [d E]; [intros c' [<-|[]]; eauto|]. destruct (drawContours_ok truthy show s [c] color close d E) as (s' & E' & K & C').
    exists s', d, (with_color truthy s color). split; [exact E'|]. split; [exact C'|].
    apply (single_draws show parse D P close c (begin truthy s color) d origin (good_of D c G)); [|exact E]. right. unfold begin. destruct (isGiven truthy color); exact La.
  Qed.
  (** drawPaths appends one path for each of the given ones. *)
  (** With poly=True the path draws the contours exactly when every contour begins with L or with another command than
      the one written before. *)
  Theorem C71_poly_contours_partial (s : plotter) (cs : list (contour T)) (color : option V) (close : bool) (origin : point T) :
    printer parse D show -> pl_poly s = true -> (forall c, In c cs -> good_contour D c) ->
    exists s' d a, drawContours truthy show s cs color false close = (s', None) /\ pl_content s' = (pl_content s ++ [IStrokePath d a])%list /\
      (svg_draw parse origin d = Some (List.concat (map (marks close) cs)) <-> starts_afresh (pl_last s) (map letters cs)).
  Proof.
    intros P Po G. assert (Ne : forall c, In c cs -> exists p seg r, c = (p :: seg) :: r).
    { intros c C. destruct (good_first D c (good_of D c (G c C))) as (p & seg & r & E & _). eauto. }
    destruct (drawContourList_ok show close cs (begin truthy s color) Ne) as [d E]. destruct (drawContours_ok truthy show s cs color close d E) as (s' & E' & K & C').
    exists s', d, (with_color truthy s color). split; [exact E'|]. split; [exact C'|]. rewrite (svg_tok parse).
    replace (pl_last s) with (pl_last (begin truthy s color)) by (unfold begin; destruct (isGiven truthy color); reflexivity).
    apply (list_poly show parse D P close cs (fun c H => good_of D c (G c H)) (begin truthy s color) d); [now rewrite begin_poly|discriminate|exact E].
  Qed.
  Theorem C71_poly_paths_partial (s : plotter) (ps : list (point T * list (segment T))) (color : option V) (origin : point T) :
    printer parse D show -> pl_poly s = true -> (forall p, In p ps -> good_path D p) ->
    exists s' ds a, drawPaths truthy show s ps color false = (s', None) /\ pl_content s' = (pl_content s ++ map (fun d => IStrokePath d a) ds)%list /\ List.length ds = List.length ps /\
      (Forall2 (fun d p => svg_draw parse origin d = Some (path_marks p)) ds ps <-> starts_afresh (pl_last s) (map (fun p => letters (snd p)) ps)).
  Proof.
    intros P Po G. destruct (drawPaths_poly truthy show parse D P s ps color origin) as (s' & ds & E & C & L & F); [apply Forall_forall; intros p Pp; exact (good_p_of D p (G p Pp))|exact Po|].
    exists s', ds, (with_color truthy s color). auto.
  Qed.
  Theorem C71_drawPaths_partial (s0 : plotter) (hs : list pcall) (ps : list (point T * list (segment T))) (color : option V) (origin : point T) :
    let s := phistory truthy show s0 hs in printer parse D show -> pl_poly s0 = false -> (forall p, In p ps -> good_path D p) ->
    exists s' ds a, drawPaths truthy show s ps color false = (s', None) /\ pl_content s' = (pl_content s ++ map (fun d => IStrokePath d a) ds)%list /\
      Forall2 (fun d p => svg_draw parse origin d = Some (path_marks p)) ds ps.
  Proof.
    intros s P Po G. destruct (drawPaths_draw truthy show parse D P s ps color origin) as (s' & ds & E & C & F); [apply Forall_forall; intros p Pp; exact (good_p_of D p (G p Pp))|unfold s; now rewrite phistory_poly|].
    exists s', ds, (with_color truthy s color). auto.
  Qed.
End C71.
Print Assumptions C71_drawContours_partial.
Print Assumptions C71_poly_single_partial.
Print Assumptions C71_poly_contours_partial.
Print Assumptions C71_poly_paths_partial.
Print Assumptions C71_drawPaths_partial.
Example C71_case : let cs := [path1; [[(5, 5); (6, 6); (7, 5)]]] in (forall c, In c cs -> good_contour (fun _ => True) c) /\
  exists s' d a, drawContours truthZ showZ (phistory truthZ showZ (fresh false) [PContours cs (Some 3) false true; PPopFill]) cs (Some 3) false true = (s', None) /\
    s_color a = 3 /\ nth_error (pl_content s') 1 = Some (IStrokePath d a) /\ svg_draw readZ (0, 0) d = Some (List.concat (map (marks true) cs)).
Proof.
  split.
  - intros c [<-|[<-|[]]]; [exact C70_good|]. split; [intros s p _ _; auto|]. split; [intros s [<-|[]]; cbn; lia|]. split; [exact I|discriminate].
  - eexists _, _, (mkStroke 1 3 1 0). split; [vm_compute; reflexivity|]. split; [reflexivity|]. split; [vm_compute; reflexivity|vm_compute; reflexivity].
Qed.
Example C71_case2 : good_path (fun _ => True) ((0, 0), path1) /\ pl_last (fresh true) = "".
Proof.
  split; [|reflexivity]. destruct C70_good as (A & B & C & _). split; [exact A|]. split; [exact I|]. split; [exact I|]. split; [exact B|]. split; [exact C|reflexivity].
Qed.

Example C71_poly_case : let cs := [[[(0, 0); (9, 0)]; [(9, 0); (9, 0)]; [(9, 0); (9, 9)]]; [[(5, 5); (6, 6); (7, 5)]; [(7, 5); (5, 5)]]] in let s := fresh true in
  (forall c, In c cs -> good_contour (fun _ => True) c) /\ map letters cs = [["H"; "V"]; ["Q"; "H"]]%char /\ starts_afresh (pl_last s) (map letters cs) /\ ~ starts_afresh (pl_last s) (map letters (cs ++ [[[(0, 0); (1, 0)]]])).
Proof.
  split; [|split; [reflexivity|split]].
  - intros c [<-|[<-|[]]]; (split; [intros s p _ _; auto|]); (split; [intros s H; cbn in H; intuition (subst; cbn; lia)|]); (split; [|discriminate]); cbn; eauto 10.
  - cbn. repeat split; right; discriminate.
  - cbn. intros (_ & _ & [X|X] & _); [discriminate|now destruct X].
Qed.

(** ** C72 *)
Section C72.
  Context {T : Type} {N : NumOps T} {V : Type} (truthy : V -> bool) (show : T -> string).
  Notation plotter := (@plotter T V).
  (** Calls with matching pushes and pops, and drawing calls in between, restore the attributes and the stacks. *)
  Theorem C72_balanced (s : plotter) (hs : list pcall) : balanced truthy hs -> same_graphics s (phistory truthy show s hs).
  Proof. intros B. exact (balanced_ok truthy show hs B s). Qed.
  (** A pop with an empty stack raises IndexError and changes nothing. *)
  Theorem C72_underflow (s : plotter) : (pl_strokeStack s = [] -> popStroke s = (s, Some IndexError)) /\ (pl_fillStack s = [] -> popFill s = (s, Some IndexError)).
  Proof. unfold popStroke, popFill. split; intros ->; reflexivity. Qed.
  (** The pushed attributes are those given, where they are true values. *)
  Theorem C72_pushed (s : plotter) (w c o d : option V) : let a := pl_stroke (pushStroke truthy s w c o d) in
    pl_strokeStack (pushStroke truthy s w c o d) = pl_stroke s :: pl_strokeStack s /\
    s_color a = match c with Some v => if truthy v then v else s_color (pl_stroke s) | None => s_color (pl_stroke s) end /\
    s_width a = match w with Some v => if truthy v then v else s_width (pl_stroke s) | None => s_width (pl_stroke s) end /\
    s_opacity a = match o with Some v => if truthy v then v else s_opacity (pl_stroke s) | None => s_opacity (pl_stroke s) end /\
    s_dash a = match d with Some v => if truthy v then v else s_dash (pl_stroke s) | None => s_dash (pl_stroke s) end.
  Proof. cbn. auto. Qed.
  (** The drawing calls of the property. *)
  Theorem C72_drawContours_partial (s : plotter) (cs : list (contour T)) (color : option V) (close : bool) : (forall c, In c cs -> exists p seg r, c = (p :: seg) :: r) ->
    exists s', drawContours truthy show s cs color false close = (s', None) /\ same_graphics s s'.
  Proof.
    intros Ne. destruct (drawContourList_ok show close cs (begin truthy s color) Ne) as [d E]. destruct (drawContours_ok truthy show s cs color close d E) as (s' & E' & K & _).
    exists s'. split; [exact E'|]. now apply keeps_same.
  Qed.
  Theorem C72_drawPaths (s : plotter) (ps : list (point T * list (segment T))) (color : option V) : exists s', drawPaths truthy show s ps color false = (s', None) /\ same_graphics s s'.
  Proof. destruct (drawPaths_ok truthy show s ps color) as (s' & E & K). exists s'. split; [exact E|]. now apply keeps_same. Qed.
  Theorem C72_drawPoints_partial (s : plotter) (ps : list (point T)) (color : option V) : ps <> [] ->
    exists s', drawPointsAsSegments truthy show s ps color = (s', None) /\ same_graphics s s'.
  Proof. intros Ne. destruct (drawPoints_ok truthy show s ps color Ne) as (s' & E & K). exists s'. split; [exact E|]. now apply keeps_same. Qed.
  (** Violated: an exception in the middle leaves the colour pushed. *)
  Theorem C72_drawContours_refuted (s : plotter) (cs : list (contour T)) (v : V) (close : bool) : truthy v = true -> (exists c, In c cs /\ (c = [] \/ exists r, c = [] :: r)) ->
    exists s', drawContours truthy show s cs (Some v) false close = (s', Some IndexError) /\ pl_strokeStack s' = pl_stroke s :: pl_strokeStack s /\ s_color (pl_stroke s') = v.
  Proof. exact (drawContours_leaks truthy show s cs v close). Qed.
  Theorem C72_drawPoints_refuted (s : plotter) (v : V) : truthy v = true -> exists s', drawPointsAsSegments truthy show s [] (Some v) = (s', Some IndexError) /\ pl_strokeStack s' = pl_stroke s :: pl_strokeStack s.
  Proof. exact (drawPoints_leaks truthy show s v). Qed.
  (** Filled circles leave their colour behind. *)
  Theorem C72_circles_refuted (s : plotter) (p : point T) (r : T) (v : V) : truthy v = true -> exists s', drawPointsAsCircles truthy s [p] r [v] true = (s', None) /\ f_color (pl_fill s') = v.
  Proof. exact (circles_leak truthy s p r v). Qed.
End C72.
Print Assumptions C72_balanced.
Print Assumptions C72_underflow.
Print Assumptions C72_pushed.
Print Assumptions C72_drawContours_partial.
Print Assumptions C72_drawPaths.
Print Assumptions C72_drawPoints_partial.
Print Assumptions C72_drawContours_refuted.
Print Assumptions C72_drawPoints_refuted.
Print Assumptions C72_circles_refuted.
Example C72_case : balanced truthZ [PPushStroke None (Some 5) None None; PPushFill (Some 2) None; PContours [path1] (Some 9) false true; PPopFill; PSegments [(0, 0); (1, 1)] None; PPopStroke].
Proof.
  apply (bal_stroke truthZ None (Some 5) None None [PPushFill (Some 2) None; PContours [path1] (Some 9) false true; PPopFill; PSegments [(0, 0); (1, 1)] None]).
  apply (bal_app truthZ [PPushFill (Some 2) None; PContours [path1] (Some 9) false true; PPopFill]).
  - apply (bal_fill truthZ (Some 2) None [PContours [path1] (Some 9) false true]). constructor. right. right. intros c [<-|[]]. eexists _, _, _. reflexivity.
  - constructor. left. exact I.
Qed.
Example C72_case2 : s_color (pl_stroke (fst (drawContours truthZ showZ (fresh false) [[]] (Some 5) false true))) = 5 /\ s_color ink = 0.
Proof. split; reflexivity. Qed.

(** ** C73 *)
(** Violated for all contours, paths and states: TypeError, and nothing is drawn. *)
Theorem C73_fill_refuted {T : Type} {N : NumOps T} {V : Type} (truthy : V -> bool) (show : T -> string) (s : @plotter T V) (cs : list (contour T)) (ps : list (point T * list (segment T))) (color : option V) (close : bool) :
  drawContours truthy show s cs color true close = (s, Some TypeError) /\ drawPaths truthy show s ps color true = (s, Some TypeError).
Proof. split; reflexivity. Qed.
Print Assumptions C73_fill_refuted.
Example C73_case : drawContours truthZ showZ (fresh false) [path1] (Some 3) true true = (fresh false, Some TypeError).
Proof. reflexivity. Qed.

(** ** C77 *)
(** For both values of poly and after any calls. *)
Theorem C77_polyline {T : Type} {N : NumOps T} {V : Type} (truthy : V -> bool) (parse : string -> option T) (D : T -> Prop) (show : T -> string) (s : @plotter T V) (p : point T) (ps : list (point T)) (color : option V) (origin : point T) :
  printer parse D show -> (forall q, In q (p :: ps) -> D (fst q) /\ D (snd q)) ->
  exists s' d a, drawPointsAsSegments truthy show s (p :: ps) color = (s', None) /\ pl_content s' = (pl_content s ++ [IStrokePath d a])%list /\
    svg_draw parse origin d = Some (MoveTo p :: map Curve (filter (fun s => negb (zero_length s)) (hops p ps))).
Proof.
  intros P Dp. destruct (polyline_draws truthy show parse D P s p ps color origin Dp) as (s' & d & E & C & S). exists s', d, (with_color truthy s color). auto.
Qed.
Print Assumptions C77_polyline.
Example C77_case : exists s' d, drawPointsAsSegments truthZ showZ (fresh true) [(0, 0); (0, 0); (3, 0); (4, 4)] None = (s', None) /\ pl_content s' = [IStrokePath d ink] /\ d = "M0,0L3,0 4,4" /\
  svg_draw readZ (9, 9) d = Some [MoveTo (0, 0); Curve [(0, 0); (3, 0)]; Curve [(3, 0); (4, 4)]].
Proof. eexists _, _. split; [reflexivity|]. split; [reflexivity|]. split; vm_compute; reflexivity. Qed.

(** ** C79 *)
(** [lv] are the rows of the de Casteljau triangle; the first is the skeleton, the last one is a single point and not drawn.
    The paths after the skeleton are drawn with the line colour and half opacity if a line colour is given. The point colour
    stays the fill colour. *)
Theorem C79_drawHull {T : Type} {N : NumOps T} {V : Type} (truthy : V -> bool) (parse : string -> option T) (D : T -> Prop) (show : T -> string) (round2 : T -> T) (black half : V) (s : @plotter T V) (b : bezier T) (t : T) (color : option V) (pc : V) (origin : point T) :
  printer parse D show -> (1 <= List.length (cps b))%nat -> (forall q, In q (hull b t) -> D (fst q) /\ D (snd q)) -> truthy black = true -> truthy half = true ->
  exists s' d ds lv, drawHull truthy show round2 black half s b t color pc = (s', None) /\
    (List.length lv = List.length (cps b) /\ nth 0 lv [] = cps b /\ (forall k, (k < List.length (cps b))%nat -> List.length (nth k lv []) = (List.length (cps b) - k)%nat) /\
     forall k i e, (S k < List.length (cps b))%nat -> (i < List.length (nth (S k) lv []))%nat -> let u := nth i (nth k lv []) e in let v := nth (S i) (nth k lv []) e in
         nth i (nth (S k) lv []) e = (nadd (fst u) (nmul t (nsub (fst v) (fst u))), nadd (snd u) (nmul t (nsub (snd v) (snd u))))) /\
    (svg_draw parse origin d = Some (polyline_marks (cps b)) /\ Forall2 (fun d l => svg_draw parse origin d = Some (polyline_marks l)) ds (firstn (List.length (cps b) - 2) (tl lv))) /\
    (pl_stroke s' = pl_stroke s /\ pl_strokeStack s' = pl_strokeStack s /\ pl_fillStack s' = pl_fillStack s /\ pl_fill s' = mkFill pc (f_opacity (pl_fill s))) /\
    let a := pl_stroke s in let on := match color with Some v => truthy v | None => false end in
    let hue := match color with Some v => if truthy v then v else s_color a | None => s_color a end in
    pl_content s' = (pl_content s ++ [IStrokePath d (mkStroke (s_width a) hue (s_opacity a) (s_dash a))] ++
      map (fun p => ICircle p (nofZ 2) true a (mkFill pc (f_opacity (pl_fill s)))) (cps b) ++
      map (fun p => ILabel false (nadd (fst p) (nofZ 4), nsub (snd p) (nofZ 4)) ("(" ++ show (round2 (fst p)) ++ ", " ++ show (round2 (snd p)) ++ ")") (nofZ 6, nofZ 6) (mkFill black (f_opacity (pl_fill s)))) (cps b) ++
      map (fun d => IStrokePath d (mkStroke (s_width a) hue (if on then half else s_opacity a) (s_dash a))) ds)%list.
Proof.
  intros P L Dc Tb Th. destruct (hull_draws truthy show parse D P round2 black half s b t color pc origin L Dc Tb Th) as (s' & d & ds & lv & E & _ & L1 & L2 & L3 & L4 & S1 & S2 & A1 & A2 & A3 & A4 & C).
  exists s', d, ds, lv. auto 10.
Qed.
Print Assumptions C79_drawHull.
Example C79_case : map (fun i => match i with IStrokePath d a => (d, s_color a, s_opacity a) | _ => ("", 0, 0) end)
    (pl_content (fst (drawHull truthZ showZ (fun x => x) 7 5 (fresh true) (mkBez [(0, 0); (2, 4); (6, 4); (8, 0)] 0 1) 2 (Some 3) 8))) =
  [("M0,0L2,4 6,4 8,0", 3, 1); ("", 0, 0); ("", 0, 0); ("", 0, 0); ("", 0, 0); ("", 0, 0); ("", 0, 0); ("", 0, 0); ("", 0, 0); ("M4,8L10,4 10,-4", 3, 5); ("M16,0L10,-12", 3, 5)].
Proof. vm_compute. reflexivity. Qed.

(** ** C98 *)
(** What drawing an arrow does: one arrow in the given colour and dashed; the colour stays and the dash becomes None. *)
Theorem C98_arrow_partial {T : Type} {N : NumOps T} {V : Type} (truthy : V -> bool) (dash none : V) (s : @plotter T V) (a b : point T) (color : option V) : exists s',
  drawArrowBetweenPoints truthy dash none s a b color = (s', None) /\
  let o := pl_stroke s in let c := match color with Some v => if truthy v then v else s_color o | None => s_color o end in
  pl_content s' = (pl_content s ++ [IArrow a b (mkStroke (s_width o) c (s_opacity o) dash)])%list /\
  pl_stroke s' = mkStroke (s_width o) c (s_opacity o) none /\ pl_fill s' = pl_fill s /\
  pl_strokeStack s' = pl_strokeStack s /\ pl_fillStack s' = pl_fillStack s.
Proof. exact (arrow_spec truthy dash none s a b color). Qed.
Print Assumptions C98_arrow_partial.
(** What drawing a skeleton does: the polygon in the line colour, a circle per point with the colours in turn (the current
    fill colour if none are given), a black label per point; the last circle's colour and the label size stay. *)
Theorem C98_skeleton_partial {T : Type} {N : NumOps T} {V : Type} (truthy : V -> bool) (parse : string -> option T) (D : T -> Prop) (show : T -> string) (round2 : T -> T) (black : V) (s : @plotter T V) (ps : list (point T)) (color : option V) (pcs : list V) (origin : point T) :
  printer parse D show -> ps <> [] -> (forall q, In q ps -> D (fst q) /\ D (snd q)) -> truthy black = true -> (forall c, In c pcs -> truthy c = true) ->
  let colour i := nth (i mod List.length pcs) pcs (f_color (pl_fill s)) in let op := f_opacity (pl_fill s) in let o := pl_stroke s in exists s' d,
  drawSkeleton truthy show round2 black s ps color pcs = (s', None) /\ svg_draw parse origin d = Some (polyline_marks ps) /\
  (pl_stroke s' = o /\ pl_strokeStack s' = pl_strokeStack s /\ pl_fillStack s' = pl_fillStack s /\ pl_fill s' = mkFill (colour (List.length ps - 1)%nat) op /\ pl_labelSize s' = (nofZ 6, nofZ 6)) /\
  pl_content s' = (pl_content s ++
    IStrokePath d (mkStroke (s_width o) (match color with Some v => if truthy v then v else s_color o | None => s_color o end) (s_opacity o) (s_dash o)) ::
    map (fun jp => ICircle (snd jp) (nofZ 2) true o (mkFill (colour (fst jp)) op)) (combine (seq 0 (List.length ps)) ps) ++
    map (fun p => ILabel false (nadd (fst p) (nofZ 4), nsub (snd p) (nofZ 4)) ("(" ++ show (round2 (fst p)) ++ ", " ++ show (round2 (snd p)) ++ ")") (nofZ 6, nofZ 6) (mkFill black op)) ps)%list.
Proof.
  intros P Ne Dc Tb Tc colour op o. destruct (skeleton_many truthy show parse D P round2 black s ps color pcs origin Ne Dc Tb Tc) as (s' & d & E & S1 & A & B & C & F & L & K).
  exists s', d. auto 10.
Qed.
Print Assumptions C98_skeleton_partial.
(** Violated: after an arrow the colour and the dash of the client are gone, after a skeleton its label size (and fill colour). *)
Theorem C98_arrow_refuted : let s := setStroke (fresh false) (mkStroke 1 2 1 3) in let s' := fst (drawArrowBetweenPoints truthZ 9 0 s (0, 0) (5, 5) (Some 4)) in
  pl_stroke s = mkStroke 1 2 1 3 /\ pl_stroke s' = mkStroke 1 4 1 0.
Proof. split; reflexivity. Qed.
Print Assumptions C98_arrow_refuted.
Theorem C98_skeleton_refuted : let s' := fst (drawSkeleton truthZ showZ (fun x => x) 7 (fresh false) [(0, 0); (5, 5)] None [8]) in
  pl_labelSize (fresh false) = (9, 9) /\ pl_labelSize s' = (6, 6) /\ pl_fill (fresh false) = mkFill 0 1 /\ pl_fill s' = mkFill 8 1.
Proof. repeat split. Qed.
Print Assumptions C98_skeleton_refuted.
Example C98_case : map (fun i => match i with ICircle p _ _ _ f => (p, f_color f) | ILabel _ p _ _ f => (p, f_color f) | _ => ((0, 0), 0) end)
    (pl_content (fst (drawSkeleton truthZ showZ (fun x => x) 7 (fresh false) [(0, 0); (5, 5); (9, 1)] None [8; 3]))) =
  [((0, 0), 0); ((0, 0), 8); ((5, 5), 3); ((9, 1), 8); ((4, -4), 7); ((9, 1), 7); ((13, -3), 7)].
Proof. reflexivity. Qed.

(** ** C99 *)
Theorem C99_text {T : Type} {N : NumOps T} {V : Type} (s : @plotter T V) (p : point T) (text : string) (margin : bool) : let s' := drawText s p text margin in
  pl_content s' = (pl_content s ++ [ILabel margin p text (pl_labelSize s) (pl_fill s)])%list /\ same_graphics s s' /\ pl_labelSize s' = pl_labelSize s.
Proof. exact (text_spec s p text margin). Qed.
Print Assumptions C99_text.
Theorem C99_complex_circles {T : Type} {N : NumOps T} {V : Type} (truthy : V -> bool) (s : @plotter T V) (ps : list (point T)) (radius : T) (colors : list V) (fill : bool) :
  (ps <> [] -> drawComplexPointsAsCircles truthy s ps radius colors fill = drawPointsAsCircles truthy s ps radius colors fill) /\
  drawPointsAsCircles truthy s [] radius colors fill = (s, Some IndexError) /\
  snd (drawComplexPointsAsCircles truthy s ps radius colors fill) = None.
Proof. exact (complex_circles truthy s ps radius colors fill). Qed.
Print Assumptions C99_complex_circles.
Example C99_case : pl_content (fst (drawComplexPointsAsCircles truthZ (fresh false) [(1, 2); (3, 4); (5, 6)] 2 [3; 4] true)) =
  [ICircle (1, 2) 2 true ink (mkFill 3 1); ICircle (3, 4) 2 true ink (mkFill 4 1); ICircle (5, 6) 2 true ink (mkFill 3 1)].
Proof. reflexivity. Qed.
