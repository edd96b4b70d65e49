(** Model of PathLib/ContourPlotter.py.

    The base class GlyphPlotterEngine belongs to FontDocTools, which is not part of the
    repository.  What is assumed of it: the setters (setFillColor, ...) assign the attribute of
    the same name, moveToXY assigns [_pen], drawCircle, drawLabel and drawArrow append one item
    to the content and change none of the attributes below, and _strokeAttributes /
    _fillAttributes read the attributes.  Content items therefore carry a snapshot of the
    attributes used instead of their SVG text; path data is the exact string. *)
From Coq Require Import List ZArith Bool String.
From Verif Require Import Py MTransform MBounds MBezUtil MPathUtil MBezier MContour.
Import ListNotations.
Local Open Scope num_scope.

Section Plotter.
  Context {T : Type} `{NumOps T}.
  (** Attribute values (colours, widths, opacities, dash strings, None) and their truth value. *)
  Context {V : Type} (truthy : V -> bool).
  (** Python's [str] on numbers. *)
  Variable show : T -> string.
  (** Python's [round(x, 2)] and [x // 20]. *)
  Variable round2 : T -> T.
  Variable over20 : T -> T.

  Record strokeA : Type := mkStroke { s_width : V; s_color : V; s_opacity : V; s_dash : V }.
  Record fillA : Type := mkFill { f_color : V; f_opacity : V }.

  Inductive item : Type :=
  | IStrokePath (d : string) (a : strokeA)      (* fill='none' *)
  | IFillPath (d : string) (a : fillA)
  | ICircle (p : point T) (radius : T) (fill : bool) (sa : strokeA) (fa : fillA)
  | ILabel (margin : bool) (p : point T) (text : string) (size : point T) (fa : fillA)
  | IArrow (a b : point T) (sa : strokeA).

  (** ContourPlotter.py:16-29 and the attributes of the base class. *)
  Record plotter : Type := mkPlot {
    pl_poly : bool;
    pl_last : string;
    pl_pen : point T;
    pl_stroke : strokeA;
    pl_fill : fillA;
    pl_strokeStack : list strokeA;
    pl_fillStack : list fillA;
    pl_content : list item;
    pl_labelSize : point T
  }.
  Definition setLastCmd (s : plotter) (v : string) : plotter :=
    mkPlot (pl_poly s) v (pl_pen s) (pl_stroke s) (pl_fill s) (pl_strokeStack s) (pl_fillStack s) (pl_content s) (pl_labelSize s).
  Definition setPen (s : plotter) (v : point T) : plotter :=
    mkPlot (pl_poly s) (pl_last s) v (pl_stroke s) (pl_fill s) (pl_strokeStack s) (pl_fillStack s) (pl_content s) (pl_labelSize s).
  Definition setStroke (s : plotter) (v : strokeA) : plotter :=
    mkPlot (pl_poly s) (pl_last s) (pl_pen s) v (pl_fill s) (pl_strokeStack s) (pl_fillStack s) (pl_content s) (pl_labelSize s).
  Definition setFill (s : plotter) (v : fillA) : plotter :=
    mkPlot (pl_poly s) (pl_last s) (pl_pen s) (pl_stroke s) v (pl_strokeStack s) (pl_fillStack s) (pl_content s) (pl_labelSize s).
  Definition setStrokeStack (s : plotter) (v : list strokeA) : plotter :=
    mkPlot (pl_poly s) (pl_last s) (pl_pen s) (pl_stroke s) (pl_fill s) v (pl_fillStack s) (pl_content s) (pl_labelSize s).
  Definition setFillStack (s : plotter) (v : list fillA) : plotter :=
    mkPlot (pl_poly s) (pl_last s) (pl_pen s) (pl_stroke s) (pl_fill s) (pl_strokeStack s) v (pl_content s) (pl_labelSize s).
  Definition emit (s : plotter) (i : item) : plotter :=
    mkPlot (pl_poly s) (pl_last s) (pl_pen s) (pl_stroke s) (pl_fill s) (pl_strokeStack s) (pl_fillStack s)
           (pl_content s ++ [i]) (pl_labelSize s).
  Definition setLabelSize (s : plotter) (v : point T) : plotter :=
    mkPlot (pl_poly s) (pl_last s) (pl_pen s) (pl_stroke s) (pl_fill s) (pl_strokeStack s) (pl_fillStack s) (pl_content s) v.

  (** ContourPlotter.py:18-21: the content margins, as left, top, right, bottom (opposite margins are equal). *)
  Definition contentMargins (bounds : T * T * T * T) : T * T * T * T :=
    let '(left, bottom, right, top) := bounds in
    let width := (right - left)%num in
    let height := (top - bottom)%num in
    (over20 width, over20 height, over20 width, over20 height).
  (** ContourPlotter.py:13-29 __init__: [stroke0] and [fill0] are the attributes set by the base
      class, the pen starts at the origin there, and the label size is half the top content margin. *)
  Definition newPlotter (stroke0 : strokeA) (fill0 : fillA) (bounds : T * T * T * T) (poly : bool) : res plotter :=
    let '(_, marginTop, _, _) := contentMargins bounds in
    let* fs := ndiv marginTop (nofZ 2) in
    Ok (mkPlot poly "" (nofZ 0, nofZ 0) stroke0 fill0 [] [] [] (fs, fs)).

  Definition presult : Type := (plotter * option exn)%type.

  (** [if v: ...] for an optional keyword argument. *)
  Definition given (v : option V) (dflt : V) : V :=
    match v with Some x => if truthy x then x else dflt | None => dflt end.
  Definition isGiven (v : option V) : bool :=
    match v with Some x => truthy x | None => false end.

  (** ContourPlotter.py:39-42 pushFillAttributes.  The stack's top is the head of the list. *)
  Definition pushFill (s : plotter) (color opacity : option V) : plotter :=
    let s := setFillStack s (pl_fill s :: pl_fillStack s) in
    setFill s (mkFill (given color (f_color (pl_fill s))) (given opacity (f_opacity (pl_fill s)))).

  (** ContourPlotter.py:44-47 popFillAttributes (IndexError on an empty stack). *)
  Definition popFill (s : plotter) : presult :=
    match pl_fillStack s with
    | [] => (s, Some IndexError)
    | a :: r => (setFill (setFillStack s r) a, None)
    end.

  (** ContourPlotter.py:49-54 pushStrokeAttributes. *)
  Definition pushStroke (s : plotter) (width color opacity dash : option V) : plotter :=
    let s := setStrokeStack s (pl_stroke s :: pl_strokeStack s) in
    let a := pl_stroke s in
    setStroke s (mkStroke (given width (s_width a)) (given color (s_color a))
                          (given opacity (s_opacity a)) (given dash (s_dash a))).

  (** ContourPlotter.py:56-61 popStrokeAtributes. *)
  Definition popStroke (s : plotter) : presult :=
    match pl_strokeStack s with
    | [] => (s, Some IndexError)
    | a :: r => (setStroke (setStrokeStack s r) a, None)
    end.

  Local Open Scope string_scope.

  (** ContourPlotter.py:66-73 getCommand. *)
  Definition plCommand (s : plotter) (command : string) : plotter * string :=
    if pl_poly s then
      if negb (String.eqb (pl_last s) command) then (setLastCmd s command, command)
      else (s, " ")
    else (s, command).

  (** ContourPlotter.py:89-122: one segment of drawContours.  Line 108 writes a literal L. *)
  Definition drawSegment (literalL : bool) (s : plotter) (seg : segment T) : plotter * string :=
    match seg with
    | [_; p1] =>
        let pen := pl_pen s in
        if (fst pen =? fst p1)%num && (snd pen =? snd p1)%num then (s, "")
        else if (fst pen =? fst p1)%num then
          let (s, c) := plCommand s "V" in (setPen s p1, c ++ show (snd p1))
        else if (snd pen =? snd p1)%num then
          let (s, c) := plCommand s "H" in (setPen s p1, c ++ show (fst p1))
        else
          let (s, c) := plCommand s "L" in
          (setPen s p1, (if literalL then "L" else c) ++ pointToString show p1)
    | [_; p1; p2] =>
        let (s, c) := plCommand s "Q" in
        (setPen s p2, c ++ pointToString show p1 ++ " " ++ pointToString show p2)
    | [_; p1; p2; p3] =>
        let (s, c) := plCommand s "C" in
        (setPen s p3, c ++ pointToString show p1 ++ " " ++ pointToString show p2 ++ " "
                        ++ pointToString show p3)
    | _ => (s, "")
    end.
  Fixpoint drawSegments (literalL : bool) (s : plotter) (segs : list (segment T)) : plotter * string :=
    match segs with
    | [] => (s, "")
    | g :: r =>
        let (s, a) := drawSegment literalL s g in
        let (s, b) := drawSegments literalL s r in
        (s, a ++ b)
    end.

  (** ContourPlotter.py:84-124: the contours; an empty contour or segment raises IndexError at
      [contour[0][0]]. *)
  Fixpoint drawContourList (s : plotter) (cs : list (contour T)) (close : bool)
    : plotter * res string :=
    match cs with
    | [] => (s, Ok "")
    | c :: r =>
        match c with
        | (p :: _) :: _ =>
            let s := setPen s p in
            let (s, txt) := drawSegments true s c in
            match drawContourList s r close with
            | (s, Ok rest) =>
                (s, Ok ("M" ++ pointToString show p ++ txt ++ (if close then "Z" else "") ++ rest))
            | (s, Err x) => (s, Err x)
            end
        | _ => (s, Err IndexError)
        end
    end.

  (** ContourPlotter.py:75-135 drawContours.  [pushFillAttributes] has no parameter [fill], so a
      true [fill] raises TypeError at the call. *)
  Definition drawContours (s : plotter) (cs : list (contour T)) (color : option V)
      (fill close : bool) : presult :=
    if fill then (s, Some TypeError)
    else
      let s := if isGiven color then pushStroke s None color None None else s in
      match drawContourList s cs close with
      | (s, Err x) => (s, Some x)
      | (s, Ok d) =>
          let i := IStrokePath d (pl_stroke s) in
          match (if isGiven color then popStroke s else (s, None)) with
          | (s, None) => (emit s i, None)
          | (s, Some x) => (s, Some x)
          end
      end.

  (** ContourPlotter.py:147-194: the loop of drawPaths; a path is its start and its segments. *)
  Fixpoint drawPathList (s : plotter) (a : strokeA) (paths : list (point T * list (segment T)))
    : plotter :=
    match paths with
    | [] => s
    | (st, segs) :: r =>
        let s := setPen s st in
        let (s, txt) := drawSegments false s segs in
        drawPathList (emit s (IStrokePath ("M" ++ pointToString show st ++ txt) a)) a r
    end.

  (** ContourPlotter.py:137-199 drawPaths ([close] is not used there). *)
  Definition drawPaths (s : plotter) (paths : list (point T * list (segment T)))
      (color : option V) (fill : bool) : presult :=
    if fill then (s, Some TypeError)
    else
      let s := if isGiven color then pushStroke s None color None None else s in
      let s := drawPathList s (pl_stroke s) paths in
      if isGiven color then popStroke s else (s, None).

  (** ContourPlotter.py:212-221: the loop of drawPointsAsSegments. *)
  Fixpoint polyline (s : plotter) (command : string) (ps : list (point T)) : plotter * string :=
    match ps with
    | [] => (s, "")
    | p :: r =>
        let pen := pl_pen s in
        if (fst pen =? fst p)%num && (snd pen =? snd p)%num then polyline s command r
        else
          let (s', rest) := polyline (setPen s p) " " r in
          (s', command ++ pointToString show p ++ rest)
    end.

  (** ContourPlotter.py:202-227 drawPointsAsSegments: an empty list raises IndexError after the
      stroke attributes were pushed. *)
  Definition drawPointsAsSegments (s : plotter) (ps : list (point T)) (color : option V) : presult :=
    let s := if isGiven color then pushStroke s None color None None else s in
    match ps with
    | [] => (s, Some IndexError)
    | p :: r =>
        let s := setPen s p in
        let (s, txt) := polyline s "L" r in
        let s := emit s (IStrokePath ("M" ++ pointToString show p ++ txt) (pl_stroke s)) in
        if isGiven color then popStroke s else (s, None)
    end.

  (** ContourPlotter.py:229-254 drawPointsAsCircles on pairs (the complex form is in MComplex.v).
      [colors] = None or [] is falsy. *)
  Definition withFillColor (s : plotter) (c : V) : plotter :=
    setFill s (mkFill c (f_opacity (pl_fill s))).
  Definition withStrokeColor (s : plotter) (c : V) : plotter :=
    let a := pl_stroke s in
    setStroke s (mkStroke (s_width a) c (s_opacity a) (s_dash a)).
  Fixpoint circles (s : plotter) (i : nat) (ps : list (point T)) (radius : T) (colors : list V)
      (fill : bool) : plotter :=
    match ps with
    | [] => s
    | p :: r =>
        let s := match nth_error colors (i mod List.length colors) with
                 | Some c => if truthy c then (if fill then withFillColor s c else withStrokeColor s c) else s
                 | None => s
                 end in
        circles (emit s (ICircle p radius fill (pl_stroke s) (pl_fill s))) (S i) r radius colors fill
    end.
  Definition drawPointsAsCircles (s : plotter) (ps : list (point T)) (radius : T) (colors : list V)
      (fill : bool) : presult :=
    match ps with
    | [] => (s, Some IndexError)
    | _ =>
        match colors with
        | [] => (circles s 0 ps radius colors fill, None)
        | c :: _ =>
            if fill then (circles (withFillColor s c) 0 ps radius colors fill, None)
            else popStroke (circles (pushStroke s None (Some c) None None) 0 ps radius colors fill)
        end
    end.

  (** ContourPlotter.py:256-275 drawComplexPointsAsCircles: a complex number is its pair; unlike
      drawPointsAsCircles it does not look at the first point. *)
  Definition drawComplexPointsAsCircles (s : plotter) (ps : list (point T)) (radius : T) (colors : list V)
      (fill : bool) : presult :=
    match colors with
    | [] => (circles s 0 ps radius colors fill, None)
    | c :: _ =>
        if fill then (circles (withFillColor s c) 0 ps radius colors fill, None)
        else popStroke (circles (pushStroke s None (Some c) None None) 0 ps radius colors fill)
    end.

  (** ContourPlotter.py:277-278 drawCurve. *)
  Definition drawCurve (s : plotter) (seg : segment T) (color : option V) : presult :=
    drawContours s [[seg]] color false false.

  (** ContourPlotter.py:280-282 drawText ([margin] selects the coordinate system of the content
      margins instead of the content; the alignment is not modelled). *)
  Definition drawText (s : plotter) (p : point T) (text : string) (margin : bool) : plotter :=
    emit s (ILabel margin p text (pl_labelSize s) (pl_fill s)).

  (** ContourPlotter.py:287-298 drawSkeleton ([black] is the class constant colorBlack).  The
      misspelt attribute [_strokWidth] is not modelled: nothing reads it. *)
  Definition pointLabel (p : point T) : string :=
    "(" ++ show (round2 (fst p)) ++ ", " ++ show (round2 (snd p)) ++ ")".
  Definition labels (s : plotter) (ps : list (point T)) : plotter :=
    fold_left (fun s p => drawText s (fst p + nofZ 4, snd p - nofZ 4)%num (pointLabel p) false) ps s.
  Definition drawSkeleton (black : V) (s : plotter) (points : list (point T)) (lineColor : option V)
      (pointColors : list V) : presult :=
    match drawPointsAsSegments s points lineColor with
    | (s, Some x) => (s, Some x)
    | (s, None) =>
        match drawPointsAsCircles s points (nofZ 2) pointColors true with
        | (s, Some x) => (s, Some x)
        | (s, None) =>
            let s := pushFill s (Some black) None in
            let s := setLabelSize s (nofZ 6, nofZ 6)%num in
            popFill (labels s points)
        end
    end.

  (** ContourPlotter.py:306-311: the while loop of drawHull; [hull[start:stop]] is clipped to the
      list like any Python slice. *)
  Fixpoint hullLines (s : plotter) (hl : list (point T)) (start order : nat) (lineColor : option V) : presult :=
    match order with
    | S ((S _) as o) =>
        match drawPointsAsSegments s (firstn order (skipn start hl)) lineColor with
        | (s, Some x) => (s, Some x)
        | (s, None) => hullLines s hl (start + order) o lineColor
        end
    | _ => (s, None)
    end.
  (** ContourPlotter.py:300-313 drawHull; [half] is 0.5. *)
  Definition drawHull (black half : V) (s : plotter) (b : bezier T) (t : T) (lineColor : option V) (pointColor : V) : presult :=
    match drawSkeleton black s (cps b) lineColor [pointColor] with
    | (s, Some x) => (s, Some x)
    | (s, None) =>
        let s := if isGiven lineColor then pushStroke s None lineColor (Some half) None else s in
        match hullLines s (hull b t) (List.length (cps b)) (order b) lineColor with
        | (s, Some x) => (s, Some x)
        | (s, None) => if isGiven lineColor then popStroke s else (s, None)
        end
    end.

  (** ContourPlotter.py:315-323 drawArrowBetweenPoints; [dash] is "2, 1" and [none] None. *)
  Definition withDash (s : plotter) (v : V) : plotter :=
    let a := pl_stroke s in
    setStroke s (mkStroke (s_width a) (s_color a) (s_opacity a) v).
  Definition drawArrowBetweenPoints (dash none : V) (s : plotter) (a b : point T) (color : option V)
    : presult :=
    let s := if isGiven color then withStrokeColor s (given color none) else s in
    let s := withDash s dash in
    let s := emit s (IArrow a b (pl_stroke s)) in
    (withDash s none, None).

  (** Plotter calls as data; a client that catches exceptions. *)
  Inductive pcall : Type :=
  | PPushFill (color opacity : option V) | PPopFill
  | PPushStroke (width color opacity dash : option V) | PPopStroke
  | PContours (cs : list (contour T)) (color : option V) (fill close : bool)
  | PPaths (ps : list (point T * list (segment T))) (color : option V) (fill : bool)
  | PSegments (ps : list (point T)) (color : option V)
  | PCircles (ps : list (point T)) (radius : T) (colors : list V) (fill : bool)
  | PCurve (seg : segment T) (color : option V).
  Definition pstep (s : plotter) (c : pcall) : presult :=
    match c with
    | PPushFill a b => (pushFill s a b, None)
    | PPopFill => popFill s
    | PPushStroke a b c d => (pushStroke s a b c d, None)
    | PPopStroke => popStroke s
    | PContours cs color fill close => drawContours s cs color fill close
    | PPaths ps color fill => drawPaths s ps color fill
    | PSegments ps color => drawPointsAsSegments s ps color
    | PCircles ps r cols fill => drawPointsAsCircles s ps r cols fill
    | PCurve seg color => drawCurve s seg color
    end.
  Definition phistory (s : plotter) (cs : list pcall) : plotter :=
    fold_left (fun s c => fst (pstep s c)) cs s.
End Plotter.
