(** Model of PathLib/SegmentPen.py.

    A pen is a state; a pen method is a function from state to (state, exception option): when a
    method raises, the state it leaves behind is kept, because a caller may catch the exception
    and go on.  Logger calls are not modelled. *)
From Coq Require Import List ZArith Bool String.
From Verif Require Import Py MTransform.
Import ListNotations.
Local Open Scope num_scope.

Section SegmentPen.
  Context {T : Type} `{NumOps T}.

  (** SegmentPen.py:15, 24-28.  [_contour] is an unset slot until the first moveTo ([None]).
      [_segment] is written by moveTo and never read, so it is left out. *)
  Record pen : Type := mkPen {
    p_contours : list (contour T);
    p_last : point T;
    p_contour : option (contour T)
  }.

  (** SegmentPen.py:24-28 __init__. *)
  Definition newPen : pen := mkPen [] (nofZ 0, nofZ 0) None.

  (** A transformation tuple, SegmentPen.py:93, in the order
      (xScale, xyScale, yxScale, yScale, xOffset, yOffset). *)
  Definition trans6 : Type := (T * T * T * T * T * T)%type.

  (** The pen protocol as data.  A glyph is the list of pen calls its draw method makes. *)
  Inductive pencall : Type :=
  | MoveTo (pt : point T)
  | LineTo (pt : point T)
  | CurveTo (pts : list (point T))
  | QCurveTo (pts : list (point T))
  | ClosePath
  | AddComponent (glyphName : string) (tr : trans6)
  | AddPointCall | BeginPath | EndPath.

  Definition glyph : Type := list pencall.
  (** [self._glyphSet[name]]; [None] is a KeyError. *)
  Definition glyphset : Type := string -> option glyph.

  Definition outcome : Type := (pen * option exn)%type.

  (** SegmentPen.py:33-40 moveTo. *)
  Definition moveTo (s : pen) (pt : point T) : outcome :=
    (mkPen (p_contours s) pt (Some []), None).

  (** [self._contour.append(seg)]; AttributeError if the slot was never set. *)
  Definition appendSegment (s : pen) (seg : segment T) : outcome :=
    match p_contour s with
    | None => (s, Some AttributeError)
    | Some c => (mkPen (p_contours s) (p_last s) (Some (c ++ [seg])), None)
    end.

  Definition setLast (s : pen) (pt : point T) : pen := mkPen (p_contours s) pt (p_contour s).

  (** SegmentPen.py:42-49 lineTo. *)
  Definition lineTo (s : pen) (pt : point T) : outcome :=
    if pteqb pt (p_last s) then (s, None)
    else match appendSegment s [p_last s; pt] with
         | (s', None) => (setLast s' pt, None)
         | r => r
         end.

  (** SegmentPen.py:51-56 curveTo: with no points the segment has already been appended when
      [points[-1]] raises IndexError. *)
  Definition curveTo (s : pen) (pts : list (point T)) : outcome :=
    match appendSegment s (p_last s :: pts) with
    | (s', None) =>
        match last_error pts with
        | Some p => (setLast s' p, None)
        | None => (s', Some IndexError)
        end
    | r => r
    end.

  (** SegmentPen.py:70 impliedPoint: [0.5 * (p1x + p2x), 0.5 * (p1y + p2y)]. *)
  Definition implied (p1 p2 : point T) : point T :=
    (nlit 1 2 * (fst p1 + fst p2), nlit 1 2 * (snd p1 + snd p2)).

  (** SegmentPen.py:67-72 the for loop over [i in range(1, len(segment) - 2)]; loop state is the
      pen and [startPoint].  [segment[i]] is in range, IndexError is kept for fidelity. *)
  Fixpoint qLoop (seg : segment T) (is : list nat) (start : point T) (s : pen)
    : (pen * point T) * option exn :=
    match is with
    | [] => ((s, start), None)
    | i :: r =>
        match nth_error seg i, nth_error seg (i + 1) with
        | Some p1, Some p2 =>
            let ip := implied p1 p2 in
            match appendSegment s [start; p1; ip] with
            | (s', None) => qLoop seg r ip s'
            | (s', Some e) => ((s', start), Some e)
            end
        | _, _ => ((s, start), Some IndexError)
        end
    end.

  (** SegmentPen.py:58-75 qCurveTo. *)
  Definition qCurveTo (s : pen) (pts : list (point T)) : outcome :=
    let seg := p_last s :: pts in
    let finish (o : outcome) : outcome :=
      match o with
      | (s', None) => (setLast s' (last seg (p_last s)), None)
      | r => r
      end in
    if Nat.leb (List.length seg) 3 then finish (appendSegment s seg)
    else
      match qLoop seg (seq 1 (List.length seg - 3)) (p_last s) s with
      | ((s', start), None) =>
          match nth_error seg (List.length seg - 2), nth_error seg (List.length seg - 1) with
          | Some a, Some b => finish (appendSegment s' [start; a; b])
          | _, _ => (s', Some IndexError)
          end
      | ((s', _), Some e) => (s', Some e)
      end.

  (** First point of the first segment, last point of the last one. *)
  Definition contourStart (c : contour T) : option (point T) :=
    match c with (p :: _) :: _ => Some p | _ => None end.
  Definition contourEnd (c : contour T) : option (point T) :=
    match last_error c with Some s => last_error s | None => None end.

  (** SegmentPen.py:80-86 closePath.  The contour is appended to the list first and the closing
      segment is then appended to that same list object. *)
  Definition closePath (s : pen) : outcome :=
    match p_contour s with
    | None => (s, Some AttributeError)
    | Some [] => (s, None)
    | Some c =>
        match contourStart c, contourEnd c with
        | Some a, Some b =>
            let c' := if pteqb a b then c else c ++ [[b; a]] in
            (mkPen (p_contours s ++ [c']) (p_last s) (Some []), None)
        | _, _ => (mkPen (p_contours s ++ [c]) (p_last s) (Some c), Some IndexError)
        end
    end.

  (** SegmentPen.py:91, 95 identityTransformation and the comparison with it. *)
  Definition isIdentityTransformation (tr : trans6) : bool :=
    let '(xs, xys, yxs, ys, xo, yo) := tr in
    (xs =? nofZ 1) && (xys =? nofZ 0) && (yxs =? nofZ 0) && (ys =? nofZ 1)
    && (xo =? nofZ 0) && (yo =? nofZ 0).

  (** SegmentPen.py:96-105: the component matrix. *)
  Definition componentMatrix (tr : trans6) : matrix T :=
    let '(xs, xys, yxs, ys, xo, yo) := tr in
    _matrix xs xys yxs ys xo yo (nofZ 0) (nofZ 0) (nofZ 1).

  (** SegmentPen.py:93-113 addComponent.  [draw] draws a glyph on a fresh pen. *)
  Definition addComponent (gs : glyphset) (draw : glyph -> outcome) (s : pen)
      (name : string) (tr : trans6) : outcome :=
    match gs name with
    | None => (s, Some KeyError)
    | Some g =>
        match draw g with
        | (cpen, Some e) => (s, Some e)
        | (cpen, None) =>
            let contours :=
              if isIdentityTransformation tr then Ok (p_contours cpen)
              else let* t := mkTransform [componentMatrix tr] in
                   applyToContours t (p_contours cpen) in
            match contours with
            | Ok cs => (mkPen (p_contours s ++ cs) (p_last s) (p_contour s), None)
            | Err e => (s, Some e)
            end
        end
    end.

  (** One pen call.  SegmentPen.py:30-31, 77-78, 88-89 raise NotImplementedError. *)
  Definition penStep (gs : glyphset) (draw : glyph -> outcome) (s : pen) (c : pencall) : outcome :=
    match c with
    | MoveTo pt => moveTo s pt
    | LineTo pt => lineTo s pt
    | CurveTo pts => curveTo s pts
    | QCurveTo pts => qCurveTo s pts
    | ClosePath => closePath s
    | AddComponent n tr => addComponent gs draw s n tr
    | AddPointCall | BeginPath | EndPath => (s, Some NotImplementedError)
    end.

  (** A glyph's draw method: its calls in order; an exception aborts the drawing. *)
  Fixpoint runCalls (step : pen -> pencall -> outcome) (cs : list pencall) (s : pen) : outcome :=
    match cs with
    | [] => (s, None)
    | c :: r =>
        match step s c with
        | (s', None) => runCalls step r s'
        | (s', Some e) => (s', Some e)
        end
    end.

  (** [glyph.draw(SegmentPen(glyphSet))] with component nesting at most [fuel]; deeper nesting
      (in particular cyclic glyphs) is Python's RecursionError. *)
  Fixpoint drawGlyph (gs : glyphset) (fuel : nat) (g : glyph) : outcome :=
    match fuel with
    | O => (newPen, Some RecursionError)
    | S f => runCalls (penStep gs (drawGlyph gs f)) g newPen
    end.

  (** A client that catches every exception and goes on: all reachable pen states. *)
  Definition penHistory (gs : glyphset) (fuel : nat) (cs : list pencall) : pen :=
    fold_left (fun s c => fst (penStep gs (drawGlyph gs fuel) s c)) cs newPen.
End SegmentPen.
Arguments pen T : clear implicits.
Arguments pencall T : clear implicits.
Arguments glyph T : clear implicits.
Arguments glyphset T : clear implicits.
Arguments trans6 T : clear implicits.
