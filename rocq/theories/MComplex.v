(** Points given as complex numbers.  PathLib/PathUtilities.py:197-200 (pointXY) and
    PathLib/ContourPlotter.py:229-254 accept a [complex] where a pair is expected; every other
    function unpacks [x, y = point], which raises TypeError on a complex number.  This file models
    the functions of PathUtilities.py, the point functions of Transform.py and
    ContourPlotter.drawPointsAsCircles on either kind of point. *)
From Coq Require Import List ZArith Bool String.
From Verif Require Import Py MTransform MBounds MBezUtil MPathUtil MPlotter.
Import ListNotations.
Local Open Scope num_scope.

Section Complex.
  Context {T : Type} `{NumOps T} `{TrigOps T}.

  Inductive anypoint : Type := APair (p : point T) | AComplex (re im : T).

  (** PathUtilities.py:197-200 pointXY. *)
  Definition pointXY (p : anypoint) : point T :=
    match p with AComplex re im => (re, im) | APair p => p end.

  (** [x, y = p]: a complex number cannot be unpacked. *)
  Definition unpackPoint (p : anypoint) : res (point T) :=
    match p with APair p => Ok p | AComplex _ _ => Err TypeError end.

  (** PathUtilities.py:208-215 endPoints, 217-223 getDeltas. *)
  Definition endPointsA (s : list anypoint) : res (point T * point T) :=
    let* p0 := idx s 0 in
    let* p1 := idx_last s in
    Ok (pointXY p0, pointXY p1).
  Definition getDeltasA (s : list anypoint) : res (T * T) :=
    let* (p0, p1) := endPointsA s in
    Ok (fst p1 - fst p0, snd p1 - snd p0).

  (** PathUtilities.py:225-241. *)
  Definition isVerticalLineA (s : list anypoint) : res bool :=
    let* (dx, _) := getDeltasA s in
    Ok (Nat.eqb (List.length s) 2 && (dx =? nofZ 0)).
  Definition isHorizontalLineA (s : list anypoint) : res bool :=
    let* (_, dy) := getDeltasA s in
    Ok (Nat.eqb (List.length s) 2 && (dy =? nofZ 0)).
  Definition isDiagonalLineA (s : list anypoint) : res bool :=
    let* (dx, dy) := getDeltasA s in
    Ok (Nat.eqb (List.length s) 2 && (dx != nofZ 0) && (dy != nofZ 0)).

  (** PathUtilities.py:243-280 length, slope, slopeAngle, rawSlopeAngle, midpoint. *)
  Definition seglengthA (s : list anypoint) : res T :=
    let* (dx, dy) := getDeltasA s in Ok (thypot dx dy).
  Definition slopeA (s : list anypoint) : res (slopeval T) :=
    let* (dx, dy) := getDeltasA s in
    if dx =? nofZ 0 then Ok SInf else Ok (SFin (nquot dy dx)).
  Definition slopeAngleA (s : list anypoint) : res T :=
    let* (dx, dy) := getDeltasA s in Ok (degrees (tatan2 (nabs dx) (nabs dy))).
  Definition rawSlopeAngleA (s : list anypoint) : res T :=
    let* (dx, dy) := getDeltasA s in Ok (degrees (tatan2 dy dx)).
  Definition midpointA (s : list anypoint) : res (point T) :=
    let* (p0, p1) := endPointsA s in
    Ok (nquot (fst p0 + fst p1) (nofZ 2), nquot (snd p0 + snd p1) (nofZ 2)).

  (** PathUtilities.py:28-48 BoundsRectangle(points), 50-59 fromContour. *)
  Definition BoundsRectangleA (ps : list anypoint) : res (rect T) :=
    foldM (fun r p => let* xy := unpackPoint p in Ok (addPoint r xy)) ps emptyRect.
  Definition fromContourA (c : list (list anypoint)) : res (rect T) :=
    foldM (fun b s => let* r := BoundsRectangleA s in Ok (union b r)) c (BoundsRectangle []).

  (** PathUtilities.py:137-143 enclosesPoint. *)
  Definition enclosesPointA (r : rect T) (p : anypoint) : res bool :=
    let* xy := unpackPoint p in Ok (enclosesPoint r xy).

  (** BezierUtilities.py:136-145 lli4, lli. *)
  Definition lliA (l1 l2 : list anypoint) : res (option (point T)) :=
    let* a := idx l1 0 in let* b := idx l1 1 in
    let* c := idx l2 0 in let* d := idx l2 1 in
    let* a := unpackPoint a in let* b := unpackPoint b in
    let* c := unpackPoint c in let* d := unpackPoint d in
    Ok (lli4 a b c d).

  (** PathUtilities.py:282-296 intersectionPoint. *)
  Definition intersectionPointA (l1 l2 : list anypoint) : res (option (point T)) :=
    let* i := lliA l1 l2 in
    match i with
    | None => Ok None
    | Some p =>
        let* b1 := BoundsRectangleA l1 in
        let* b2 := BoundsRectangleA l2 in
        Ok (if enclosesPoint b1 p && enclosesPoint b2 p then Some p else None)
    end.

  (** PathUtilities.py:306-315 pointOnLine. *)
  Definition pointOnLineA (p : anypoint) (line : list anypoint) : res bool :=
    let* bounds := BoundsRectangleA line in
    let* inside := enclosesPointA bounds p in
    if inside : bool then
      let* s1 := slopeA line in
      let* a := idx line 0 in
      let* s2 := slopeA [a; p] in
      Ok (slopeeqb s1 s2)
    else Ok false.

  (** Transform.py:275-306 applyToPoint, applyToSegment. *)
  Definition applyToPointA (t : matrix T) (p : anypoint) : res (point T) :=
    let* xy := unpackPoint p in applyToPoint t xy.
  Definition applyToSegmentA (t : matrix T) (s : list anypoint) : res (segment T) :=
    mapM (applyToPointA t) s.

  (** ContourPlotter.py:229-254 drawPointsAsCircles.  The first point decides how all of them are
      read: [p.real, p.imag] on a pair is an AttributeError, [x, y = p] on a complex number a
      TypeError; either leaves the circles drawn so far, and a pushed stroke on the stack. *)
  Section Circles.
    Context {V : Type} (truthy : V -> bool).

    Definition readXY (asComplex : bool) (p : anypoint) : res (point T) :=
      match p, asComplex with
      | AComplex re im, true => Ok (re, im)
      | APair _, true => Err AttributeError
      | _, false => unpackPoint p
      end.
    Definition isComplex (p : anypoint) : bool :=
      match p with AComplex _ _ => true | APair _ => false end.

    Fixpoint circlesA (asComplex : bool) (s : plotter) (i : nat) (ps : list anypoint) (radius : T)
        (colors : list V) (fill : bool) : presult :=
      match ps with
      | [] => (s, None)
      | p :: r =>
          match readXY asComplex p with
          | Err e => (s, Some e)
          | Ok xy =>
              let s := match nth_error colors (i mod List.length colors) with
                       | Some c => if truthy c then (if fill then withFillColor s c else withStrokeColor s c) else s
                       | None => s
                       end in
              circlesA asComplex (emit s (ICircle xy radius fill (pl_stroke s) (pl_fill s))) (S i) r radius colors fill
          end
      end.
    Definition drawPointsAsCirclesA (s : plotter) (ps : list anypoint) (radius : T) (colors : list V)
        (fill : bool) : presult :=
      match ps with
      | [] => (s, Some IndexError)
      | p :: _ =>
          let k := isComplex p in
          match colors with
          | [] => circlesA k s 0 ps radius colors fill
          | c :: _ =>
              if fill then circlesA k (withFillColor s c) 0 ps radius colors fill
              else match circlesA k (pushStroke truthy s None (Some c) None None) 0 ps radius colors fill with
                   | (s, None) => popStroke s
                   | r => r
                   end
          end
      end.
  End Circles.
End Complex.
Arguments anypoint T : clear implicits.
