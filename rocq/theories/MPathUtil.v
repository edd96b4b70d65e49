(** Model of the module-level functions of PathLib/PathUtilities.py (lines 197-358).
    Points are pairs; the [complex] representation accepted by pointXY (197-200) is in MComplex.v. *)
From Coq Require Import List ZArith Bool.
From Verif Require Import Py MTransform MBounds MBezUtil.
Import ListNotations.
Local Open Scope num_scope.

Section PathUtil.
  Context {T : Type} `{NumOps T} `{TrigOps T}.

  (** PathUtilities.py:202-206 minMax. *)
  Definition minMax (a b : T) : T * T := if a <=? b then (a, b) else (b, a).

  (** PathUtilities.py:208-215 endPoints ([segment[0]], [segment[-1]]). *)
  Definition endPoints (s : segment T) : res (point T * point T) :=
    let* p0 := idx s 0 in
    let* p1 := idx_last s in
    Ok (p0, p1).

  (** PathUtilities.py:217-223 getDeltas. *)
  Definition getDeltas (s : segment T) : res (T * T) :=
    let* (p0, p1) := endPoints s in
    Ok (fst p1 - fst p0, snd p1 - snd p0).

  (** PathUtilities.py:225-241. *)
  Definition isVerticalLine (s : segment T) : res bool :=
    let* (dx, _) := getDeltas s in
    Ok (Nat.eqb (length s) 2 && (dx =? nofZ 0)).
  Definition isHorizontalLine (s : segment T) : res bool :=
    let* (_, dy) := getDeltas s in
    Ok (Nat.eqb (length s) 2 && (dy =? nofZ 0)).
  Definition isDiagonalLine (s : segment T) : res bool :=
    let* (dx, dy) := getDeltas s in
    Ok (Nat.eqb (length s) 2 && (dx != nofZ 0) && (dy != nofZ 0)).

  (** PathUtilities.py:243-247 length. *)
  Definition seglength (s : segment T) : res T :=
    let* (dx, dy) := getDeltas s in Ok (thypot dx dy).

  (** PathUtilities.py:249-257 slope; [SInf] is math.inf. *)
  Inductive slopeval : Type := SInf | SFin (x : T).
  Definition slope (s : segment T) : res slopeval :=
    let* (dx, dy) := getDeltas s in
    if dx =? nofZ 0 then Ok SInf else Ok (SFin (nquot dy dx)).
  (** [==] on slopes. *)
  Definition slopeeqb (a b : slopeval) : bool :=
    match a, b with
    | SInf, SInf => true
    | SFin x, SFin y => x =? y
    | _, _ => false
    end.

  (** math.degrees(x) is x * (180 / pi), in that order. *)
  Definition degrees (x : T) : T := x * nquot (nofZ 180) tpi.

  (** PathUtilities.py:259-264 slopeAngle, 270-272 rawSlopeAngle. *)
  Definition slopeAngle (s : segment T) : res T :=
    let* (dx, dy) := getDeltas s in Ok (degrees (tatan2 (nabs dx) (nabs dy))).
  Definition rawSlopeAngle (s : segment T) : res T :=
    let* (dx, dy) := getDeltas s in Ok (degrees (tatan2 dy dx)).

  (** PathUtilities.py:274-280 midpoint. *)
  Definition midpoint (s : segment T) : res (point T) :=
    let* (p0, p1) := endPoints s in
    Ok (nquot (fst p0 + fst p1) (nofZ 2), nquot (snd p0 + snd p1) (nofZ 2)).

  (** PathUtilities.py:112-116 centerPoint. *)
  Definition centerPoint (r : rect T) : res (point T) := midpoint (diagonal r).

  (** PathUtilities.py:282-296 intersectionPoint. *)
  Definition intersectionPoint (l1 l2 : segment T) : res (option (point T)) :=
    let* i := lli l1 l2 in
    match i with
    | None => Ok None
    | Some p =>
        let b1 := BoundsRectangle l1 in
        let b2 := BoundsRectangle l2 in
        Ok (if enclosesPoint b1 p && enclosesPoint b2 p then Some p else None)
    end.

  (** PathUtilities.py:299-303 flatten. *)
  Definition flatten (cs : list (contour T)) : contour T :=
    flat_map (fun c => flat_map (fun s => [s]) c) cs.

  (** PathUtilities.py:306-315 pointOnLine ([and] does not evaluate the slopes when the bounds
      test is False). *)
  Definition pointOnLine (p : point T) (line : segment T) : res bool :=
    let bounds := BoundsRectangle line in
    if enclosesPoint bounds p then
      let* s1 := slope line in
      let* a := idx line 0 in
      let* s2 := slope [a; p] in
      Ok (slopeeqb s1 s2)
    else Ok false.

  (** PathUtilities.py:318-352 rotate*About. *)
  Definition rotatePointAbout (p about : point T) (deg : T) (ccw : bool) : res (point T) :=
    let* rt := rotationAbout about deg ccw in applyToPoint rt p.
  Definition rotateSegmentAbout (s : segment T) (about : point T) (deg : T) (ccw : bool) : res (segment T) :=
    let* rt := rotationAbout about deg ccw in applyToSegment rt s.
  Definition rotateContourAbout (c : contour T) (about : point T) (deg : T) (ccw : bool) : res (contour T) :=
    let* rt := rotationAbout about deg ccw in applyToContour rt c.
  Definition rotateContoursAbout (cs : list (contour T)) (about : point T) (deg : T) (ccw : bool) : res (list (contour T)) :=
    let* rt := rotationAbout about deg ccw in applyToContours rt cs.

  (** PathUtilities.py:354-358 toMicros. *)
  Definition toMicros (funits unitsPerEM : T) : res T := ndiv (funits * nofZ 1000) unitsPerEM.
End PathUtil.
Arguments slopeval T : clear implicits.
