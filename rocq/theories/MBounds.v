(** Model of class BoundsRectangle, PathLib/PathUtilities.py:18-195. *)
From Coq Require Import List ZArith Bool.
From Verif Require Import Py.
Import ListNotations.
Local Open Scope num_scope.

Section Bounds.
  Context {T : Type} `{NumOps T}.

  (** PathUtilities.py:45-48 the four attributes. *)
  Record rect : Type := mkRect { left : T; right : T; top : T; bottom : T }.

  (** PathUtilities.py:35-36 the initial values of the scan. *)
  Definition emptyRect : rect :=
    mkRect (nofZ 32768) (nofZ (-32768)) (nofZ (-32768)) (nofZ 32768).

  (** PathUtilities.py:38-43 loop body. *)
  Definition addPoint (r : rect) (p : point T) : rect :=
    let (px, py) := p in
    mkRect (pmin (left r) px) (pmax (right r) px) (pmax (top r) py) (pmin (bottom r) py).

  (** PathUtilities.py:28-48 __init__. *)
  Definition BoundsRectangle (points : list (point T)) : rect := fold_left addPoint points emptyRect.

  (** PathUtilities.py:76-94 width, height, area. *)
  Definition width (r : rect) : T := right r - left r.
  Definition height (r : rect) : T := top r - bottom r.
  Definition area (r : rect) : T := width r * height r.

  (** PathUtilities.py:97-101 diagonal. *)
  Definition diagonal (r : rect) : segment T := [(left r, bottom r); (right r, top r)].

  (** PathUtilities.py:104-109 contour. *)
  Definition rcontour (r : rect) : contour T :=
    let p0 := (left r, bottom r) in
    let p1 := (left r, top r) in
    let p2 := (right r, top r) in
    let p3 := (right r, bottom r) in
    [[p0; p1]; [p1; p2]; [p2; p3]; [p3; p0]].

  (** PathUtilities.py:119-123 points. *)
  Definition rpoints (r : rect) : list T := [left r; bottom r; right r; top r].

  (** PathUtilities.py:125-135. *)
  Definition yFromBottom (r : rect) (percent : T) : T := bottom r + height r * percent.
  Definition xFromLeft (r : rect) (percent : T) : T := left r + width r * percent.

  (** PathUtilities.py:137-143 enclosesPoint. *)
  Definition enclosesPoint (r : rect) (p : point T) : bool :=
    let (px, py) := p in
    (left r <=? px) && (px <=? right r) && ((bottom r <=? py) && (py <=? top r)).

  (** PathUtilities.py:145-150 encloses: both ends of the other's diagonal. *)
  Definition encloses (self other : rect) : bool :=
    enclosesPoint self (left other, bottom other) && enclosesPoint self (right other, top other).

  (** PathUtilities.py:152-162. *)
  Definition crossesX (r : rect) (x : T) : bool := (left r <=? x) && (x <=? right r).
  Definition crossesY (r : rect) (y : T) : bool := (bottom r <=? y) && (y <=? top r).

  (** PathUtilities.py:164-173 union (goes back through the constructor). *)
  Definition union (self other : rect) : rect :=
    let newLeft := pmin (left self) (left other) in
    let newTop := pmax (top self) (top other) in
    let newRight := pmax (right self) (right other) in
    let newBottom := pmin (bottom self) (bottom other) in
    BoundsRectangle [(newLeft, newBottom); (newRight, newTop)].

  (** PathUtilities.py:175-185 intersection. *)
  Definition intersection (self other : rect) : option rect :=
    let newLeft := pmax (left self) (left other) in
    let newTop := pmin (top self) (top other) in
    let newRight := pmin (right self) (right other) in
    let newBottom := pmax (bottom self) (bottom other) in
    if (newRight <? newLeft) || (newTop <? newBottom) then None
    else Some (BoundsRectangle [(newLeft, newBottom); (newRight, newTop)]).

  (** PathUtilities.py:23-26, 187-195 relationTo.  A BoundsRectangle object is always truthy. *)
  Inductive relation : Set := relationEncloses | relationEnclosed | relationIntersects | relationSeparate.
  Definition relationTo (self other : rect) : relation :=
    if encloses self other then relationEncloses
    else if encloses other self then relationEnclosed
    else match intersection self other with
         | Some _ => relationIntersects
         | None => relationSeparate
         end.

  (** PathUtilities.py:51-59 fromContour, 62-70 fromCoutours. *)
  Definition fromContour (c : contour T) : rect :=
    fold_left (fun bounds seg => union bounds (BoundsRectangle seg)) c (BoundsRectangle []).
  Definition fromContours (cs : list (contour T)) : rect :=
    fold_left (fun bounds c => union bounds (fromContour c)) cs (BoundsRectangle []).
End Bounds.

Arguments rect T : clear implicits.
