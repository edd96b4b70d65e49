(** Vocabulary of property C132: whole drawings moved, resized or transformed. *)
From Coq Require Import List Reals.
From Verif Require Import Py Inst SpecGeom SpecCurve SpecMove MBounds MBezier MSegmentPen MContour.
Import ListNotations.
Local Open Scope R_scope.

(** A contour object with every curve, its box, its recorded samples and its ends placed. *)
Definition placed_contour (k : R) (v : pt) (c : bcontour R) : bcontour R :=
  mkContour (map (placed_curve k v) (c_beziers c)) (placed_rect k v (c_bounds c)) (map (placed k v) (c_lut c))
            (placed k v (c_start c)) (placed k v (c_end c)).
Definition placed_outline (k : R) (v : pt) (o : boutline R) : boutline R :=
  mkOutline (map (placed_contour k v) (ol_contours o)) (placed_rect k v (ol_bounds o)).
(** A pen call with every point moved by [f]; component references stay. *)
Definition call_at (f : pt -> pt) (c : pencall R) : pencall R :=
  match c with
  | MoveTo p => MoveTo (f p)
  | LineTo p => LineTo (f p)
  | CurveTo ps => CurveTo (map f ps)
  | QCurveTo ps => QCurveTo (map f ps)
  | c => c
  end.
Definition refers (c : pencall R) : Prop := match c with AddComponent _ _ => True | _ => False end.
(** The factor by which a transformation tuple multiplies areas; zero when it flattens. *)
Definition area_factor (t : R * R * R * R * R * R) : R := let '(xx, xy, yx, yy, _, _) := t in xx * yy - xy * yx.
(** Coordinates within +-32768 both before and after. *)
Definition stays_in_range (k : R) (v : pt) (ps : list pt) : Prop := in_sentinels ps /\ in_sentinels (map (placed k v) ps).
