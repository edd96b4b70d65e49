(** Vocabulary of property C133: drawings sent through an affine map, turned or flipped over. *)
From Coq Require Import List Reals.
From Verif Require Import Py Inst SpecGeom MBounds MBezier MContour.
Import ListNotations.
Local Open Scope R_scope.

(** The affine map with linear part [[a b] [c d]]. *)
Definition mapped (a b c d : R) (v p : pt) : pt := (a * fst p + b * snd p + fst v, c * fst p + d * snd p + snd v).
Definition mapped_curve (a b c d : R) (v : pt) (z : bezier R) : bezier R := mkBez (map (mapped a b c d v) (cps z)) (bt1 z) (bt2 z).
(** A turn by the angle with cosine [c] and sine [s], then a move. *)
Definition turned (c s : R) (v p : pt) : pt := mapped c (- s) s c v p.
Definition turned_curve (c s : R) (v : pt) (z : bezier R) : bezier R := mapped_curve c (- s) s c v z.
(** Turning over: up becomes down. *)
Definition flipped_curve (z : bezier R) : bezier R := mapped_curve 1 0 0 (-1) (0, 0) z.
(** A quarter turn of a box. *)
Definition quarter_rect (r : rect R) : rect R := mkRect (- top r) (- bottom r) (right r) (left r).
Definition quarter (p : pt) : pt := turned 0 1 (0, 0) p.
Definition quarter_curve (z : bezier R) : bezier R := turned_curve 0 1 (0, 0) z.
Definition quarter_contour (c : bcontour R) : bcontour R :=
  mkContour (map quarter_curve (c_beziers c)) (quarter_rect (c_bounds c)) (map quarter (c_lut c)) (quarter (c_start c)) (quarter (c_end c)).
Definition quarter_outline (o : boutline R) : boutline R := mkOutline (map quarter_contour (ol_contours o)) (quarter_rect (ol_bounds o)).
(** A box turned over. *)
Definition flipped_rect (r : rect R) : rect R := mkRect (left r) (right r) (- bottom r) (- top r).
Definition flipped (p : pt) : pt := mapped 1 0 0 (-1) (0, 0) p.
(** [q] lies on the line from [p0] through [pn], on the far side of [p0]. *)
Definition right_behind (p0 pn q : pt) : Prop := vcross (vsub pn p0) (vsub q p0) = 0 /\ vdot (vsub pn p0) (vsub q p0) < 0.
