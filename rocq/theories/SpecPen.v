(** Vocabulary for SegmentPen.py: what drawings mean. *)
From Coq Require Import List ZArith Reals String.
From Verif Require Import SpecGeom.
Import ListNotations.
Local Open Scope R_scope.

Definition mid (p q : pt) : pt := ((fst p + fst q) / 2, (snd p + snd q) / 2).

(** TrueType quadratic spline from [s] through the off-curve points [cs] to [e]: on-curve points
    are implied halfway between consecutive off-curve points. *)
Fixpoint spline (s : pt) (cs : list pt) (e : pt) : list (list pt) :=
  match cs with
  | [] => [[s; e]]
  | [c] => [[s; c; e]]
  | c1 :: ((c2 :: _) as r) => [s; c1; mid c1 c2] :: spline (mid c1 c2) r e
  end.

(** A drawing: sub-paths, each with a start point and strokes. *)
Inductive stroke : Type :=
| Line (p : pt)
| Cubic (cs : list pt) (e : pt)      (** control points and end point *)
| Quads (cs : list pt) (e : pt).     (** off-curve points and end point *)
Definition subpath : Type := (pt * list stroke)%type.

Definition stroke_end (k : stroke) : pt := match k with Line p => p | Cubic _ e => e | Quads _ e => e end.
(** The segments a stroke from [s] contributes: none for a line to the same point. *)
Definition stroke_segments (s : pt) (k : stroke) : list (list pt) :=
  match k with
  | Line p => if Req_EM_T (fst p) (fst s) then if Req_EM_T (snd p) (snd s) then [] else [[s; p]] else [[s; p]]
  | Cubic cs e => [s :: cs ++ [e]]
  | Quads cs e => spline s cs e
  end.
Fixpoint stroke_list (s : pt) (ks : list stroke) : list (list pt) :=
  match ks with [] => [] | k :: r => stroke_segments s k ++ stroke_list (stroke_end k) r end.
(** A closing line when the ends differ; nothing for a sub-path without segments. *)
Definition close (c : list (list pt)) : list (list (list pt)) :=
  match contour_first c, contour_last c with
  | Some a, Some b => if Req_EM_T (fst a) (fst b) then if Req_EM_T (snd a) (snd b) then [c] else [c ++ [[b; a]]]
                      else [c ++ [[b; a]]]
  | _, _ => []
  end.
Definition outline (d : list subpath) : list (list (list pt)) :=
  flat_map (fun sp => close (stroke_list (fst sp) (snd sp))) d.

(** The affine map of a six-tuple (xx, xy, yx, yy, dx, dy), and composition. *)
Definition aff (t : R * R * R * R * R * R) (p : pt) : pt :=
  let '(xx, xy, yx, yy, dx, dy) := t in (xx * fst p + yx * snd p + dx, xy * fst p + yy * snd p + dy).
(** [t1] first, then [t2]. *)
Definition aff_comp (t1 t2 : R * R * R * R * R * R) : R * R * R * R * R * R :=
  let '(xx, xy, yx, yy, dx, dy) := t1 in
  let '(xx', xy', yx', yy', dx', dy') := t2 in
  (xx' * xx + yx' * xy, xy' * xx + yy' * xy, xx' * yx + yx' * yy, xy' * yx + yy' * yy,
   xx' * dx + yx' * dy + dx', xy' * dx + yy' * dy + dy').

(** A glyph: sub-paths and references to other glyphs of the font, placed by an affine map. *)
Inductive part : Type :=
| Sub (sp : subpath)
| Ref (name : String.string) (tr : R * R * R * R * R * R).
Definition font : Type := String.string -> option (list part).
(** The outline of a glyph, references replaced by the outlines they stand for. *)
Inductive pictured (f : font) : list part -> list (list (list pt)) -> Prop :=
| pic_nil : pictured f [] []
| pic_sub sp ps cs : pictured f ps cs -> pictured f (Sub sp :: ps) (outline [sp] ++ cs)
| pic_ref n tr q cq ps cs : f n = Some q -> pictured f q cq -> pictured f ps cs ->
    pictured f (Ref n tr :: ps) (map (map (map (aff tr))) cq ++ cs).
