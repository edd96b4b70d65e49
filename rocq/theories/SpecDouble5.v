(** Glyphs whose numbers are doubles, the same glyphs over the reals, and fonts with numbers on a binary grid. *)
From Coq Require Import List ZArith Reals String.
From Verif Require Import Py InstFloat SpecGeom SpecDouble MSegmentPen.
Import ListNotations.
Local Open Scope R_scope.

Definition vtr (t : trans6 b64) : trans6 R :=
  let '(xs, xys, yxs, ys, xo, yo) := t in (val xs, val xys, val yxs, val ys, val xo, val yo).
Definition vcall (c : pencall b64) : pencall R :=
  match c with
  | MoveTo p => MoveTo (vpt p)
  | LineTo p => LineTo (vpt p)
  | CurveTo ps => CurveTo (map vpt ps)
  | QCurveTo ps => QCurveTo (map vpt ps)
  | ClosePath => ClosePath
  | AddComponent n t => AddComponent n (vtr t)
  | AddPointCall => AddPointCall
  | BeginPath => BeginPath
  | EndPath => EndPath
  end.
Definition vglyph (g : glyph b64) : glyph R := map vcall g.
Definition vglyphs (gs : glyphset b64) : glyphset R := fun n => option_map vglyph (gs n).
Definition vcontours (cs : list (list (list (point b64)))) : list (list (list pt)) := map (map (map vpt)) cs.
Definition vpen (s : pen b64) : pen R := mkPen (vcontours (p_contours s)) (vpt (p_last s)) (option_map (map (map vpt)) (p_contour s)).

(** A multiple of [1 / 2^e]. *)
Definition on_grid (e : nat) (x : b64) : Prop := fin x /\ exists z, val x = IZR z * / 2 ^ e.
(** Whole coordinates of at most [B]. *)
Definition whole (B : R) (p : point b64) : Prop :=
  on_grid 0 (fst p) /\ Rabs (val (fst p)) <= B /\ on_grid 0 (snd p) /\ Rabs (val (snd p)) <= B.
(** A component transformation with multiples of [1 / 2^g], absolute sums at most [S] and whole offsets. *)
Definition scaled (g : nat) (S B : R) (t : trans6 b64) : Prop :=
  let '(xs, xys, yxs, ys, xo, yo) := t in
  on_grid g xs /\ on_grid g xys /\ on_grid g yxs /\ on_grid g ys /\
  Rabs (val xs) + Rabs (val yxs) <= S /\ Rabs (val xys) + Rabs (val ys) <= S /\ whole B (xo, yo).
Definition grid_call (g : nat) (S B : R) (c : pencall b64) : Prop :=
  match c with
  | MoveTo p | LineTo p => whole B p
  | CurveTo ps | QCurveTo ps => Forall (whole B) ps
  | AddComponent _ t => scaled g S B t
  | _ => True
  end.
(** How far coordinates can get with components nested [n] deep. *)
Fixpoint reach (S B : R) (n : nat) : R := match n with O => B | Datatypes.S n => S * reach S B n + B end.
