(** Vocabulary of property C134: fits of points sent through an affine map, or taken in the opposite order. *)
From Coq Require Import List Reals.
From Verif Require Import SpecGeom SpecFit SpecTurn.
Import ListNotations.
Local Open Scope R_scope.

(** The control points that are written as a column of x values and a column of y values. *)
Definition column_points (c : list (list R) * list (list R)) : list pt := combine (concat (fst c)) (concat (snd c)).
(** The columns of given control points. *)
Definition columns (l : list pt) : list (list R) * list (list R) := (map (fun p => [fst p]) l, map (fun p => [snd p]) l).
(** Each control point mapped, respectively the control points in the opposite order. *)
Definition mapped_columns (a b c d : R) (v : pt) (C : list (list R) * list (list R)) : list (list R) * list (list R) :=
  columns (map (mapped a b c d v) (column_points C)).
Definition backward_columns (C : list (list R) * list (list R)) : list (list R) * list (list R) := columns (rev (column_points C)).
(** Parameters seen from the other end. *)
Definition backward_times (s : list R) : list R := map (fun x => 1 - x) (rev s).
(** The linear map [[a b] [c d]] multiplies every distance by [k]. *)
Definition similarity (a b c d k : R) : Prop := 0 < k /\ a * a + c * c = k * k /\ b * b + d * d = k * k /\ a * b + c * d = 0.
(** The result of a fit with the parameters changed by [g] and the control points by [h]; tables and matrix stay. *)
Definition on_fit {L A B C : Type} (g : B -> B) (h : C -> C) (r : L * (A * B * C)) : L * (A * B * C) :=
  let '(lut, (m, s, c)) := r in (lut, (m, g s, h c)).
(** The point at [t] of the curve with the control points [Q]. *)
Definition curve_through (Q : list pt) (t : R) : pt :=
  (bezier_at (length Q - 1) (fun c => fst (ptn Q c)) t, bezier_at (length Q - 1) (fun c => snd (ptn Q c)) t).
