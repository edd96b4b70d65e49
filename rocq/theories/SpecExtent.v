(** The bounds of sets of points, and the points of outlines made of curves, for C154. *)
From Coq Require Import List Reals.
From Verif Require Import Py Inst SpecGeom SpecBezier SpecCurve SpecContour SpecFrame MBounds.
Import ListNotations.
Local Open Scope R_scope.
(** The rectangle holds all points of the set, and every edge has one. *)
Definition extent (P : pt -> Prop) (r : rect R) : Prop :=
  (forall q, P q -> left r <= fst q <= right r /\ bottom r <= snd q <= top r) /\
  (exists q, P q /\ fst q = left r) /\ (exists q, P q /\ fst q = right r) /\ (exists q, P q /\ snd q = bottom r) /\ (exists q, P q /\ snd q = top r).
Definition on_contour (c : list (list pt)) (q : pt) : Prop := exists s t, In s c /\ 0 <= t <= 1 /\ q = curve s t.
Definition on_outline (cs : list (list (list pt))) (q : pt) : Prop := exists c, In c cs /\ on_contour c q.
(** At least one curve, all of order 1 to 3, with coordinates within the initial values of the scan for bounds. *)
Definition neat (c : list (list pt)) : Prop := List.Forall drawable c /\ c <> [] /\ small (concat c).
