(** Rectangles around at least one point, for C150. *)
From Coq Require Import List Reals.
From Verif Require Import Py Inst SpecGeom MBounds.
Import ListNotations.
Local Open Scope R_scope.
Definition proper (r : rect R) : Prop := exists ps, ps <> [] /\ r = BoundsRectangle ps.
(** The part two rectangles have in common with a third, or nothing. *)
Definition and_then {A B : Type} (o : option A) (f : A -> option B) : option B := match o with Some a => f a | None => None end.
