(** Edits of control points, point by point. *)
From Coq Require Import List Reals.
From Verif Require Import SpecGeom SpecConvex.
Import ListNotations.
Local Open Scope R_scope.

(** How far every point moves from one list to the other. *)
Definition edits (ps qs : list pt) : list pt := map (fun pq => vsub (snd pq) (fst pq)) (combine ps qs).
(** Every point moves by a mixture of the edits. *)
Definition follows (es ps qs : list pt) : Prop := Forall2 (fun p q => in_hull es (vsub q p)) ps qs.
