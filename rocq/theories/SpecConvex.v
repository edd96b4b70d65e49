(** Convex hulls of control points, by half planes. *)
From Coq Require Import List Reals.
From Verif Require Import SpecGeom.
Import ListNotations.
Local Open Scope R_scope.

(** [q] lies in every closed half plane that contains all the points. *)
Definition in_hull (ps : list pt) (q : pt) : Prop :=
  forall a b c, (forall p, In p ps -> a * fst p + b * snd p <= c) -> a * fst q + b * snd q <= c.
(** Every leg of the polygon goes forward, or sideways, in the direction (a, b). *)
Definition runs (a b : R) (ps : list pt) : Prop :=
  forall i, (S i < length ps)%nat -> a * fst (nth i ps (0, 0)) + b * snd (nth i ps (0, 0)) <= a * fst (nth (S i) ps (0, 0)) + b * snd (nth (S i) ps (0, 0)).
(** The legs of the polygon, times its number of legs. *)
Definition legs (ps : list pt) : list pt :=
  map (fun i => (INR (length ps - 1) * (fst (nth (S i) ps (0, 0)) - fst (nth i ps (0, 0))), INR (length ps - 1) * (snd (nth (S i) ps (0, 0)) - snd (nth i ps (0, 0)))))
      (seq 0 (length ps - 1)).
