(** Lines drawn through a list of points. *)
From Coq Require Import List Reals.
From Verif Require Import SpecGeom.
Import ListNotations.
Local Open Scope R_scope.

(** How long the way from the first point over all others to the last is. *)
Fixpoint walk (ps : list pt) : R :=
  match ps with
  | a :: ((b :: _) as r) => vdist a b + walk r
  | _ => 0
  end.
(** The point that divides the line from [a] to [b] at [lam]. *)
Definition part_way (lam : R) (a b : pt) : pt := ((1 - lam) * fst a + lam * fst b, (1 - lam) * snd a + lam * snd b).
(** No control point is farther than [D / 2] from the middle of its neighbours. *)
Definition bent (D : R) (ps : list pt) : Prop :=
  forall a b c pre post, ps = pre ++ a :: b :: c :: post -> 2 * vdist b (part_way (1 / 2) a c) <= D.
