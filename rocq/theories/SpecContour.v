(** Vocabulary of the contour properties. *)
From Coq Require Import List ZArith Reals.
From Verif Require Import Py SpecGeom SpecBezier MTransform MBounds MBezUtil MBezier MContour.
Import ListNotations.
Local Open Scope R_scope.

(** Lines, quadratic and cubic curves. *)
Definition drawable (s : list pt) : Prop := (2 <= length s <= 4)%nat.
(** The points of a curve at the parameters 0, 1/(steps-1), ..., 1. *)
Definition row_of (steps : Z) (p : list pt) : list pt := map (fun i => curve p (INR i / IZR (steps - 1))) (seq 0 (Z.to_nat steps)).
(** The rows of all curves one after the other; the first point of every curve but the first is left out. *)
Definition tails (steps : Z) (c : list (list pt)) : list pt := concat (map (fun p => skipn 1 (row_of steps p)) c).
Definition table (steps : Z) (c : list (list pt)) : list pt :=
  match c with [] => [] | p :: r => row_of steps p ++ tails steps r end.
(** The table sizes that calls ask for; histories of such calls only. *)
Definition looked (k : ccall R) : option Z := match k with CLut s => Some s | CFind _ s => Some s | _ => None end.
Definition lookups (ks : list (ccall R)) : Prop := forall k, In k ks -> looked k <> None.
Definition sizes (ks : list (ccall R)) : list Z := flat_map (fun k => match looked k with Some s => [s] | None => [] end) ks.
(** The size of the table kept by a contour of [k] curves, after a request for [s]: an old table of that length is kept. *)
Definition held (k : Z) (h : option Z) (s : Z) : option Z :=
  if Z.eqb (match h with Some s0 => k * (s0 - 1) + 1 | None => 0 end) s then h else if Z.leb 2 s then Some s else None.
(** Coordinates up to 10^15. *)
Definition moderate (q : pt) : Prop := Rabs (fst q) <= 10 ^ 15 /\ Rabs (snd q) <= 10 ^ 15.

(** [k] is the first of the positions of [l] whose point is nearest to [p]. *)
Definition first_nearest (p : pt) (l : list pt) (k : nat) : Prop :=
  (k < length l)%nat /\ (forall q, In q l -> vdist (nth k l (0, 0)) p <= vdist q p) /\ forall m, (m < k)%nat -> vdist (nth k l (0, 0)) p < vdist (nth m l (0, 0)) p.
(** Position [k] of a table with [s] samples per curve is neither the first nor the last sample of the first curve nor the second sample of a later one. *)
Definition within (s : Z) (k : nat) : Prop :=
  (0 < Z.of_nat k < s - 1 \/ (s <= Z.of_nat k /\ (Z.of_nat k - s) mod (s - 1) <> 0))%Z.
