(** What it means, in double precision, that pieces tile a curve. *)
From Coq Require Import List ZArith Reals.
From Verif Require Import Py SpecGeom InstFloat SpecFit SpecBezier SpecDouble MBezier.
Import ListNotations.
Local Open Scope R_scope.

(** The curve with control points [c] stays within [e], in either coordinate, of the part of the
    curve [o] between the parameters [x] and [y]. *)
Definition follows (e : R) (o c : list (point b64)) (x y : R) : Prop :=
  forall s, 0 <= s <= 1 ->
    let p := curve (map vpt c) s in let q := curve (map vpt o) (x + s * (y - x)) in
    Rabs (fst p - fst q) <= e /\ Rabs (snd p - snd q) <= e.

(** The pieces, in order, follow consecutive parts of [o] from parameter [x] to parameter [z].  The
    parameters recorded in the pieces are at most [d] away from the true ones; each piece records as
    its start exactly what the one before it recorded as its end; the first one records [a] as its
    start, the last one records [w] as its end. *)
Fixpoint near_tiles (e d : R) (o : list (point b64)) (a x w z : R) (l : list (bezier b64)) : Prop :=
  match l with
  | [] => x = z /\ a = w
  | c :: r => exists y, x < y /\ length (cps c) = length o /\ follows e o (cps c) x y /\
      fin (bt1 c) /\ fin (bt2 c) /\ val (bt1 c) = a /\ Rabs (val (bt1 c) - x) <= d /\ Rabs (val (bt2 c) - y) <= d /\
      near_tiles e d o (val (bt2 c)) y w z r
  end.
(** A part of [o] over at most 2.03% of the parameter range whose computed version, within [e] of it, fails the
    test [simple]. *)
Definition short_bend {TO : TrigOps b64} (e : R) (o : list (point b64)) : Prop :=
  exists x y c, 0 <= x /\ x < y /\ y <= 1 /\ y - x <= 203 / 10000 /\ length (cps c) = length o /\ follows e o (cps c) x y /\ simple c = Ok false.
