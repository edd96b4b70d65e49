(** Transforms that keep upright rectangles upright, for C151. *)
From Coq Require Import List Reals.
From Verif Require Import Inst SpecGeom.
Import ListNotations.
Local Open Scope R_scope.
(** Scaling or mirroring along the axes with a move, or the same after a quarter turn. *)
Definition upright (m : list (list R)) : Prop := exists a b x y, m = [[a; 0; 0]; [0; b; 0]; [x; y; 1]] \/ m = [[0; a; 0]; [b; 0; 0]; [x; y; 1]].
(** All coordinates within the initial values of the scan for bounds. *)
Definition small (ps : list pt) : Prop := forall q, In q ps -> Rabs (fst q) <= 32768 /\ Rabs (snd q) <= 32768.
