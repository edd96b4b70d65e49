(** Property C135: measures of segments and boxes (PathUtilities.py) in IEEE double precision.  [ulp1] is 2^-53, [tiny] 2^-1075. *)
From Coq Require Import List ZArith Bool Reals Lra Lia.
From Flocq Require Import Core BinarySingleNaN.
From Verif Require Import Py InstFloat SpecGeom SpecUtil SpecDouble SpecDouble3 SpecDouble6 MBounds MPathUtil ProofDouble ProofDouble2 ProofDouble20.
Import ListNotations.
Local Open Scope R_scope.
Local Notation top := MBounds.top.

(** ** C135.  Which lines are vertical, horizontal or diagonal is decided without error, also when a difference overflows. *)
Theorem C135_lines (a b : point b64) : finpt a -> finpt b ->
  (exists v h d, isVerticalLine [a; b] = Ok v /\ isHorizontalLine [a; b] = Ok h /\ isDiagonalLine [a; b] = Ok d /\
    (v = true <-> val (fst a) = val (fst b)) /\ (h = true <-> val (snd a) = val (snd b)) /\
    (d = true <-> val (fst a) <> val (fst b) /\ val (snd a) <> val (snd b))) /\
  (slope [a; b] = Ok SInf <-> val (fst a) = val (fst b)).
Proof. exact (lines_double a b). Qed.
Print Assumptions C135_lines.
(** Segments of another length are never lines of those kinds. *)
Theorem C135_curves (s : segment b64) v : (length s <> 2)%nat ->
  (isVerticalLine s = Ok v \/ isHorizontalLine s = Ok v \/ isDiagonalLine s = Ok v) -> v = false.
Proof. exact (curves_are_no_lines s v). Qed.
Print Assumptions C135_curves.
(** Differences of end points are the nearest doubles and have the right sign. *)
Theorem C135_deltas (a b : point b64) (r : list (point b64)) : sized (2 ^ 1022) a -> sized (2 ^ 1022) b ->
  exists dx dy, getDeltas (a :: r ++ [b]) = Ok (dx, dy) /\
    nearest_double (val (fst b) - val (fst a)) dx /\ nearest_double (val (snd b) - val (snd a)) dy /\
    (val dx = 0 <-> val (fst a) = val (fst b)) /\ (0 < val dx <-> val (fst a) < val (fst b)) /\
    (val dy = 0 <-> val (snd a) = val (snd b)) /\ (0 < val dy <-> val (snd a) < val (snd b)).
Proof. exact (deltas_double a b r). Qed.
Print Assumptions C135_deltas.
(** On a grid the slope is rounded once only. *)
Theorem C135_slope (e : nat) (N : Z) (a b : point b64) : (e <= 1000)%nat -> (N <= 2 ^ 51)%Z -> on_grid e N a -> on_grid e N b ->
  val (fst a) <> val (fst b) ->
  exists s, slope [a; b] = Ok (SFin s) /\ nearest_double ((val (snd b) - val (snd a)) / (val (fst b) - val (fst a))) s.
Proof. exact (slope_double e N a b). Qed.
Print Assumptions C135_slope.
(** Midpoints never leave the box of the end points. *)
Theorem C135_midpoint (a b : point b64) (r : list (point b64)) : sized (2 ^ 1022) a -> sized (2 ^ 1022) b ->
  exists m, midpoint (a :: r ++ [b]) = Ok m /\ finpt m /\
    Rmin (val (fst a)) (val (fst b)) <= val (fst m) <= Rmax (val (fst a)) (val (fst b)) /\
    Rmin (val (snd a)) (val (snd b)) <= val (snd m) <= Rmax (val (snd a)) (val (snd b)) /\
    let X := (val (fst a) + val (fst b)) / 2 in let Y := (val (snd a) + val (snd b)) / 2 in
    Rabs (val (fst m) - X) <= 3 * ulp1 * Rabs X + 2 * tiny /\ Rabs (val (snd m) - Y) <= 3 * ulp1 * Rabs Y + 2 * tiny.
Proof. exact (midpoint_double a b r). Qed.
Print Assumptions C135_midpoint.
Theorem C135_box (r : rect b64) : good_box (2 ^ 1022) r ->
  nearest_double (val (right r) - val (left r)) (width r) /\ nearest_double (val (top r) - val (bottom r)) (height r) /\
  0 <= val (width r) /\ 0 <= val (height r) /\ (val (width r) = 0 <-> val (left r) = val (right r)) /\ (val (height r) = 0 <-> val (bottom r) = val (top r)) /\
  exists c, centerPoint r = Ok c /\ enclosesPoint r c = true.
Proof. exact (box_double r). Qed.
Print Assumptions C135_box.
(** Points part of the way across: never to the left of the box, never in the wrong order, and accurate. *)
Theorem C135_parts (M : R) (r : rect b64) (p : b64) : M <= 2 ^ 1020 -> good_box M r -> fin p -> 0 <= val p <= 1 ->
  (fin (xFromLeft r p) /\ val (left r) <= val (xFromLeft r p) /\
   Rabs (val (xFromLeft r p) - (val (left r) + (val (right r) - val (left r)) * val p)) <= 6 * ulp1 * M + 4 * tiny /\
   (val p = 0 -> val (xFromLeft r p) = val (left r))) /\
  (fin (yFromBottom r p) /\ val (bottom r) <= val (yFromBottom r p) /\
   Rabs (val (yFromBottom r p) - (val (bottom r) + (val (top r) - val (bottom r)) * val p)) <= 6 * ulp1 * M + 4 * tiny /\
   (val p = 0 -> val (yFromBottom r p) = val (bottom r))) /\
  forall q, fin q -> val p <= val q <= 1 -> val (xFromLeft r p) <= val (xFromLeft r q) /\ val (yFromBottom r p) <= val (yFromBottom r q).
Proof. exact (parts_double M r p). Qed.
Print Assumptions C135_parts.
Theorem C135_whole_side (e : nat) (N : Z) (r : rect b64) : (e <= 1000)%nat -> (N <= 2 ^ 51)%Z ->
  on_grid e N (left r, bottom r) -> on_grid e N (right r, top r) ->
  val (xFromLeft r (nofZ 1)) = val (right r) /\ val (yFromBottom r (nofZ 1)) = val (top r).
Proof. exact (whole_side e N r). Qed.
Print Assumptions C135_whole_side.
(** Off the grid, the point 100% of the way across can lie outside the box. *)
Theorem C135_whole_side_off_grid_refuted : exists r : rect b64, good_box 1 r /\
  crossesX r (xFromLeft r (nofZ 1)) = false /\ crossesY r (yFromBottom r (nofZ 1)) = false.
Proof. exact whole_side_outside. Qed.
Print Assumptions C135_whole_side_off_grid_refuted.
(** Near the largest doubles the centre is infinite, and the area of a box with positive sides can be 0. *)
Theorem C135_extremes_refuted :
  (exists r : rect b64, good_box (2 ^ 1023) r /\ val (left r) < val (right r) /\ exists c, centerPoint r = Ok c /\ ~ fin (fst c) /\ enclosesPoint r c = false) /\
  (exists r : rect b64, good_box 1 r /\ 0 < val (width r) /\ 0 < val (height r) /\ area r = bofZ 0).
Proof. exact (conj middle_overflows area_vanishes). Qed.
Print Assumptions C135_extremes_refuted.
(** toMicros raises exactly for a zero (of either sign); with whole numbers it is rounded once, and exact when the result is whole. *)
Theorem C135_toMicros_zero (f u : b64) : fin u ->
  (toMicros f u = Err ZeroDivisionError <-> val u = 0) /\ (val u <> 0 -> exists m, toMicros f u = Ok m).
Proof. exact (toMicros_zero f u). Qed.
Print Assumptions C135_toMicros_zero.
Theorem C135_toMicros (f u : b64) (n d : Z) : is_int f n -> is_int u d -> d <> 0%Z -> (Z.abs n <= 2 ^ 41)%Z ->
  exists m, toMicros f u = Ok m /\ nearest_double (1000 * IZR n / IZR d) m /\ (forall k, (1000 * n = k * d)%Z -> is_int m k).
Proof. exact (toMicros_double f u n d). Qed.
Print Assumptions C135_toMicros.

Lemma C135_sized (M x y : Z) : (Z.abs x <= M)%Z -> (Z.abs y <= M)%Z -> (M < 2 ^ 53)%Z -> sized (IZR M) (bofZ x, bofZ y).
Proof.
  intros X Y L. unfold sized; cbn [fst snd]. destruct (val_int x) as [F V]; [lia|]. destruct (val_int y) as [F' V']; [lia|].
  rewrite V, V', <- !abs_IZR. repeat split; auto; now apply IZR_le.
Qed.
Example C135_case : let r := mkRect (bofZ (-3)) (bofZ 7) (bofZ 1001) (bofZ 0) in
  good_box 1001 r /\ on_grid 0 1001 (left r, bottom r) /\ on_grid 0 1001 (right r, top r) /\
  is_int (width r) 10 /\ (exists c, centerPoint r = Ok c /\ neqb (fst c) (bofZ 2) = true /\ neqb (nmul (snd c) (bofZ 2)) (bofZ 1001) = true) /\
  (exists m, toMicros (bofZ 512) (bofZ 2048) = Ok m /\ is_int m 250) /\ toMicros (bofZ 1) (Bopp (bofZ 0)) = Err ZeroDivisionError.
Proof.
  intros r. unfold good_box, r. cbn [left right bottom top]. destruct (val_int (-3)) as [A1 A2]; [lia|]. destruct (val_int 7) as [B1 B2]; [lia|].
  destruct (val_int 1001) as [C1 C2]; [lia|]. destruct (val_int 0) as [D1 D2]; [lia|].
  split; [split; [apply (C135_sized 1001); lia|]; split; [apply (C135_sized 1001); lia|]; rewrite A2, B2, C2, D2; lra|].
  assert (G : forall z, IZR z = IZR z * / 2 ^ 0) by (intros; cbn [pow]; field).
  split; [exists (-3)%Z, 0%Z; cbn [fst snd]; rewrite <- !G; repeat split; auto; lia|].
  split; [exists 7%Z, 1001%Z; cbn [fst snd]; rewrite <- !G; repeat split; auto; lia|].
  split; [destruct (grid_diff 0 1001 (bofZ 7) (bofZ (-3)) 7 (-3)) as [F V]; rewrite <- ?G; auto; try lia; split; [exact F | rewrite G; exact V]|].
  split; [eexists; split; [reflexivity|]; split; vm_compute; reflexivity|]. split; [|vm_compute; reflexivity].
  destruct (C135_toMicros (bofZ 512) (bofZ 2048) 512 2048) as (m & E & _ & K); [apply val_int; lia|apply val_int; lia|lia|lia|]. exists m. split; [exact E | apply K; lia].
Qed.
