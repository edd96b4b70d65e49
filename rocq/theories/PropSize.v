(** Property C136: how many results there can be.  The bounds on roots and extrema hold for any kind of number and any
    mathematical library; those on reduce for exact arithmetic and for IEEE double precision. *)
From Coq Require Import List ZArith Bool Lia Reals.
From Verif Require Import Py Inst InstFloat MBezUtil MBezier ProofSize ProofSize2.
Import ListNotations.
#[local] Existing Instance RPy.

(** ** C136.  A curve of order 2 has at most two roots and any other at most three; lines are met no more often. *)
Theorem C136_roots {T : Type} {N : NumOps T} {TO : TrigOps T} (b : bezier T) (seg : option (segment T)) (l : list T) : roots b seg = Ok l ->
  3 <= length (cps b) /\ length l <= 3 /\ (length (cps b) = 3 -> length l <= 2).
Proof. exact (roots_size b seg l). Qed.
Print Assumptions C136_roots.
Theorem C136_lineIntersects {T : Type} {N : NumOps T} {TO : TrigOps T} (b : bezier T) (p1 p2 : point T) (l : list T) : lineIntersects b p1 p2 = Ok l ->
  length l <= 3 /\ (length (cps b) = 3 -> length l <= 2).
Proof. exact (line_size b p1 p2 l). Qed.
Print Assumptions C136_lineIntersects.
(** At most one turning point in either direction for order 2; at most two, and one inflection, for order 3. *)
Theorem C136_extrema {T : Type} {N : NumOps T} {TO : TrigOps T} (b : bezier T) (e : extremaT T) : extrema b = Ok e ->
  length (ex0 e) <= 4 /\ length (ex1 e) <= 4 /\ length (ex2 e) <= length (ex0 e) + length (ex1 e) /\
  (length (cps b) = 3 -> length (ex0 e) <= 1 /\ length (ex1 e) <= 1) /\ (length (cps b) = 4 -> length (ex0 e) <= 3 /\ length (ex1 e) <= 3).
Proof. exact (extrema_size b e). Qed.
Print Assumptions C136_extrema.
(** reduce cuts a quadratic into at most 306 pieces and a cubic into at most 714, and an offset has as many. *)
Theorem C136_reduce (b : bezier R) (fuel : nat) (l : list (bezier R)) : (length (cps b) = 3 \/ length (cps b) = 4) ->
  reduce fuel b = Ok l -> (length (cps b) = 3 -> length l <= 306) /\ length l <= 714.
Proof. exact (reduce_sizeR b fuel l). Qed.
Print Assumptions C136_reduce.
Theorem C136_offset (b : bezier R) (fuel : nat) (d : R) (l : list (bezier R)) : (length (cps b) = 3 \/ length (cps b) = 4) ->
  offsetCurves fuel b d = Ok l -> (length (cps b) = 3 -> length l <= 306) /\ length l <= 714.
Proof. exact (offset_sizeR b fuel d l). Qed.
Print Assumptions C136_offset.
Theorem C136_reduce_double (TO : TrigOps b64) (b : bezier b64) (fuel : nat) (l : list (bezier b64)) : reduce fuel b = Ok l ->
  length l <= 918 /\ (length (cps b) = 3 -> length l <= 306) /\ (length (cps b) = 4 -> length l <= 714).
Proof. exact (reduce_sizeF b fuel l). Qed.
Print Assumptions C136_reduce_double.
Theorem C136_offset_double (TO : TrigOps b64) (b : bezier b64) (fuel : nat) (d : b64) (l : list (bezier b64)) : offsetCurves fuel b d = Ok l ->
  length l <= 918 /\ (length (cps b) = 3 -> length l <= 306) /\ (length (cps b) = 4 -> length l <= 714).
Proof. exact (offset_sizeF b fuel d l). Qed.
Print Assumptions C136_offset_double.
(** The loops of reduce do the same work whatever larger limit is set. *)
Theorem C136_limit {T : Type} {N : NumOps T} {TO : TrigOps T} (b : bezier T) (k fuel : nat) : reduce fuel b <> Err OutOfFuel -> reduce (k + fuel) b = reduce fuel b.
Proof. exact (reduce_more b k fuel). Qed.
Print Assumptions C136_limit.

Definition C136_lib : TrigOps b64 :=
  let k (x : b64) := x in let z (_ : b64) := bofZ 0 in FTrig k k z (fun x _ => x) (fun x _ => x) (fun x _ => x) (bofZ 3) k.
(** A cubic with all six extrema; a quadratic with two. *)
Definition C136_wave : bezier b64 := mkBez [(bofZ 0, bofZ 0); (bofZ 300, bofZ 400); (bofZ (-200), bofZ (-260)); (bofZ 100, bofZ 50)] (bofZ 0) (bofZ 1).
Example C136_case : let TO := C136_lib in
  match extrema C136_wave with Ok e => (length (ex0 e), length (ex1 e), length (ex2 e)) | Err _ => (0, 0, 0) end = (3, 3, 6) /\
  match extrema (mkBez [(bofZ 0, bofZ 0); (bofZ 300, bofZ 700); (bofZ 100, bofZ 50)] (bofZ 0) (bofZ 1)) with Ok e => length (ex2 e) | Err _ => 0 end = 2 /\
  match roots C136_wave None with Ok l => length l | Err _ => 0 end = 3.
Proof. vm_compute. repeat split. Qed.
