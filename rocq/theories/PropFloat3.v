(** Properties C111-C113: reduce and intersects in IEEE double precision.  [ulp1] is 2^-53, [tiny] is
    2^-1075.  The library functions (acos and so on) are arbitrary. *)
From Coq Require Import List ZArith Bool Reals Lra Lia.
From Flocq Require Import Core BinarySingleNaN.
From Verif Require Import Py InstFloat SpecGeom SpecBezier SpecCurve SpecDouble SpecDouble2 MTransform MBounds MBezUtil MBezier
  ProofDouble ProofDouble2 ProofDouble3 ProofDouble8.
Import ListNotations.
Local Open Scope R_scope.

(** ** C111 *)
Theorem C111_reduce_terminates (TO : TrigOps b64) (b : bezier b64) (fuel : nat) : (102 <= fuel)%nat ->
  reduce fuel b <> Err OutOfFuel /\ reduce fuel b <> Err RecursionError.
Proof. exact (reduce_terminates b fuel). Qed.
Print Assumptions C111_reduce_terminates.

(** ** C112 *)
Theorem C112_reduce_tiles (TO : TrigOps b64) (b : bezier b64) (fuel : nat) (M : R) (l : list (bezier b64)) :
  (length (cps b) = 3 \/ length (cps b) = 4)%nat -> Forall (sized M) (cps b) -> 32 * M <= 2 ^ 1024 -> reduce fuel b = Ok l ->
  l = [] /\ short_bend (200 * ulp1 * M + 64 * tiny) (cps b) \/ near_tiles (200 * ulp1 * M + 64 * tiny) (4 * ulp1) (cps b) 0 0 1 1 l.
Proof. exact (reduce_tiles b fuel M l). Qed.
Print Assumptions C112_reduce_tiles.
Theorem C112_split_part (TO : TrigOps b64) (b : bezier b64) (t1 t2 : b64) (M : R) :
  (length (cps b) = 3 \/ length (cps b) = 4)%nat -> Forall (sized M) (cps b) -> 17 * M <= 2 ^ 1024 ->
  fin t1 -> fin t2 -> 0 <= val t1 -> val t1 < val t2 -> val t2 <= 1 ->
  exists c, split2 b t1 t2 = Ok (SCurve c) /\ length (cps c) = length (cps b) /\
    follows (98 * ulp1 * M + 31 * tiny) (cps b) (cps c) (val t1) (val t2).
Proof. exact (split_part b t1 t2 M). Qed.
Print Assumptions C112_split_part.

(** ** C113 *)
Theorem C113_intersects_terminates (TO : TrigOps b64) (b : bezier b64) (other : option (bezier b64)) (M : R) (thr : b64) (rfuel fuel : nat) :
  (length (cps b) = 3 \/ length (cps b) = 4)%nat -> Forall (sized M) (cps b) ->
  (forall c, other = Some c -> (length (cps c) = 3 \/ length (cps c) = 4)%nat /\ Forall (sized M) (cps c)) ->
  M <= 32767 -> fin thr -> M / 2 ^ 42 <= val thr -> / 2 ^ 1000 <= val thr -> (102 <= rfuel)%nat -> (49 <= fuel)%nat ->
  match intersects rfuel fuel b other thr with
  | Ok _ => True
  | Err e => e <> OutOfFuel /\ e <> RecursionError /\ (reduce rfuel b = Err e \/ exists c, other = Some c /\ reduce rfuel c = Err e)
  end.
Proof. exact (intersects_ends b other M thr rfuel fuel). Qed.
Print Assumptions C113_intersects_terminates.

(** A curve meeting the hypotheses that is cut in several places. *)
Definition bow : bezier b64 := mkBez [(bofZ 0, bofZ 0); (bofZ 300, bofZ 700); (bofZ 100, bofZ 50)] (bofZ 0) (bofZ 1).
Example C112_case : (length (cps bow) = 3 \/ length (cps bow) = 4)%nat /\ Forall (sized 700) (cps bow) /\ 700 <= 32767 /\ 32 * 700 <= 2 ^ 1024.
Proof.
  split; [now left|]. split; [cbn [bow cps]; repeat (apply Forall_cons; [apply sized_int; lia|]); apply Forall_nil|].
  split; [lra|]. apply Rle_trans with (2 ^ 20); [lra | apply Rle_pow; [lra | lia]].
Qed.
Example C112_pieces : let k (x : b64) := x in let z (_ : b64) := bofZ 0 in
  match @reduce _ _ (FTrig k k z (fun x _ => x) (fun x _ => x) (fun x _ => x) (bofZ 3) k) 102 bow with Ok l => Nat.eqb (length l) 3 | Err _ => false end = true.
Proof. vm_compute. reflexivity. Qed.
