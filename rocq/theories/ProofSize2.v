(** Sizes of the results of reduce over the reals and in doubles. *)
From Coq Require Import List ZArith Lia Reals.
From Verif Require Import Py Inst InstFloat MBezier ProofReduce ProofDouble8 ProofSize.
Import ListNotations.
#[local] Existing Instance RPy.

Lemma ends_R (b : bezier R) : (length (cps b) = 3 \/ length (cps b) = 4) -> reduce 102 b <> Err OutOfFuel.
Proof. intros L. destruct (reduce_spec round15 b 102 L) as [E|(l & E & _)]; [lia| |]; intros K; discriminate (eq_trans (eq_sym E) K). Qed.
Theorem reduce_sizeR (b : bezier R) (fuel : nat) (l : list (bezier R)) : (length (cps b) = 3 \/ length (cps b) = 4) ->
  reduce fuel b = Ok l -> (length (cps b) = 3 -> length l <= 306) /\ length l <= 714.
Proof. intros L E. apply (reduce_size b fuel l (ends_R b L)) in E. lia. Qed.
Theorem offset_sizeR (b : bezier R) (fuel : nat) (d : R) (l : list (bezier R)) : (length (cps b) = 3 \/ length (cps b) = 4) ->
  offsetCurves fuel b d = Ok l -> (length (cps b) = 3 -> length l <= 306) /\ length l <= 714.
Proof. intros L E. apply (offset_size b fuel d l (ends_R b L)) in E. lia. Qed.
Section Doubles.
  Context {TO : TrigOps b64}.
  Theorem reduce_sizeF (b : bezier b64) (fuel : nat) l : reduce fuel b = Ok l ->
    length l <= 918 /\ (length (cps b) = 3 -> length l <= 306) /\ (length (cps b) = 4 -> length l <= 714).
  Proof. apply reduce_size, (reduce_terminates b 102), Nat.le_refl. Qed.
  Theorem offset_sizeF (b : bezier b64) (fuel : nat) (d : b64) l : offsetCurves fuel b d = Ok l ->
    length l <= 918 /\ (length (cps b) = 3 -> length l <= 306) /\ (length (cps b) = 4 -> length l <= 714).
  Proof. apply offset_size, (reduce_terminates b 102), Nat.le_refl. Qed.
End Doubles.
