(** Points and boxes of finite doubles. *)
From Coq Require Import List ZArith Reals.
From Verif Require Import Py InstFloat SpecGeom SpecDouble MBounds.
Local Open Scope R_scope.

Definition finpt (p : point b64) : Prop := fin (fst p) /\ fin (snd p).
(** A box with sides of at most [M], in the right order. *)
Definition good_box (M : R) (r : rect b64) : Prop :=
  sized M (left r, bottom r) /\ sized M (right r, top r) /\ val (left r) <= val (right r) /\ val (bottom r) <= val (top r).
