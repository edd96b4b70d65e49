(** Further things asked of [math.hypot] in double precision. *)
From Coq Require Import Reals.
From Verif Require Import InstFloat SpecDouble.
Local Open Scope R_scope.

(** No length is negative, and the length of the zero vector is zero (C standard, F.10.4.3). *)
Definition hypot_sane (f : b64 -> b64 -> b64) : Prop := forall x y, fin x -> fin y -> Rabs (val x) <= 2 ^ 1000 -> Rabs (val y) <= 2 ^ 1000 ->
  0 <= val (f x y) /\ (val x = 0 -> val y = 0 -> fin (f x y) /\ val (f x y) = 0).
