(** Property C125: generated colours in IEEE double precision.  [val x] is the real number that the double [x] stands for. *)
From Coq Require Import List ZArith Bool Reals Lra Lia QArith.
From Flocq Require Import Core BinarySingleNaN.
From Verif Require Import Py InstFloat SpecDouble SpecColor SpecColorFloat MColor MColorFloat ProofDouble ProofColorFloat ProofColorFloat2.
Import ListNotations.

(** ** C125.  Whole hues (the state starts as an int): the exact CSS channel, scaled to 255, rounded to a nearest integer. *)
Theorem C125_whole_hues (h : Z) : exists r g b, randomHSLColorI h = (((h + 73) mod 360)%Z, Ok (r, g, b)) /\
  let q := inject_Z ((h + 73) mod 360) in
  nearest r (css_channel q (1 # 2) (1 # 2) 0 * 255) /\ nearest g (css_channel q (1 # 2) (1 # 2) 8 * 255) /\
  nearest b (css_channel q (1 # 2) (1 # 2) 4 * 255).
Proof. exact (whole_hues h). Qed.
Print Assumptions C125_whole_hues.
(** The colour is the one of exact arithmetic with ties to even (C94), except at the twelve hues of [ties]. *)
Theorem C125_ties (h : Z) : snd (randomHSLColorI h) = Ok (snd (randomHSLColor h)) <-> ~ In ((h + 73) mod 360)%Z ties.
Proof. exact (ties_only h). Qed.
Print Assumptions C125_ties.
Local Open Scope R_scope.
(** Hues given as doubles. *)
Theorem C125_float_hue (h : b64) : fin h -> exists h' r g b, randomHSLColorF h = (h', Ok (r, g, b)) /\
  fin h' /\ 0 <= val h' <= 360 /\ (exists k, Rabs (val h' - (val h + 73 - 360 * IZR k)) <= ulp1 * (Rabs (val h) + 434) + 2 * tiny) /\
  Rabs (IZR r - 255 * css_channelR (val h') (/ 2) (/ 2) 0) <= / 2 + / 10 ^ 9 /\
  Rabs (IZR g - 255 * css_channelR (val h') (/ 2) (/ 2) 8) <= / 2 + / 10 ^ 9 /\
  Rabs (IZR b - 255 * css_channelR (val h') (/ 2) (/ 2) 4) <= / 2 + / 10 ^ 9.
Proof. exact (float_hue h). Qed.
Print Assumptions C125_float_hue.
Theorem C125_components (h : b64) : fin h -> exists h' r g b, randomHSLColorF h = (h', Ok (r, g, b)) /\
  (64 <= r <= 191 /\ 64 <= g <= 191 /\ 64 <= b <= 191)%Z.
Proof. exact (float_range h). Qed.
Print Assumptions C125_components.
(** NaN and the infinities: the hue is NaN from then on, every colour the same grey, no exception. *)
Theorem C125_not_a_number (h : b64) : ~ fin h -> randomHSLColorF h = (B754_nan, Ok (64, 64, 64)%Z).
Proof. exact (stuck_hue h). Qed.
Print Assumptions C125_not_a_number.
(** The bound 360 is attained: the double just below -73. *)
Theorem C125_hue_360_attained : exists h : b64, fin h /\ fst (randomHSLColorF h) = bofZ 360 /\ snd (randomHSLColorF h) = snd (randomHSLColorF (bofZ (-73))).
Proof.
  exists (nquot (bofZ (- (73 * 2 ^ 46 + 1))) (bofZ (2 ^ 46))). split; [vm_compute; reflexivity|].
  split; [apply B2SF_inj; vm_compute; reflexivity | vm_compute; reflexivity].
Qed.
Print Assumptions C125_hue_360_attained.
(** Python's remainder of two finite doubles, correctly rounded. *)
Theorem C125_remainder (x y : b64) : fin x -> fin y -> 0 < val y ->
  fin (pymod x y) /\ val (pymod x y) = fl (remainderR (val x) (val y)).
Proof. exact (pymod_val x y). Qed.
Print Assumptions C125_remainder.
Example C125_case : randomHSLColorI 137 = (210%Z, Ok (64, 127, 191)%Z) /\ randomHSLColor 137 = (210%Z, (64, 128, 191)%Z) /\
  (css_channel 210 (1 # 2) (1 # 2) 8 * 255 == 255 # 2)%Q.
Proof. vm_compute. repeat split; reflexivity. Qed.
Example C125_case2 : let h := nquot (bofZ 25) (bofZ 2) in fin h /\ snd (randomHSLColorF h) = Ok (137, 191, 64)%Z /\ B2SF (fst (randomHSLColorF h)) = B2SF (nquot (bofZ 171) (bofZ 2)).
Proof. vm_compute. repeat split; reflexivity. Qed.
Example C125_case3 : ~ fin (B754_nan : b64) /\ ~ fin (B754_infinity false : b64).
Proof. split; discriminate. Qed.
Example C125_case4 : let x := nquot (bofZ (-1)) (bofZ 4) in fin x /\ fin (bofZ 3) /\ 0 < val (bofZ 3) /\ B2SF (pymod x (bofZ 3)) = B2SF (nquot (bofZ 11) (bofZ 4)).
Proof. split; [reflexivity|]. split; [reflexivity|]. split; [rewrite (proj2 (val_int 3 eq_refl)); lra | vm_compute; reflexivity]. Qed.
