(** Property C129: [Bezier.length] in Decimal arithmetic with [p] digits, on float coordinates. *)
From Coq Require Import List ZArith Bool Reals Lra Lia.
From Flocq Require Import Core BinarySingleNaN.
From Verif Require Import Py Inst InstFloat SpecGeom SpecBezier SpecCurve SpecArc SpecDouble MBezUtil MBezier MBezierObj MDecimal ProofDouble ProofDouble2 ProofDecimal3.
Import ListNotations.
Local Open Scope R_scope.
#[local] Existing Instance RPy.
#[local] Existing Instance InstFloat.prec_gt_0.
#[local] Existing Instance InstFloat.prec_lt_emax.

(** ** C129 *)
(** Against the sum in exact arithmetic on the same control points. *)
Theorem C129_decimal_length (p : Z) (b : bezier b64) (M : R) : (1 <= p)%Z -> (length (cps b) = 3 \/ length (cps b) = 4)%nat -> Forall (sized M) (cps b) -> M <= 2 ^ 1000 ->
  exists r l, lengthF p b = Ok r /\ quadrature (mkBez (map vpt (cps b)) 0 1) = Ok l /\
    Rabs (r - l) <= (30 * / IZR (10 ^ p) + 11 * ulp1) * polygon_length (map vpt (cps b)) + 100 * tiny.
Proof. intros P L. exact (decimal_length p b P L M). Qed.
Print Assumptions C129_decimal_length.
(** Whole coordinates: only the digits of the Decimals count. *)
Theorem C129_whole_coordinates (p : Z) (b : bezier b64) (zs : list (Z * Z)) : (1 <= p)%Z -> (length (cps b) = 3 \/ length (cps b) = 4)%nat -> Forall2 int_pt (cps b) zs ->
  Forall (fun z => (Z.abs (fst z) < 2 ^ 50)%Z /\ (Z.abs (snd z) < 2 ^ 50)%Z) zs ->
  exists r l, lengthF p b = Ok r /\ quadrature (mkBez (map vpt (cps b)) 0 1) = Ok l /\ Rabs (r - l) <= 30 * / IZR (10 ^ p) * polygon_length (map vpt (cps b)).
Proof. intros P L. exact (decimal_whole p b P L zs). Qed.
Print Assumptions C129_whole_coordinates.
(** Against the true length, for a curve whose speed stays between [m] and [S]. *)
Theorem C129_true_length (p : Z) (b : bezier b64) (M m S : R) : (1 <= p)%Z -> (length (cps b) = 3 \/ length (cps b) = 4)%nat -> Forall (sized M) (cps b) -> M <= 2 ^ 1000 ->
  (forall t, 0 <= t <= 1 -> m <= true_speed (map vpt (cps b)) t <= S) -> 0 <= m -> 0 < S ->
  exists r, lengthF p b = Ok r /\
    Rabs (r - arc_length (map vpt (cps b))) <= S * (400 / 1000 * ((S ^ 2 - m ^ 2) / (S ^ 2 + m ^ 2)) ^ 12 + / IZR (10 ^ 19)) + (30 * / IZR (10 ^ p) + 11 * ulp1) * polygon_length (map vpt (cps b)) + 100 * tiny.
Proof. intros P L. exact (decimal_true p b P L M m S). Qed.
Print Assumptions C129_true_length.
Theorem C129_line_raises (p : Z) (b : bezier b64) (M : R) : length (cps b) = 2%nat -> Forall (sized M) (cps b) -> M <= 2 ^ 1000 -> lengthF p b = Err IndexError.
Proof. exact (ProofDecimal2.length_float_line p b M). Qed.
Print Assumptions C129_line_raises.
(** The result has at most [p] digits. *)
Theorem C129_digits_of_the_result (p : Z) (b : bezier b64) (r : R) : (1 <= p)%Z -> lengthF p b = Ok r -> exists n e : Z, (Z.abs n < 10 ^ p)%Z /\ ((0 <= e)%Z /\ r = IZR n * IZR (10 ^ e) \/ (e < 0)%Z /\ r = IZR n / IZR (10 ^ (- e))).
Proof. exact (decimal_digits p b r). Qed.
Print Assumptions C129_digits_of_the_result.

Definition arch : bezier b64 := mkBez [(bofZ 0, bofZ 0); (bofZ 200, bofZ 900); (bofZ 600, bofZ 900); (bofZ 800, bofZ 0)] (bofZ 0) (bofZ 1).
Example C129_case : (length (cps arch) = 3 \/ length (cps arch) = 4)%nat /\ Forall2 int_pt (cps arch) [(0, 0); (200, 900); (600, 900); (800, 0)]%Z /\
  Forall (fun z => (Z.abs (fst z) < 2 ^ 50)%Z /\ (Z.abs (snd z) < 2 ^ 50)%Z) [(0, 0); (200, 900); (600, 900); (800, 0)]%Z /\
  Forall (sized (IZR 900)) (cps arch) /\ IZR 900 <= 2 ^ 1000.
Proof.
  unfold arch; cbn [cps]. split; [right; reflexivity|]. split; [repeat (apply Forall2_cons; [split; apply val_int; reflexivity|]); apply Forall2_nil|].
  split; [repeat (apply Forall_cons; [split; reflexivity|]); apply Forall_nil|]. split; [repeat (apply Forall_cons; [apply sized_int; lia|]); apply Forall_nil|].
  apply Rle_trans with (2 ^ 10); [cbn [pow]; lra | apply Rle_pow; [lra | lia]].
Qed.
Definition flat : bezier b64 := mkBez [(bofZ 0, bofZ 0); (bofZ 300, bofZ 400); (bofZ 600, bofZ 800)] (bofZ 0) (bofZ 1).
Example C129_case_true : (length (cps flat) = 3 \/ length (cps flat) = 4)%nat /\ Forall (sized (IZR 800)) (cps flat) /\ IZR 800 <= 2 ^ 1000 /\
  (forall t, 0 <= t <= 1 -> 1000 <= true_speed (map vpt (cps flat)) t <= 1000).
Proof.
  split; [left; reflexivity|]. split; [unfold flat; cbn [cps]; repeat (apply Forall_cons; [apply sized_int; lia|]); apply Forall_nil|].
  split; [apply Rle_trans with (2 ^ 10); [cbn [pow]; lra | apply Rle_pow; [lra | lia]]|]. intros t _.
  rewrite ProofArc3.true_speed_norm by (left; reflexivity). unfold flat, vpt. cbn [cps map fst snd]. rewrite (proj2 (val_int 0 eq_refl)), (proj2 (val_int 300 eq_refl)), (proj2 (val_int 400 eq_refl)), (proj2 (val_int 600 eq_refl)), (proj2 (val_int 800 eq_refl)).
  unfold ProofLength.norm, ProofLength.speed_at, vdot, vadd, vscale, vsub. cbn [fst snd]. match goal with |- context [sqrt ?x] => replace x with (1000 * 1000) by ring end. rewrite sqrt_square by lra. lra.
Qed.
