(** Properties C115-C118: rotation and alignment in IEEE double precision.  The C library's sine, cosine
    and arc tangent are any functions within a stated error of the true ones, [round(x, 15)] is any
    correct rounding to 15 places; [math_pi] is the double math.pi, [ulp1] is 2^-53, [tiny] is 2^-1075. *)
From Coq Require Import List ZArith Bool Reals Lra Lia.
From Flocq Require Import Core BinarySingleNaN.
From Verif Require Import Py InstFloat SpecGeom SpecDouble SpecDouble3 MTransform MPathUtil MBezier
  ProofDouble ProofDouble2 ProofDouble9 ProofDouble10 ProofDouble11 ProofDouble12.
Import ListNotations.
Local Open Scope R_scope.

(** Such a library exists: round every true value to the nearest double. *)
Theorem C115_library_exists : exists sn cs at2 r15, within ulp1 sn sin /\ within ulp1 cs cos /\ angle_within (4 * ulp1) at2 /\ rounds15 r15.
Proof. exact library_exists. Qed.
Print Assumptions C115_library_exists.

(** ** C115 *)
Theorem C115_rotation_accuracy (sn cs ac : b64 -> b64) (at2 hy pw : b64 -> b64 -> b64) (r15 : b64 -> b64) (e : R)
  (libm_sin : within e sn sin) (libm_cos : within e cs cos) (round_15 : rounds15 r15)
  (p c : point b64) (d : b64) (ccw : bool) (M : R) : let E := e + 6 * ulp1 + Rabs (val d) * ulp1 / 32 in
  fin d -> E <= / 8 -> sized M p -> sized M c -> M <= 2 ^ 990 ->
  exists q, @rotatePointAbout _ _ (FTrig sn cs ac at2 hy pw math_pi r15) p c d ccw = Ok q /\
    let v := vsub (vpt p) (vpt c) in
    off (E * (Rabs (fst v) + Rabs (snd v)) + 31 * ulp1 * M + 14 * tiny) q
        (vadd (vpt c) (rot (if ccw then val d * PI / 180 else - (val d * PI / 180)) v)).
Proof. exact (turn_accuracy sn cs ac at2 hy pw r15 e libm_sin libm_cos round_15 p c d ccw M). Qed.
Print Assumptions C115_rotation_accuracy.
(** A thousand-unit glyph turned by 30 degrees is off by less than 10^-11. *)
Example C115_case : let d := bofZ 30 in let M := 1000 in let E := ulp1 + 6 * ulp1 + Rabs (val d) * ulp1 / 32 in
  fin d /\ E <= / 8 /\ sized M (bofZ 700, bofZ (-20)) /\ sized M (bofZ 333, bofZ 1000) /\ M <= 2 ^ 990 /\
  E * (Rabs (700 - 333) + Rabs (-20 - 1000)) + 31 * ulp1 * M + 14 * tiny <= / 100000000000.
Proof.
  destruct (val_int 30 ltac:(lia)) as [F V]. cbv zeta. rewrite V, (Rabs_pos_eq 30), (Rabs_pos_eq (700 - 333)), (Rabs_left (-20 - 1000)) by lra.
  pose proof ulp_tiny as T. rewrite ulp_num in *. split; [exact F|]. split; [lra|].
  split; [apply sized_int; lia|]. split; [apply sized_int; lia|]. split; [apply Rle_trans with (2 ^ 10); [lra | apply Rle_pow; [lra | lia]] | lra].
Qed.

(** ** C116 *)
Theorem C116_quarter_turns_partial (sn cs ac : b64 -> b64) (at2 hy pw : b64 -> b64 -> b64) (r15 : b64 -> b64)
  (libm_sin : within ulp1 sn sin) (libm_cos : within ulp1 cs cos) (round_15 : rounds15 r15)
  (p c : point b64) (d : b64) (ccw : bool) (k x y cx cy : Z) : is_int d (90 * k) -> (-6 <= k <= 6)%Z ->
  int_pt p (x, y) -> int_pt c (cx, cy) -> Forall (fun z => Z.abs z <= 2 ^ 51)%Z [x; y; cx; cy] ->
  exists q, @rotatePointAbout _ _ (FTrig sn cs ac at2 hy pw math_pi r15) p c d ccw = Ok q /\ fin (fst q) /\ fin (snd q) /\
    vpt q = vadd (vpt c) (quarter_turns (if ccw then k else (- k)%Z) (vsub (vpt p) (vpt c))).
Proof. exact (quarter_exact sn cs ac at2 hy pw r15 libm_sin libm_cos round_15 p c d ccw k x y cx cy). Qed.
Print Assumptions C116_quarter_turns_partial.
(** Eleven quarter turns of (1, 0) do not give (0, -1): the abscissa is not 0. *)
Theorem C116_many_turns_refuted (sn cs ac : b64 -> b64) (at2 hy pw : b64 -> b64 -> b64) (r15 : b64 -> b64)
  (libm_sin : within ulp1 sn sin) (libm_cos : within ulp1 cs cos) (round_15 : rounds15 r15) :
  (exists q, @rotatePointAbout _ _ (FTrig sn cs ac at2 hy pw math_pi r15) (bofZ 1, bofZ 0) (bofZ 0, bofZ 0) (bofZ 990) true = Ok q /\
     fin (fst q) /\ fin (snd q) /\ val (fst q) <> 0) /\ fst (quarter_turns 11 (1, 0)) = 0.
Proof. exact (conj (quarter_inexact sn cs ac at2 hy pw r15 libm_sin libm_cos round_15) eq_refl). Qed.
Print Assumptions C116_many_turns_refuted.
Example C116_case : is_int (bofZ (-270)) (90 * -3) /\ (-6 <= -3 <= 6)%Z /\ int_pt (bofZ 1033, bofZ (-700)) (1033, -700)%Z /\ int_pt (bofZ 512, bofZ 30) (512, 30)%Z /\
  Forall (fun z => Z.abs z <= 2 ^ 51)%Z [1033; -700; 512; 30]%Z /\ is_int (bofZ 990) (90 * 11).
Proof.
  assert (I : forall z, (Z.abs z < 2 ^ 53)%Z -> is_int (bofZ z) z) by (intros z L; exact (val_int z L)).
  split; [apply I; lia|]. split; [lia|]. split; [split; apply I; cbn; lia|]. split; [split; apply I; cbn; lia|].
  split; [repeat (apply Forall_cons; [cbn; lia|]); apply Forall_nil | apply I; lia].
Qed.

(** ** C117 *)
Theorem C117_alignment_accuracy (sn cs ac : b64 -> b64) (at2 hy pw : b64 -> b64 -> b64) (r15 : b64 -> b64) (e e2 : R)
  (libm_sin : within e sn sin) (libm_cos : within e cs cos) (libm_atan2 : angle_within e2 at2) (round_15 : rounds15 r15) (small : e + e2 <= / 16)
  (pts seg : segment b64) (s f : point b64) (M : R) : endPoints seg = Ok (s, f) -> sized M s -> sized M f -> M <= 2 ^ 990 -> vpt s <> vpt f ->
  Forall (sized M) pts -> let E := e + e2 + 21 * ulp1 in
  exists l, @alignPoints _ _ (FTrig sn cs ac at2 hy pw math_pi r15) pts seg = Ok l /\
    Forall2 (fun p q => let v := vsub (vpt p) (vpt s) in
      off (E * (Rabs (fst v) + Rabs (snd v)) + 31 * ulp1 * M + 14 * tiny) q (along_and_across (vpt s) (vpt f) (vpt p)) /\
      (vpt p = vpt s -> vpt q = (0, 0))) pts l.
Proof. exact (align_accuracy sn cs ac at2 hy pw r15 e e2 libm_sin libm_cos libm_atan2 round_15 small pts seg s f M). Qed.
Print Assumptions C117_alignment_accuracy.
Definition arch : segment b64 := [(bofZ 10, bofZ 20); (bofZ 300, bofZ 700); (bofZ 310, bofZ (-80))].
Example C117_case : ulp1 + 4 * ulp1 <= / 16 /\ endPoints arch = Ok ((bofZ 10, bofZ 20), (bofZ 310, bofZ (-80))) /\ Forall (sized 700) arch /\ 700 <= 2 ^ 990 /\
  vpt (bofZ 10, bofZ 20) <> vpt (bofZ 310, bofZ (-80)) /\ along_and_across (10, 20) (310, -80) (10, 20) = (0, 0) /\
  snd (along_and_across (10, 20) (310, -80) (310, -80)) = 0.
Proof.
  split; [rewrite ulp_num; lra|]. split; [reflexivity|]. split; [unfold arch; repeat (apply Forall_cons; [apply sized_int; lia|]); apply Forall_nil|].
  split; [apply Rle_trans with (2 ^ 10); [lra | apply Rle_pow; [lra | lia]]|]. split.
  { intros K. apply (f_equal fst) in K. cbn [vpt fst] in K. destruct (val_int 10 ltac:(lia)) as [_ V1]. destruct (val_int 310 ltac:(lia)) as [_ V2]. rewrite V1, V2 in K. lra. }
  unfold along_and_across, vdot, vcross, vsub. cbn [fst snd]. split; [f_equal|]; unfold Rdiv; ring.
Qed.

(** ** C118 *)
Theorem C118_linear_test (sn cs ac : b64 -> b64) (at2 hy pw : b64 -> b64 -> b64) (r15 : b64 -> b64) (e e2 : R)
  (libm_sin : within e sn sin) (libm_cos : within e cs cos) (libm_atan2 : angle_within e2 at2) (round_15 : rounds15 r15) (small : e + e2 <= 8 * ulp1)
  (p : list (point b64)) (a z : point b64) (M : R) : endPoints p = Ok (a, z) -> Forall (sized M) p -> M <= 65536 -> vpt a <> vpt z ->
  exists r, @isLinear _ _ (FTrig sn cs ac at2 hy pw math_pi r15) p = Ok r /\
    ((forall q, In q p -> line_dist (vpt a) (vpt z) (vpt q) <= / 10000 - 2 * / 1000000000) -> r = true) /\
    ((exists q, In q p /\ line_dist (vpt a) (vpt z) (vpt q) >= / 10000 + 2 * / 1000000000) -> r = false).
Proof. exact (linear_double sn cs ac at2 hy pw r15 e e2 libm_sin libm_cos libm_atan2 round_15 small p a z M). Qed.
Print Assumptions C118_linear_test.
(** [arch] is not straight; the chord with its third is. *)
Example C118_case : (exists q, In q arch /\ line_dist (10, 20) (310, -80) (vpt q) >= / 10000 + 2 * / 1000000000) /\
  (forall q, In q [(10, 20); (110, -40 / 3); (310, -80)] -> line_dist (10, 20) (310, -80) q <= / 10000 - 2 * / 1000000000).
Proof.
  assert (D : 0 < vdist (10, 20) (310, -80) <= 1000).
  { unfold vdist, dist2. cbn [fst snd]. split; [apply sqrt_lt_R0; lra|]. apply Rle_trans with (sqrt (1000 * 1000)); [apply sqrt_le_1_alt; lra | rewrite sqrt_square; lra]. }
  split.
  - exists (bofZ 300, bofZ 700). split; [right; left; reflexivity|]. destruct (val_int 300 ltac:(lia)) as [_ V1]. destruct (val_int 700 ltac:(lia)) as [_ V2].
    unfold line_dist, vpt, vcross, vsub. cbn [fst snd]. rewrite V1, V2. rewrite Rabs_pos_eq by lra.
    apply Rle_ge, Rmult_le_reg_r with (vdist (10, 20) (310, -80)); [lra|]. unfold Rdiv. rewrite Rmult_assoc, Rinv_l by lra. nra.
  - intros q Q. replace (line_dist (10, 20) (310, -80) q) with 0; [lra|].
    unfold line_dist, vcross, vsub. repeat destruct Q as [<-|Q]; [| | |destruct Q]; cbn [fst snd];
      match goal with |- 0 = Rabs ?z / _ => replace z with 0 by field; rewrite Rabs_R0; unfold Rdiv; ring end.
Qed.
