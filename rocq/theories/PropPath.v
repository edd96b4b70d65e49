(** Properties C16-C19: the line functions of PathUtilities.py, over exact reals. *)
From Coq Require Import List ZArith Bool Reals Lra.
From Verif Require Import Py Inst SpecGeom SpecUtil MBounds MBezUtil MPathUtil ProofBounds ProofUtil.
Import ListNotations.
Local Open Scope R_scope.
(** Trigonometry and square roots are the real functions; rounding as in the code. *)
#[local] Existing Instance RPy.

(** ** C16 *)
Theorem C16_exactly_one_class (a b : pt) : a <> b ->
  exists v h d, isVerticalLine [a; b] = Ok v /\ isHorizontalLine [a; b] = Ok h /\ isDiagonalLine [a; b] = Ok d /\
    (v = true <-> fst a = fst b) /\ (h = true <-> snd a = snd b) /\
    (d = true <-> fst a <> fst b /\ snd a <> snd b) /\
    ((v = true /\ h = false /\ d = false) \/ (v = false /\ h = true /\ d = false) \/
     (v = false /\ h = false /\ d = true)).
Proof. exact (line_classes round15 a b). Qed.
Print Assumptions C16_exactly_one_class.
Theorem C16_other_lengths (s : segment R) : length s <> 2%nat ->
  (s = [] -> isVerticalLine s = Err IndexError /\ isHorizontalLine s = Err IndexError /\
             isDiagonalLine s = Err IndexError) /\
  (s <> [] -> isVerticalLine s = Ok false /\ isHorizontalLine s = Ok false /\ isDiagonalLine s = Ok false).
Proof. exact (line_classes_other s). Qed.
Print Assumptions C16_other_lengths.
Theorem C16_slope (a b : pt) :
  (slope [a; b] = Ok SInf <-> fst a = fst b) /\
  (fst a <> fst b -> slope [a; b] = Ok (SFin ((snd b - snd a) / (fst b - fst a)))) /\
  slope [b; a] = slope [a; b].
Proof. exact (slope_spec a b). Qed.
Print Assumptions C16_slope.
Example C16_case : (1, 2) <> (3, 4) /\ length [(1, 2); (3, 4); (5, 0)] <> 2%nat /\ [(1, 2); (3, 4); (5, 0)] <> [].
Proof. repeat split; try discriminate. intros E; injection E; lra. Qed.

(** ** C17 *)
Theorem C17_common_point_found (a b c d p : pt) : ~ parallel a b c d ->
  on_segment a b p -> on_segment c d p -> intersectionPoint [a; b] [c; d] = Ok (Some p).
Proof. exact (intersectionPoint_complete a b c d p). Qed.
Print Assumptions C17_common_point_found.
Theorem C17_parallel_none (a b c d : pt) : parallel a b c d -> intersectionPoint [a; b] [c; d] = Ok None.
Proof. exact (intersectionPoint_parallel a b c d). Qed.
Print Assumptions C17_parallel_none.
(** Soundness as stated fails beyond the sentinel coordinates of BoundsRectangle. *)
Theorem C17_sound_refuted :
  exists a b c d p, intersectionPoint [a; b] [c; d] = Ok (Some p) /\ ~ on_segment a b p.
Proof. exact intersectionPoint_unsound. Qed.
Print Assumptions C17_sound_refuted.
(** Missing: lines entirely beyond +-32768 on one side ([near] fails). *)
Theorem C17_sound_partial (a b c d p : pt) : near a b -> near c d ->
  intersectionPoint [a; b] [c; d] = Ok (Some p) -> on_segment a b p /\ on_segment c d p.
Proof. exact (intersectionPoint_sound a b c d p). Qed.
Print Assumptions C17_sound_partial.
Example C17_case : let a := (0, 0) in let b := (2, 2) in let c := (0, 2) in let d := (2, 0) in let p := (1, 1) in
  ~ parallel a b c d /\ on_segment a b p /\ on_segment c d p /\ near a b /\ near c d /\
  parallel a b (5, 0) (6, 1) /\ ~ parallel a b (5, 0) (6, 2).
Proof.
  unfold parallel, vcross, vsub, near, on_segment, along, vadd, vscale; cbn [fst snd].
  repeat match goal with |- _ /\ _ => split | |- exists _, _ => exists (1 / 2) end; try lra; unfold vsub; cbn [fst snd]; f_equal; lra.
Qed.

(** ** C18 *)
Theorem C18_start_point_refuted : exists p a b, on_segment a b p /\ pointOnLine p [a; b] = Ok false.
Proof. exact pointOnLine_misses_start. Qed.
Print Assumptions C18_start_point_refuted.
Theorem C18_far_line_refuted : exists p a b, ~ on_segment a b p /\ pointOnLine p [a; b] = Ok true.
Proof. exact pointOnLine_accepts_outside. Qed.
Print Assumptions C18_far_line_refuted.
(** Missing: the start point of a non-vertical line, and lines entirely beyond +-32768 on one side. *)
Theorem C18_membership_partial (p a b : pt) : near a b -> p <> a \/ fst a = fst b ->
  exists r, pointOnLine p [a; b] = Ok r /\ (r = true <-> on_segment a b p).
Proof. exact (pointOnLine_spec p a b). Qed.
Print Assumptions C18_membership_partial.
Theorem C18_true_is_member_partial (p a b : pt) : near a b -> pointOnLine p [a; b] = Ok true -> on_segment a b p.
Proof. exact (pointOnLine_true p a b). Qed.
Print Assumptions C18_true_is_member_partial.
(** What the code does in the excepted case: the start point is never found. *)
Theorem C18_start_point_never (a b : pt) : fst a <> fst b -> pointOnLine a [a; b] = Ok false.
Proof. exact (pointOnLine_start a b). Qed.
Print Assumptions C18_start_point_never.
Example C18_case : near (0, 0) (4, 2) /\ (2, 1) <> (0, 0) /\ on_segment (0, 0) (4, 2) (2, 1) /\
  ~ on_segment (0, 0) (4, 2) (2, 2).
Proof.
  unfold near, on_segment, along, vadd, vscale, vsub; cbn [fst snd].
  split; [lra|]. split; [intros E; injection E; lra|]. split.
  - exists (1 / 2); split; [lra|]; f_equal; lra.
  - intros (s & S & E). injection E; intros; lra.
Qed.

(** ** C19 *)
Theorem C19_midpoint (s : segment R) (a b : pt) : seg_first s = Some a -> seg_last s = Some b ->
  exists m, midpoint s = Ok m /\ on_segment a b m /\ vdist a m = vdist m b /\ m = along a b (1 / 2).
Proof. exact (midpoint_spec s a b). Qed.
Print Assumptions C19_midpoint.
Theorem C19_length (s : segment R) (a b : pt) : seg_first s = Some a -> seg_last s = Some b ->
  seglength s = Ok (vdist a b).
Proof. exact (seglength_spec round15 s a b). Qed.
Print Assumptions C19_length.
(** The Euclidean distance, and so the length of a line, is a translation-invariant metric. *)
Theorem C19_length_metric (a b c v : pt) :
  exists ab ba bc ac tr, seglength [a; b] = Ok ab /\ seglength [b; a] = Ok ba /\ seglength [b; c] = Ok bc /\
    seglength [a; c] = Ok ac /\ seglength [vadd a v; vadd b v] = Ok tr /\
    ab = ba /\ 0 <= ab /\ (ab = 0 <-> a = b) /\ tr = ab /\ ac <= ab + bc.
Proof. exact (seglength_metric round15 a b c v). Qed.
Print Assumptions C19_length_metric.
Theorem C19_slopeAngle_range (s : segment R) (a b : pt) : seg_first s = Some a -> seg_last s = Some b ->
  exists d, slopeAngle s = Ok d /\ 0 <= d <= 90.
Proof. exact (slopeAngle_range round15 s a b). Qed.
Print Assumptions C19_slopeAngle_range.
Example C19_case : seg_first [(1, 2); (7, 7); (4, 6)] = Some (1, 2) /\ seg_last [(1, 2); (7, 7); (4, 6)] = Some (4, 6) /\
  vdist (1, 2) (4, 6) = 5.
Proof.
  repeat split. unfold vdist, dist2; cbn [fst snd]. replace ((1 - 4) ^ 2 + (2 - 6) ^ 2) with (5 * 5) by ring.
  apply sqrt_square; lra.
Qed.
