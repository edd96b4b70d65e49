(** Properties C119 and C120: roots of quadratics, and their crossings with horizontal and vertical lines, in
    IEEE double precision.  [ulp1] is 2^-53.  In C119 nothing is asked of the C library but a correctly
    rounded square root; in C120 sine and cosine are within [ulp1] of the true ones and atan2 obeys the C standard
    on the axes. *)
From Coq Require Import List ZArith Bool Reals Lra Lia.
From Flocq Require Import Core BinarySingleNaN.
From Verif Require Import Py InstFloat SpecGeom SpecBezier SpecDouble SpecDouble3 MTransform MPathUtil MBezier
  ProofBezier ProofDouble ProofDouble2 ProofDouble12 ProofDouble13 ProofDouble14.
Import ListNotations.
Local Open Scope R_scope.
#[local] Existing Instance InstFloat.prec_gt_0.
#[local] Existing Instance InstFloat.prec_lt_emax.

(** ** C119 *)
Theorem C119_quadratic_roots_grid_partial (TO : TrigOps b64) (ieee_sqrt : forall x : b64, tsqrt x = Bsqrt mode_NE x)
  (b : bezier b64) (e : nat) (N : Z) (seg : option (segment b64)) : length (cps b) = 3%nat -> Forall (on_grid e N) (cps b) ->
  (1 <= N <= 2 ^ 25)%Z -> (e <= 400)%nat -> seg = None \/ seg = Some [] -> (exists p, In p (cps b) /\ val (snd p) <> 0) ->
  exists l, roots b seg = Ok l /\
    (forall t, 0 <= t <= 1 -> snd (curve (map vpt (cps b)) t) = 0 -> exists u, In u l /\ Rabs (val u - t) <= 10 * ulp1 * IZR N) /\
    (forall u, In u l -> fin u /\ exists t, snd (curve (map vpt (cps b)) t) = 0 /\ Rabs (val u - t) <= 10 * ulp1 * IZR N /\
      - (3 / 1000000) <= t <= 1 + 3 / 1000000).
Proof. exact (roots_quadratic_grid ieee_sqrt b e N seg). Qed.
Print Assumptions C119_quadratic_roots_grid_partial.
(** Without the grid the root near 1/2 is lost and a point one unit away from the axis is reported. *)
Theorem C119_off_grid_refuted (TO : TrigOps b64) (ieee_sqrt : forall x : b64, tsqrt x = Bsqrt mode_NE x) :
  exists b : bezier b64, length (cps b) = 3%nat /\ Forall (sized 2) (cps b) /\
    (exists t, 2 / 5 <= t <= 1 / 2 /\ snd (curve (map vpt (cps b)) t) = 0) /\
    exists u, roots b None = Ok [u] /\ val u = 0 /\ snd (curve (map vpt (cps b)) (val u)) = -1.
Proof. exact (off_grid ieee_sqrt). Qed.
Print Assumptions C119_off_grid_refuted.
(** A curve meeting the hypotheses that crosses the axis twice. *)
Lemma grid_ints (N x y : Z) : (Z.abs x <= N)%Z -> (Z.abs y <= N)%Z -> (N < 2 ^ 53)%Z -> on_grid 0 N (bofZ x, bofZ y).
Proof. intros X Y L. exists x, y. cbn [fst snd]. repeat split; auto; cbn [pow]; rewrite ?Rinv_1, ?Rmult_1_r; apply val_int; lia. Qed.
Example C119_case : let b := mkBez [(bofZ 0, bofZ (-30)); (bofZ 500, bofZ 700); (bofZ 1000, bofZ (-30))] (bofZ 0) (bofZ 1) in
  length (cps b) = 3%nat /\ Forall (on_grid 0 1000) (cps b) /\ (exists p, In p (cps b) /\ val (snd p) <> 0) /\
  exists t1 t2, 0 <= t1 < t2 /\ t2 <= 1 /\ snd (curve (map vpt (cps b)) t1) = 0 /\ snd (curve (map vpt (cps b)) t2) = 0.
Proof.
  intros b. split; [reflexivity|]. split; [repeat (apply Forall_cons; [apply grid_ints; lia|]); apply Forall_nil|].
  destruct (val_int (-30) ltac:(lia)) as [_ V1]. destruct (val_int 700 ltac:(lia)) as [_ V2].
  split; [exists (bofZ 0, bofZ (-30)); split; [now left | cbn [snd]; rewrite V1; lra]|].
  set (s := sqrt (1 - 12 / 146)). assert (S0 : 0 <= s) by apply sqrt_pos. assert (SS : s * s = 1 - 12 / 146) by (apply sqrt_sqrt; lra).
  assert (S1 : s <= 1) by (apply Rnot_lt_le; intros K; assert (1 * 1 < s * s) by (apply Rmult_gt_0_lt_compat; lra); lra).
  assert (S2 : 0 < s) by (destruct S0 as [S0|S0]; [exact S0 | rewrite <- S0 in SS; lra]).
  exists ((1 - s) / 2), ((1 + s) / 2). split; [lra|]. split; [lra|]. unfold b. cbn [cps map]. rewrite !curve3. cbn [snd vpt]. rewrite V1, V2.
  assert (P : forall x, x * x = 1 - 12 / 146 -> (1 - (1 - x) / 2) ^ 2 * -30 + 2 * (1 - (1 - x) / 2) * ((1 - x) / 2) * 700 + ((1 - x) / 2) ^ 2 * -30 = 0).
  { intros x X. replace ((1 - (1 - x) / 2) ^ 2 * -30 + 2 * (1 - (1 - x) / 2) * ((1 - x) / 2) * 700 + ((1 - x) / 2) ^ 2 * -30) with (335 - 365 * (x * x)) by field. rewrite X. lra. }
  split; [apply P; exact SS|]. replace ((1 + s) / 2) with ((1 - - s) / 2) by lra. apply P. lra.
Qed.

(** ** C120 *)
Theorem C120_axis_roots (sn cs ac : b64 -> b64) (at2 hy pw : b64 -> b64 -> b64) (r15 : b64 -> b64)
  (libm_sin : within ulp1 sn sin) (libm_cos : within ulp1 cs cos) (libm_atan2 : atan2_axes at2) (round_15 : rounds15 r15)
  (b : bezier b64) (s f : point b64) (N : Z) : length (cps b) = 3%nat -> Forall (on_grid 0 N) (s :: f :: cps b) -> (1 <= N <= 2 ^ 24)%Z ->
  (val (fst s) = val (fst f) \/ val (snd s) = val (snd f)) -> vpt s <> vpt f -> (exists p, In p (cps b) /\ ~ on_line (vpt s) (vpt f) (vpt p)) ->
  exists l, @roots _ _ (FTrig sn cs ac at2 hy pw math_pi r15) b (Some [s; f]) = Ok l /\
    (forall t, 0 <= t <= 1 -> on_line (vpt s) (vpt f) (curve (map vpt (cps b)) t) -> exists u, In u l /\ Rabs (val u - t) <= 20 * ulp1 * IZR N) /\
    (forall u, In u l -> fin u /\ exists t, on_line (vpt s) (vpt f) (curve (map vpt (cps b)) t) /\ Rabs (val u - t) <= 20 * ulp1 * IZR N /\
      - (3 / 1000000) <= t <= 1 + 3 / 1000000).
Proof. exact (axis_roots sn cs ac at2 hy pw r15 libm_sin libm_cos libm_atan2 round_15 b s f N). Qed.
Print Assumptions C120_axis_roots.
Theorem C120_axis_crossings (sn cs ac : b64 -> b64) (at2 hy pw : b64 -> b64 -> b64) (r15 : b64 -> b64)
  (libm_sin : within ulp1 sn sin) (libm_cos : within ulp1 cs cos) (libm_atan2 : atan2_axes at2) (round_15 : rounds15 r15)
  (b : bezier b64) (s f : point b64) (N : Z) : length (cps b) = 3%nat -> Forall (on_grid 0 N) (s :: f :: cps b) -> (1 <= N <= 4096)%Z ->
  (val (fst s) = val (fst f) \/ val (snd s) = val (snd f)) -> vpt s <> vpt f -> (exists p, In p (cps b) /\ ~ on_line (vpt s) (vpt f) (vpt p)) ->
  exists l, @lineIntersects _ _ (FTrig sn cs ac at2 hy pw math_pi r15) b s f = Ok l /\
    (forall t, 0 <= t <= 1 -> on_segment (vpt s) (vpt f) (curve (map vpt (cps b)) t) -> exists u, In u l /\ Rabs (val u - t) <= 20 * ulp1 * IZR N) /\
    (forall u, In u l -> fin u /\ exists t, Rabs (val u - t) <= 20 * ulp1 * IZR N /\ - (3 / 1000000) <= t <= 1 + 3 / 1000000 /\
      on_line (vpt s) (vpt f) (curve (map vpt (cps b)) t) /\ box_within (3 / 1000000) (vpt s) (vpt f) (curve (map vpt (cps b)) t)).
Proof. exact (axis_crossings sn cs ac at2 hy pw r15 libm_sin libm_cos libm_atan2 round_15 b s f N). Qed.
Print Assumptions C120_axis_crossings.
(** Such a library exists. *)
Theorem C120_library_exists : exists sn cs at2 r15, within ulp1 sn sin /\ within ulp1 cs cos /\ atan2_axes at2 /\ rounds15 r15.
Proof. destruct library_exists as (sn & cs & _ & r15 & A & B & _ & D). exists sn, cs, axis_at2, r15. exact (conj A (conj B (conj axis_at2_ok D))). Qed.
Print Assumptions C120_library_exists.
(** The vertical stem edge x = 300 through an arch. *)
Example C120_case : let b := mkBez [(bofZ 0, bofZ 0); (bofZ 500, bofZ 700); (bofZ 1000, bofZ 0)] (bofZ 0) (bofZ 1) in let s := (bofZ 500, bofZ 0) in let f := (bofZ 500, bofZ 900) in
  length (cps b) = 3%nat /\ Forall (on_grid 0 1000) (s :: f :: cps b) /\ (1 <= 1000 <= 4096)%Z /\ val (fst s) = val (fst f) /\ vpt s <> vpt f /\
  (exists p, In p (cps b) /\ ~ on_line (vpt s) (vpt f) (vpt p)) /\ on_segment (vpt s) (vpt f) (curve (map vpt (cps b)) (1 / 2)).
Proof.
  intros b s f. split; [reflexivity|]. split; [repeat (apply Forall_cons; [apply grid_ints; lia|]); apply Forall_nil|]. split; [lia|]. split; [reflexivity|].
  destruct (val_int 0 ltac:(lia)) as [_ V0]. destruct (val_int 500 ltac:(lia)) as [_ V5]. destruct (val_int 700 ltac:(lia)) as [_ V7]. destruct (val_int 900 ltac:(lia)) as [_ V9]. destruct (val_int 1000 ltac:(lia)) as [_ V1].
  split; [|split].
  - unfold s, f, vpt. cbn [fst snd]. rewrite V0, V5, V9. intros K. injection K. lra.
  - exists (bofZ 0, bofZ 0). split; [now left|]. unfold s, f, vpt, on_line, along, vadd, vscale, vsub. cbn [fst snd]. rewrite V0, V5, V9. intros [k K]. injection K. lra.
  - exists (350 / 900). split; [lra|]. unfold b, s, f. cbn [cps map]. rewrite curve3. unfold along, vadd, vscale, vsub, vpt. cbn [fst snd]. rewrite V0, V5, V7, V9, V1. f_equal; field.
Qed.
