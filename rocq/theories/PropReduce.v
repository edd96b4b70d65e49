(** Properties C54, C55, C76 and C78: reduce, simple, selfIntersects and intersects (Bezier.py 557-615, 687-708). *)
From Coq Require Import List ZArith Bool Reals Lra Lia.
From Verif Require Import Py Inst SpecGeom SpecBezier SpecCurve MTransform MBezUtil MBezier ProofBezier ProofReduce ProofSelf ProofGentle.
Import ListNotations.
Local Open Scope R_scope.
#[local] Existing Instance RPy.

(** ** C54 *)
(** [fuel] bounds the loop iterations: 102 always suffice.  The only exception is a tangent that vanishes. *)
Theorem C54_reduce_tiles (b : bezier R) (fuel : nat) : (length (cps b) = 3 \/ length (cps b) = 4)%nat -> (102 <= fuel)%nat ->
  (reduce fuel b = Err ZeroDivisionError /\ exists t, 0 <= t <= 1 /\ is_deriv (curve (cps b)) t (0, 0)) \/
  exists l, reduce fuel b = Ok l /\ (l = [] \/ tiles (cps b) 0 1 l).
Proof.
  intros L F. destruct (reduce_spec' round15 b fuel L F) as [E|(l & E & [->|[T _]])]; [left; exact E|right; exists []; auto|right; exists l; auto].
Qed.
Print Assumptions C54_reduce_tiles.
(** A straight curve is reduced to a non-empty tiling. *)
Example C54_case : exists l, reduce 102 (mkBez [(0, 0); (1, 1); (2, 2)] 0 1) = Ok l /\ l <> [] /\ tiles [(0, 0); (1, 1); (2, 2)] 0 1 l.
Proof.
  destruct (reduce_smooth round15 (mkBez [(0, 0); (1, 1); (2, 2)] 0 1) 102 (or_introl eq_refl) (Nat.le_refl _) (straight_smooth round15)) as (l & E & N).
  exists l. split; [exact E|]. split; [exact N|].
  destruct (C54_reduce_tiles (mkBez [(0, 0); (1, 1); (2, 2)] 0 1) 102 (or_introl eq_refl) (Nat.le_refl _)) as [[K _]|(l' & E' & [->|T])].
  - assert (Ok l = Err ZeroDivisionError :> res (list (bezier R))) by (etransitivity; [symmetry; exact E|exact K]). discriminate.
  - assert (K : Ok l = Ok [] :> res (list (bezier R))) by (etransitivity; [symmetry; exact E|exact E']). injection K as ->. congruence.
  - assert (K : Ok l = Ok l' :> res (list (bezier R))) by (etransitivity; [symmetry; exact E|exact E']). injection K as ->. exact T.
Qed.
(** The empty result does occur: a quadratic that turns a corner within its first hundredth. *)
Theorem C54_empty_result (x y : R) (fuel : nat) : (2 <= fuel)%nat -> reduce fuel (mkBez [(x, y); (x + 1, y); (x + 1, y + 1000)] 0 1) = Ok [].
Proof. exact (corner_reduce round15 x y fuel). Qed.
Print Assumptions C54_empty_result.

(** It does not occur for a curve that turns gently at the scale of a hundredth. *)
Theorem C54_gentle_curves (b : bezier R) (fuel : nat) : (length (cps b) = 3 \/ length (cps b) = 4)%nat -> (102 <= fuel)%nat -> gentle (cps b) ->
  exists l, reduce fuel b = Ok l /\ l <> [].
Proof. exact (reduce_goes_on round15 b fuel). Qed.
Print Assumptions C54_gentle_curves.
(** A cubic with a loop is one of them. *)
Example C54_gentle_case : gentle [(0, 0); (3, 3); (-2, 3); (1, 0)].
Proof. exact loop_gentle. Qed.

(** ** C55 *)
Theorem C55_reduce_simple (b : bezier R) (fuel : nat) (l : list (bezier R)) (s : bezier R) : (length (cps b) = 3 \/ length (cps b) = 4)%nat -> (102 <= fuel)%nat ->
  reduce fuel b = Ok l -> In s l -> simple s = Ok true /\ turns_little (cps s).
Proof. exact (reduce_all_simple round15 b fuel l s). Qed.
Print Assumptions C55_reduce_simple.
Example C55_case : exists l s, reduce 102 (mkBez [(0, 0); (1, 1); (2, 2)] 0 1) = Ok l /\ In s l.
Proof. destruct C54_case as (l & E & N & _). destruct l as [|s l]; [congruence|]. exists (s :: l), s. split; [exact E|now left]. Qed.

(** Conversely: a segment that turns little, with its inner control points strictly on one side of the chord, is simple. *)
Theorem C55_simple_holds (b : bezier R) : (length (cps b) = 3 \/ length (cps b) = 4)%nat -> turns_little (cps b) -> bends_one_way (cps b) -> simple b = Ok true.
Proof. exact (simple_suff round15 b). Qed.
Print Assumptions C55_simple_holds.
Example C55_simple_case : exists p, turns_little p /\ bends_one_way p /\ length p = 4%nat /\ forall s, curve p s = curve [(0, 0); (3, 3); (-2, 3); (1, 0)] (s / 100).
Proof.
  destruct (split2curve_ok (mkBez loop 0 1) 0 (1 / 100) (or_intror eq_refl)) as (c & _ & L & C); [lra|left; lra|]. cbn [cps] in *. exists (cps c).
  destruct (loop_gentle 0 (1 / 100) (cps c)) as [A B]; [lra|lra|lra|lra|exact L|exact C|]. split; [exact A|]. split; [exact B|]. split; [exact L|].
  intros s. rewrite C. unfold loop. f_equal. field.
Qed.

(** ** C76 *)
(** Fails for curves reduce gives up on: two curves that cross at b(1/4) = c(1/2). *)
Theorem C76_intersects_refuted : exists b c : bezier R, length (cps b) = 3%nat /\ length (cps c) = 3%nat /\
  curve (cps b) (1 / 4) = curve (cps c) (1 / 2) /\ forall rf f th, (102 <= rf)%nat -> intersects rf f b (Some c) th = Ok [].
Proof.
  exists (mkBez (corner 0 0) 0 1), (mkBez (corner (-5 / 16) (-375 / 2)) 0 1). split; [reflexivity|]. split; [reflexivity|].
  split; [exact (proj1 (crossing_missed round15 2 0 1 (Nat.le_refl _)))|]. intros rf f th F. exact (proj2 (crossing_missed round15 rf f th ltac:(lia))).
Qed.
Print Assumptions C76_intersects_refuted.
(** The first half holds for all curves. *)
Theorem C76_intersects_sound_partial (rf f : nat) (b c : bezier R) (th : R) (res : list pt) (t s : R) :
  (length (cps b) = 3 \/ length (cps b) = 4)%nat -> (length (cps c) = 3 \/ length (cps c) = 4)%nat -> (102 <= rf)%nat ->
  intersects rf f b (Some c) th = Ok res -> In (t, s) res ->
  0 <= t <= 1 /\ 0 <= s <= 1 /\ taxi (curve (cps b) t) (curve (cps c) s) < 2 * th.
Proof. exact (intersects_sound round15 rf f b c th res t s). Qed.
Print Assumptions C76_intersects_sound_partial.
(** The second half when reduce returns segments. *)
Theorem C76_intersects_complete_partial (rf f : nat) (b c : bezier R) (th : R) (l1 l2 : list (bezier R)) (res : list pt) (u v : R) :
  (length (cps b) = 3 \/ length (cps b) = 4)%nat -> (length (cps c) = 3 \/ length (cps c) = 4)%nat -> (102 <= rf)%nat ->
  reduce rf b = Ok l1 -> l1 <> [] -> reduce rf c = Ok l2 -> l2 <> [] -> intersects rf f b (Some c) th = Ok res ->
  0 <= u <= 1 -> 0 <= v <= 1 -> curve (cps b) u = curve (cps c) v ->
  exists t s, In (t, s) res /\ taxi (curve (cps b) t) (curve (cps b) u) < th /\ taxi (curve (cps c) s) (curve (cps c) v) < th.
Proof. exact (intersects_complete round15 rf f b c th l1 l2 res u v). Qed.
Print Assumptions C76_intersects_complete_partial.
Theorem C76_intersects_terminates_partial (rf f k : nat) (b c : bezier R) (th : R) :
  (length (cps b) = 3 \/ length (cps b) = 4)%nat -> (length (cps c) = 3 \/ length (cps c) = 4)%nat -> (102 <= rf)%nat ->
  in_sentinels (cps b) -> in_sentinels (cps c) -> speed (cps b) < 2 ^ k * th -> speed (cps c) < 2 ^ k * th -> (k < f)%nat ->
  (exists res, intersects rf f b (Some c) th = Ok res) \/ reduce rf b = Err ZeroDivisionError \/ reduce rf c = Err ZeroDivisionError.
Proof. exact (intersects_terminates round15 rf f k b c th). Qed.
Print Assumptions C76_intersects_terminates_partial.
(** A straight curve against itself meets all hypotheses. *)
Example C76_case : let b := mkBez [(0, 0); (1, 1); (2, 2)] 0 1 in
  exists l1 r t s, reduce 102 b = Ok l1 /\ l1 <> [] /\ intersects 102 6 b (Some b) (1 / 2) = Ok r /\ In (t, s) r.
Proof.
  intros b. destruct C54_case as (l & E & N & _).
  assert (Sn : in_sentinels (cps b)). { intros q [<-|[<-|[<-|[]]]]; cbn [fst snd]; unfold Rabs; destruct (Rcase_abs _); lra. }
  assert (Sp : speed (cps b) < 2 ^ 5 * (1 / 2)).
  { unfold speed, b. cbn [cps length Nat.sub taxi_length fst snd]. change (INR 2) with (1 + 1). unfold taxi, vsub; cbn [fst snd]. unfold Rabs; repeat destruct (Rcase_abs _); lra. }
  destruct (C76_intersects_terminates_partial 102 6 5 b b (1 / 2) (or_introl eq_refl) (or_introl eq_refl) (Nat.le_refl _) Sn Sn Sp Sp (Nat.lt_succ_diag_r 5)) as [(rr & Er)|K].
  - destruct (C76_intersects_complete_partial 102 6 b b (1 / 2) l l rr 0 0 (or_introl eq_refl) (or_introl eq_refl) (Nat.le_refl _) E N E N Er) as (t & s & I & _); try lra; [reflexivity|].
    exists l, rr, t, s. auto.
  - exfalso. assert (J : reduce 102 b = Err ZeroDivisionError) by (destruct K; assumption).
    assert (Ok l = Err ZeroDivisionError :> res (list (bezier R))) by (etransitivity; [symmetry; exact E|exact J]). discriminate.
Qed.

(** ** C78 *)
(** Every reported pair is a pair of distinct parameters of the curve in order, with nearby points. *)
Theorem C78_self_sound (rf f : nat) (b : bezier R) (th : R) (res : list pt) (t s : R) :
  (length (cps b) = 3 \/ length (cps b) = 4)%nat -> (102 <= rf)%nat -> selfIntersects rf f b th = Ok res -> In (t, s) res ->
  0 <= t /\ t < s /\ s <= 1 /\ taxi (curve (cps b) t) (curve (cps b) s) < 2 * th.
Proof. exact (self_sound round15 rf f b th res t s). Qed.
Print Assumptions C78_self_sound.
(** Every crossing is reported, although neighbouring segments are never compared. *)
Theorem C78_self_complete (rf f : nat) (b : bezier R) (th : R) (l : list (bezier R)) (res : list pt) (u v : R) :
  (length (cps b) = 3 \/ length (cps b) = 4)%nat -> (102 <= rf)%nat -> reduce rf b = Ok l -> l <> [] -> selfIntersects rf f b th = Ok res ->
  0 <= u -> u < v -> v <= 1 -> curve (cps b) u = curve (cps b) v ->
  exists t s, In (t, s) res /\ taxi (curve (cps b) t) (curve (cps b) u) < th /\ taxi (curve (cps b) s) (curve (cps b) v) < th.
Proof. exact (self_complete round15 rf f b th l res u v). Qed.
Print Assumptions C78_self_complete.
Theorem C78_self_terminates (rf f k : nat) (b : bezier R) (th : R) :
  (length (cps b) = 3 \/ length (cps b) = 4)%nat -> (102 <= rf)%nat -> in_sentinels (cps b) -> speed (cps b) < 2 ^ k * th -> (k < f)%nat ->
  (exists res, selfIntersects rf f b th = Ok res) \/ (selfIntersects rf f b th = Err ZeroDivisionError /\ reduce rf b = Err ZeroDivisionError).
Proof. exact (self_terminates round15 rf f k b th). Qed.
Print Assumptions C78_self_terminates.
(** The loop: its crossing is found. *)
Example C78_case : let b := mkBez [(0, 0); (3, 3); (-2, 3); (1, 0)] 0 1 in let w := sqrt 3 / 4 in
  curve (cps b) (1 / 2 - w) = curve (cps b) (1 / 2 + w) /\
  exists res t s, selfIntersects 102 8 b (1 / 2) = Ok res /\ In (t, s) res /\ t < s /\ taxi (curve (cps b) t) (curve (cps b) (1 / 2 - w)) < 1 / 2.
Proof.
  intros b w. destruct loop_crosses as (P1 & P2 & X). fold w in P1, P2, X. split; [exact X|].
  destruct (C54_gentle_curves b 102 (or_intror eq_refl) (Nat.le_refl _) loop_gentle) as (l & E & N).
  assert (Sn : in_sentinels (cps b)). { intros q [<-|[<-|[<-|[<-|[]]]]]; cbn [fst snd]; unfold Rabs; repeat destruct (Rcase_abs _); lra. }
  assert (Sp : speed (cps b) < 2 ^ 7 * (1 / 2)).
  { unfold speed, b. cbn [cps length Nat.sub taxi_length fst snd]. change (INR 3) with (1 + 1 + 1). unfold taxi, vsub; cbn [fst snd]. unfold Rabs; repeat destruct (Rcase_abs _); lra. }
  assert (W : 0 < w) by (unfold w; pose proof (sqrt_lt_R0 3 ltac:(lra)); lra).
  destruct (C78_self_terminates 102 8 7 b (1 / 2) (or_intror eq_refl) (Nat.le_refl _) Sn Sp (Nat.lt_succ_diag_r 7)) as [(res & Er)|[_ K]].
  - destruct (C78_self_complete 102 8 b (1 / 2) l res (1 / 2 - w) (1 / 2 + w) (or_intror eq_refl) (Nat.le_refl _) E N Er) as (t & s & I & T1 & T2); [lra|lra|lra|exact X|].
    exists res, t, s. split; [exact Er|]. split; [exact I|]. split; [|exact T1].
    apply (C78_self_sound 102 8 b (1 / 2) res t s (or_intror eq_refl) (Nat.le_refl _) Er I).
  - exfalso. assert (Ok l = Err ZeroDivisionError :> res (list (bezier R))) by (etransitivity; [symmetry; exact E|exact K]). discriminate.
Qed.
