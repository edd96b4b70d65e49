(** Properties C51-C53: intersection of curves (Bezier.py 646-685).
    Two points are compared in the taxicab metric, |dx| + |dy|, which bounds both coordinates. *)
From Coq Require Import List ZArith Bool Reals Lra Lia.
From Verif Require Import Py Inst SpecGeom SpecBezier SpecCurve MTransform MBezUtil MBezier ProofBezier ProofBezier2 ProofInter.
Import ListNotations.
Local Open Scope R_scope.
#[local] Existing Instance RPy.

(** ** C51 *)
(** Recursion depth [k+1] suffices when 2^k > speed / threshold for every curve; the result does
    not depend on the depth available. *)
Theorem C51_curveIntersects_terminates (threshold : R) (c1 c2 : list (bezier R)) (k fuel : nat) :
  Forall (fun c => length (cps c) = 3 \/ length (cps c) = 4)%nat c1 -> Forall (fun c => length (cps c) = 3 \/ length (cps c) = 4)%nat c2 ->
  (forall c, In c c1 \/ In c c2 -> in_sentinels (cps c) /\ speed (cps c) < 2 ^ k * threshold) -> (k < fuel)%nat ->
  exists res, curveIntersects fuel threshold c1 c2 = Ok res /\ forall more, curveIntersects (fuel + more) threshold c1 c2 = Ok res.
Proof.
  intros F1 F2 H F. destruct (curveIntersects_terminates round15 threshold c1 c2 k fuel F1 F2 H F) as (res & E).
  exists res. split; [exact E|]. intros more. exact (curveIntersects_mono round15 threshold fuel c1 c2 res more E).
Qed.
Print Assumptions C51_curveIntersects_terminates.
Theorem C51_pairiteration_terminates (threshold : R) (c1 c2 : bezier R) : 0 < threshold ->
  (length (cps c1) = 3 \/ length (cps c1) = 4)%nat -> (length (cps c2) = 3 \/ length (cps c2) = 4)%nat ->
  in_sentinels (cps c1) -> in_sentinels (cps c2) ->
  exists depth, forall fuel, (depth <= fuel)%nat -> exists res, pairiteration fuel threshold c1 c2 = Ok res.
Proof. exact (pair_terminates_some round15 threshold c1 c2). Qed.
Print Assumptions C51_pairiteration_terminates.
(** Both hypotheses are needed: a threshold of 0, or coordinates beyond 32768, never terminate. *)
Theorem C51_threshold_needed (threshold : R) (b : bezier R) : (length (cps b) = 3 \/ length (cps b) = 4)%nat -> threshold <= 0 ->
  forall fuel, pairiteration fuel threshold b b = Err RecursionError.
Proof. exact (threshold_needed round15 threshold b). Qed.
Print Assumptions C51_threshold_needed.
Theorem C51_range_needed (threshold : R) (b : bezier R) : (length (cps b) = 3 \/ length (cps b) = 4)%nat ->
  (forall q, In q (cps b) -> 32768 + threshold <= fst q) -> forall fuel, pairiteration fuel threshold b b = Err RecursionError.
Proof. exact (range_needed round15 threshold b). Qed.
Print Assumptions C51_range_needed.
(** Two concrete curves with threshold 1/2: depth 6 suffices. *)
Definition parabola : bezier R := mkBez [(0, 0); (1, 2); (2, 0)] 0 1.
Definition level : bezier R := mkBez [(0, 3 / 4); (1, 3 / 4); (2, 3 / 4)] 0 1.
Ltac rabs := unfold Rabs; repeat destruct (Rcase_abs _).
Example C51_case : exists res, curveIntersects 6 (1 / 2) [parabola] [level] = Ok res.
Proof.
  destruct (C51_curveIntersects_terminates (1 / 2) [parabola] [level] 5 6) as (res & E & _); [| | |lia|eauto].
  - constructor; [left; reflexivity|constructor].
  - constructor; [left; reflexivity|constructor].
  - intros c [[<-|[]]|[<-|[]]]; split.
    + intros q [<-|[<-|[<-|[]]]]; cbn [fst snd]; rabs; lra.
    + unfold speed, parabola. cbn [cps length Nat.sub taxi_length fst snd]. change (INR 2) with (1 + 1). rabs; lra.
    + intros q [<-|[<-|[<-|[]]]]; cbn [fst snd]; rabs; lra.
    + unfold speed, level. cbn [cps length Nat.sub taxi_length fst snd]. change (INR 2) with (1 + 1). rabs; lra.
Qed.
Example C51_diverging_case : forall fuel, pairiteration fuel (1 / 2) (mkBez [(40000, 0); (40001, 2); (40002, 0)] 0 1) (mkBez [(40000, 0); (40001, 2); (40002, 0)] 0 1) = Err RecursionError.
Proof. apply C51_range_needed; [left; reflexivity|]. intros q [<-|[<-|[<-|[]]]]; cbn [fst snd]; lra. Qed.

(** ** C52 *)
(** Each reported pair (t,s) belongs to curves [l] and [r] of the two lists; [t] is the parameter [u] of [l]
    carried to the interval recorded in [l] (t = u for a freshly built curve). *)
Theorem C52_reported_pairs_are_near (threshold : R) (fuel : nat) (c1 c2 : list (bezier R)) (res : list pt) (t s : R) :
  Forall (fun c => length (cps c) = 3 \/ length (cps c) = 4)%nat c1 -> Forall (fun c => length (cps c) = 3 \/ length (cps c) = 4)%nat c2 ->
  curveIntersects fuel threshold c1 c2 = Ok res -> In (t, s) res ->
  exists l r u v, In l c1 /\ In r c2 /\ 0 <= u <= 1 /\ 0 <= v <= 1 /\
    t = bt1 l + u * (bt2 l - bt1 l) /\ s = bt1 r + v * (bt2 r - bt1 r) /\
    taxi (curve (cps l) u) (curve (cps r) v) < 2 * threshold.
Proof. exact (curveIntersects_sound round15 threshold fuel c1 c2 res t s). Qed.
Print Assumptions C52_reported_pairs_are_near.
Theorem C52_fresh_curves (threshold : R) (fuel : nat) (p q : list pt) (l r : bezier R) (res : list pt) (t s : R) :
  (length p = 3 \/ length p = 4)%nat -> (length q = 3 \/ length q = 4)%nat -> newBezier p = Ok l -> newBezier q = Ok r ->
  curveIntersects fuel threshold [l] [r] = Ok res -> In (t, s) res ->
  exists x y, get l t = Ok x /\ get r s = Ok y /\ 0 <= t <= 1 /\ 0 <= s <= 1 /\ taxi x y < 2 * threshold.
Proof. exact (fresh_sound round15 threshold fuel p q l r res t s). Qed.
Print Assumptions C52_fresh_curves.
Example C52_case : exists res t s, curveIntersects 6 (1 / 2) [parabola] [level] = Ok res /\ In (t, s) res.
Proof.
  destruct C51_case as (res & E).
  destruct (curveIntersects_complete round15 (1 / 2) 6 [parabola] [level] res parabola level (1 / 4) (1 / 4)) as (x1 & y1 & x2 & y2 & _ & _ & _ & _ & _ & _ & I).
  - constructor; [left; reflexivity|constructor].
  - constructor; [left; reflexivity|constructor].
  - exact E.
  - now left.
  - now left.
  - lra.
  - lra.
  - unfold parabola, level; cbn [cps]. rewrite !curve3. cbn [fst snd]. f_equal; lra.
  - do 3 eexists. split; [exact E|exact I].
Qed.

(** ** C53 *)
Theorem C53_no_crossing_is_missed (threshold : R) (fuel : nat) (c1 c2 : list (bezier R)) (res : list pt) (l r : bezier R) (u v : R) :
  Forall (fun c => length (cps c) = 3 \/ length (cps c) = 4)%nat c1 -> Forall (fun c => length (cps c) = 3 \/ length (cps c) = 4)%nat c2 ->
  curveIntersects fuel threshold c1 c2 = Ok res -> In l c1 -> In r c2 -> 0 <= u <= 1 -> 0 <= v <= 1 ->
  curve (cps l) u = curve (cps r) v ->
  exists x1 y1 x2 y2, 0 <= x1 <= u /\ u <= y1 <= 1 /\ 0 <= x2 <= v /\ v <= y2 <= 1 /\
    small_part threshold (cps l) x1 y1 /\ small_part threshold (cps r) x2 y2 /\
    In (bt1 l + (x1 + y1) / 2 * (bt2 l - bt1 l), bt1 r + (x2 + y2) / 2 * (bt2 r - bt1 r)) res.
Proof. exact (curveIntersects_complete round15 threshold fuel c1 c2 res l r u v). Qed.
Print Assumptions C53_no_crossing_is_missed.
Theorem C53_fresh_curves (threshold : R) (fuel : nat) (p q : list pt) (l r : bezier R) (res : list pt) (u v : R) (x : pt) :
  (length p = 3 \/ length p = 4)%nat -> (length q = 3 \/ length q = 4)%nat -> newBezier p = Ok l -> newBezier q = Ok r ->
  curveIntersects fuel threshold [l] [r] = Ok res -> 0 <= u <= 1 -> 0 <= v <= 1 -> get l u = Ok x -> get r v = Ok x ->
  exists t s y z, In (t, s) res /\ get l t = Ok y /\ get r s = Ok z /\ taxi y x < threshold /\ taxi z x < threshold.
Proof. exact (fresh_complete round15 threshold fuel p q l r res u v x). Qed.
Print Assumptions C53_fresh_curves.
(** The parabola and the level line meet at 1/4 (and 3/4). *)
Example C53_case : get parabola (1 / 4) = Ok (1 / 2, 3 / 4) /\ get level (1 / 4) = Ok (1 / 2, 3 / 4) /\
  newBezier (cps parabola) = Ok parabola /\ newBezier (cps level) = Ok level.
Proof.
  split; [rewrite get_ok by (simpl; lia); unfold parabola; cbn [cps]; rewrite curve3; apply Ok_pair; cbn [fst snd]; lra|].
  split; [rewrite get_ok by (simpl; lia); unfold level; cbn [cps]; rewrite curve3; apply Ok_pair; cbn [fst snd]; lra|].
  split; (etransitivity; [apply newBezier_ok; simpl; lia|reflexivity]).
Qed.
