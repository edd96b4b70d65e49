(** Properties C01-C06 and C08: Transform.py. *)
From Coq Require Import List ZArith Bool Reals Lra.
From Verif Require Import Py Inst SpecGeom SpecTransform MTransform ProofTransform.
Import ListNotations.
Local Open Scope R_scope.

(** ** C01 *)
Theorem C01_concatenation_applies_left_to_right (ms : list mat) (p q : pt) :
  ms <> [] -> apply_each ms p = Ok q ->
  exists t, mkTransform ms = Ok t /\ applyToPoint t p = Ok q.
Proof. exact (concat_apply ms p q). Qed.
Print Assumptions C01_concatenation_applies_left_to_right.
(** A shear, a perspective and a translation. *)
Example C01_case :
  apply_each [[[1; 0; 0]; [2; 1; 0]; [0; 0; 1]]; [[1; 0; 1]; [0; 1; 0]; [0; 0; 1]];
              [[1; 0; 0]; [0; 1; 0]; [5; 7; 1]]] (1, 1) = Ok (23/4, 29/4).
Proof.
  do 3 rewrite apply_each_step by lra. apply Ok_pair; field.
Qed.

(** ** C02 *)
Theorem C02_concatenation_regroups (ms1 ms2 : list mat) :
  ms1 <> [] -> ms2 <> [] -> Forall wf3 ms1 -> Forall wf3 ms2 ->
  exists a b c, mkTransform ms1 = Ok a /\ mkTransform ms2 = Ok b /\
    mkTransform (ms1 ++ ms2) = Ok c /\ mkTransform [a; b] = Ok c.
Proof. exact (concat_regroup ms1 ms2). Qed.
Print Assumptions C02_concatenation_regroups.
Theorem C02_empty_chain_raises (T : Type) (N : NumOps T) : mkTransform (T := T) [] = Err IndexError.
Proof. exact eq_refl. Qed.
Print Assumptions C02_empty_chain_raises.
Example C02_case : let m1 := [[1; 2; 3]; [4; 5; 6]; [7; 8; 9]] in let m2 := [[1; 0; 1]; [0; 2; 0]; [5; 0; 1]] in
  [m1; m2] <> [] /\ Forall wf3 [m1; m2] /\ Forall wf3 [m2].
Proof. split; [discriminate|]. split; repeat constructor. Qed.

(** ** C03 *)
Theorem C03_translate (a b p : pt) :
  exists t t', translate a b = Ok t /\ translate b a = Ok t' /\
    applyToPoint t p = Ok (vadd p (vsub b a)) /\ applyToPoint t a = Ok b /\
    applyToPoint t' (vadd p (vsub b a)) = Ok p.
Proof. exact (translate_full a b p). Qed.
Print Assumptions C03_translate.

(** ** C04 *)
Theorem C04_scale_shear (sx sy : R) (p : pt) :
  (exists t, scale sx sy = Ok t /\ applyToPoint t p = Ok (sx * fst p, sy * snd p)) /\
  (exists t, shear sx sy = Ok t /\ applyToPoint t p = Ok (fst p + sx * snd p, snd p + sy * fst p)).
Proof. exact (conj (scale_spec sx sy p) (shear_spec sx sy p)). Qed.
Print Assumptions C04_scale_shear.
Theorem C04_mirror (xAxis yAxis : bool) (p : pt) :
  exists t, mirror xAxis yAxis = Ok t /\
    let q := (if yAxis then - fst p else fst p, if xAxis then - snd p else snd p) in
    applyToPoint t p = Ok q /\ applyToPoint t q = Ok p.
Proof. exact (mirror_full xAxis yAxis p). Qed.
Print Assumptions C04_mirror.
Theorem C04_mirrorAround (c : pt) (xAxis yAxis : bool) (p : pt) :
  exists t, mirrorAround c xAxis yAxis = Ok t /\
    let q := (if yAxis then 2 * fst c - fst p else fst p, if xAxis then 2 * snd c - snd p else snd p) in
    applyToPoint t p = Ok q /\ applyToPoint t q = Ok p /\ applyToPoint t c = Ok c.
Proof. exact (mirrorAround_full c xAxis yAxis p). Qed.
Print Assumptions C04_mirrorAround.

(** ** C05 *)
Theorem C05_rotation_fixes_centre (c : pt) (deg : R) (ccw : bool) :
  let tr := RPy in exists t, rotationAbout c deg ccw = Ok t /\ applyToPoint t c = Ok c.
Proof. exact (rotation_fixes_centre c deg ccw). Qed.
Print Assumptions C05_rotation_fixes_centre.
Theorem C05_rotation_keeps_distances (c : pt) (deg : R) (ccw : bool) (p1 p2 : pt) :
  let tr := RPy in
  exists t q1 q2, rotationAbout c deg ccw = Ok t /\ applyToPoint t p1 = Ok q1 /\ applyToPoint t p2 = Ok q2 /\
    Rabs (dist2 q1 q2 - dist2 p1 p2) <= 4 * / 10 ^ 15 * dist2 p1 p2.
Proof. exact (rotation_distance c deg ccw p1 p2). Qed.
Print Assumptions C05_rotation_keeps_distances.
Theorem C05_rotation_direction (c : pt) (deg : R) (ccw : bool) (p : pt) :
  let tr := RPy in
  exists t q, rotationAbout c deg ccw = Ok t /\ applyToPoint t p = Ok q /\
    let v := vsub p c in
    let w := vadd c (rot (if ccw then deg * PI / 180 else - (deg * PI / 180)) v) in
    Rabs (fst q - fst w) <= / 2 * / 10 ^ 15 * (Rabs (fst v) + Rabs (snd v)) /\
    Rabs (snd q - snd w) <= / 2 * / 10 ^ 15 * (Rabs (fst v) + Rabs (snd v)).
Proof. exact (rotation_direction c deg ccw p). Qed.
Print Assumptions C05_rotation_direction.
Theorem C05_rotation_back (c : pt) (deg : R) (ccw : bool) (p : pt) :
  let tr := RPy in
  exists t t' q r, rotationAbout c deg ccw = Ok t /\ rotationAbout c deg (negb ccw) = Ok t' /\
    applyToPoint t p = Ok q /\ applyToPoint t' q = Ok r /\
    exists k, Rabs (k - 1) <= 4 * / 10 ^ 15 /\ vsub r c = vscale k (vsub p c).
Proof. exact (rotation_back c deg ccw p). Qed.
Print Assumptions C05_rotation_back.
Theorem C05_quarter_turns_exact (c : pt) (k : Z) (ccw : bool) (p : pt) :
  let tr := RPy in
  exists t, rotationAbout c (90 * IZR k) ccw = Ok t /\
    applyToPoint t p = Ok (vadd c (quarter_turns (if ccw then k else - k) (vsub p c))).
Proof. exact (rotation_quarter c k ccw p). Qed.
Print Assumptions C05_quarter_turns_exact.
Theorem C05_exact_trigonometry (c : pt) (deg : R) (ccw : bool) (p : pt) :
  let tr := RExact in
  exists t t' q, rotationAbout c deg ccw = Ok t /\ rotationAbout c deg (negb ccw) = Ok t' /\
    applyToPoint t p = Ok q /\ applyToPoint t' q = Ok p /\
    q = vadd c (rot (if ccw then deg * PI / 180 else - (deg * PI / 180)) (vsub p c)).
Proof. exact (rotation_exact c deg ccw p). Qed.
Print Assumptions C05_exact_trigonometry.

(** ** C06 (any number type, any matrix, well-formed or not) *)
Theorem C06_pointwise (T : Type) (N : NumOps T) (t : matrix T) (cs cs' : list (contour T)) :
  applyToContours t cs = Ok cs' <->
  Forall2 (Forall2 (Forall2 (fun p q => applyToPoint t p = Ok q))) cs cs'.
Proof. exact (applyToContours_iff t cs cs'). Qed.
Print Assumptions C06_pointwise.
Theorem C06_pointwise_contour (T : Type) (N : NumOps T) (t : matrix T) (c c' : contour T) :
  applyToContour t c = Ok c' <-> Forall2 (Forall2 (fun p q => applyToPoint t p = Ok q)) c c'.
Proof. exact (applyToContour_iff t c c'). Qed.
Print Assumptions C06_pointwise_contour.
Theorem C06_pointwise_segment (T : Type) (N : NumOps T) (t : matrix T) (s s' : segment T) :
  applyToSegment t s = Ok s' <-> Forall2 (fun p q => applyToPoint t p = Ok q) s s'.
Proof. exact (applyToSegment_iff t s s'). Qed.
Print Assumptions C06_pointwise_segment.
Theorem C06_raises (T : Type) (N : NumOps T) (t : matrix T) (cs : list (contour T)) :
  (forall e, applyToContours t cs = Err e ->
     exists p, In p (concat (concat cs)) /\ applyToPoint t p = Err e) /\
  (forall p e, In p (concat (concat cs)) -> applyToPoint t p = Err e ->
     exists e', applyToContours t cs = Err e').
Proof. exact (applyToContours_raises t cs). Qed.
Print Assumptions C06_raises.
Theorem C06_keeps_connected (T : Type) (N : NumOps T) (t : matrix T) (c c' : contour T) :
  applyToContour t c = Ok c' ->
  (connected c -> connected c') /\ (closed_contour c -> closed_contour c').
Proof. exact (fun E => conj (fun C => applyToContour_connected t c c' C E) (fun C => applyToContour_closed t c c' C E)). Qed.
Print Assumptions C06_keeps_connected.
Example C06_case : exists c', closed_contour [[(0, 0); (1, 0)]; [(1, 0); (2, 3); (0, 0)]] /\
  applyToContour [[1; 0; 0]; [0; 1; 1]; [0; 0; 1]] [[(0, 0); (1, 0)]; [(1, 0); (2, 3); (0, 0)]] = Ok c'.
Proof.
  assert (E : forall x y, 0 <= y -> exists q, applyToPoint [[1; 0; 0]; [0; 1; 1]; [0; 0; 1]] (x, y) = Ok q).
  { intros x y Y. rewrite apply_Ok by lra. eauto. }
  destruct (E 0 0) as [q0 E0]; [lra|]. destruct (E 1 0) as [q1 E1]; [lra|]. destruct (E 2 3) as [q2 E2]; [lra|].
  exists [[q0; q1]; [q1; q2; q0]]. split.
  - split; [discriminate|]. split; simpl; eauto.
  - apply applyToContour_iff. repeat constructor; auto.
Qed.

(** ** C08 *)
Theorem C08_failure_set (m : mat) (p : pt) : wf3 m ->
  (third_coordinate m p = 0 -> applyToPoint m p = Err ZeroDivisionError) /\
  (third_coordinate m p <> 0 -> exists q, applyToPoint m p = Ok q).
Proof. exact (apply_failure m p). Qed.
Print Assumptions C08_failure_set.
Theorem C08_collinearity (m : mat) (p1 p2 p3 q1 q2 q3 : pt) :
  applyToPoint m p1 = Ok q1 -> applyToPoint m p2 = Ok q2 -> applyToPoint m p3 = Ok q3 ->
  collinear p1 p2 p3 -> collinear q1 q2 q3.
Proof. exact (apply_collinear m p1 p2 p3 q1 q2 q3). Qed.
Print Assumptions C08_collinearity.
Theorem C08_perspectiveFrom (c : pt) (p q : R) :
  exists t, perspectiveFrom c p q = Ok t /\ applyToPoint t c = Ok c.
Proof. exact (perspectiveFrom_fixes c p q). Qed.
Print Assumptions C08_perspectiveFrom.
(** A genuinely projective matrix with points on both sides of its failure line x = -1. *)
Example C08_case : let m : mat := [[1; 0; 1]; [0; 1; 0]; [0; 0; 1]] in
  wf3 m /\ third_coordinate m (-1, 5) = 0 /\ third_coordinate m (0, 5) <> 0 /\
  (exists q1 q2 q3, applyToPoint m (0, 1) = Ok q1 /\ applyToPoint m (1, 2) = Ok q2 /\ applyToPoint m (2, 3) = Ok q3 /\
     collinear (0, 1) (1, 2) (2, 3) /\ q1 <> q2).
Proof.
  cbv zeta. split; [repeat constructor|]. unfold third_coordinate; cbn [nth fst snd].
  split; [lra|]. split; [lra|]. rewrite !apply_Ok by lra. do 3 eexists. repeat split.
  - unfold collinear, vcross, vsub; simpl; ring.
  - intros E; injection E; lra.
Qed.
