(** Proofs for C140: boxes, lengths and nearest samples of edited curves. *)
From Coq Require Import List ZArith Bool Reals Lra Lia Psatz.
From Verif Require Import Py Inst SpecGeom SpecBezier SpecFit SpecCurve SpecConvex SpecEdit SpecContour MTransform MBounds MBezUtil MBezier MBezierObj MContour ProofFit ProofBezier ProofBezier2 ProofCurve ProofLength ProofArc ProofContour ProofConvex ProofEdit.
Import ListNotations.
Local Open Scope R_scope.
#[local] Existing Instance RPy.

Theorem bbox_follows (b c : bezier R) (xl xh yl yh : R) : (2 <= length (cps b) <= 4)%nat -> length (cps b) = length (cps c) ->
  (forall q, In q (cps b) -> safe_point q) -> (forall q, In q (cps c) -> safe_point q) ->
  (forall e, In e (edits (cps b) (cps c)) -> xl <= fst e <= xh /\ yl <= snd e <= yh) ->
  exists x0 x1 y0 y1 x0' x1' y0' y1', bbox b = Ok ((x0, x1), (y0, y1)) /\ bbox c = Ok ((x0', x1'), (y0', y1')) /\
    xl <= x0' - x0 <= xh /\ xl <= x1' - x1 <= xh /\ yl <= y0' - y0 <= yh /\ yl <= y1' - y1 <= yh.
Proof.
  intros Lb L Sb Sc H. destruct (bbox_tight round15 b Lb Sb) as (x0 & x1 & y0 & y1 & Eb & A & B & C & D). destruct (bbox_tight round15 c ltac:(lia) Sc) as (x0' & x1' & y0' & y1' & Ec & A' & B' & C' & D').
  exists x0, x1, y0, y1, x0', x1', y0', y1'. split; [exact Eb|]. split; [exact Ec|].
  assert (M : forall t p, 0 <= t <= 1 -> get b t = Ok p -> exists q, get c t = Ok q /\ xl <= fst q - fst p <= xh /\ yl <= snd q - snd p <= yh /\ x0 <= fst p <= x1 /\ y0 <= snd p <= y1 /\ x0' <= fst q <= x1' /\ y0' <= snd q <= y1').
  { intros t p T P. assert (Q : get c t = Ok (curve (cps c) t)) by (apply get_ok; lia). exists (curve (cps c) t). split; [exact Q|]. pose proof (get_follows b c L t _ _ T P Q) as F.
    pose proof (hull_fst _ _ xl xh (fun e I => proj1 (H e I)) F) as F1. pose proof (hull_snd _ _ yl yh (fun e I => proj2 (H e I)) F) as F2. unfold vsub in F1, F2. cbn [fst snd] in F1, F2.
    destruct (bbox_encloses round15 b t p Lb T P) as (a1 & a2 & a3 & a4 & r & K & _ & G1 & G2 & _). destruct (bbox_encloses round15 c t _ ltac:(lia) T Q) as (a1' & a2' & a3' & a4' & r' & K' & _ & G1' & G2' & _).
    pose proof (eq_trans (eq_sym Eb) K) as Z. injection Z as <- <- <- <-. pose proof (eq_trans (eq_sym Ec) K') as Z. injection Z as <- <- <- <-. tauto. }
  assert (M' : forall t q, 0 <= t <= 1 -> get c t = Ok q -> exists p, get b t = Ok p /\ xl <= fst q - fst p <= xh /\ yl <= snd q - snd p <= yh /\ x0 <= fst p <= x1 /\ y0 <= snd p <= y1 /\ x0' <= fst q <= x1' /\ y0' <= snd q <= y1').
  { intros t q T Q. assert (P : get b t = Ok (curve (cps b) t)) by (apply get_ok; lia). destruct (M t _ T P) as (q' & Q' & K). rewrite Q in Q'. injection Q' as <-. eauto. }
  destruct A as (ta & pa & Ta & Ga & <-), B as (tb & pb & Tb & Gb & <-), C as (tc & pc & Tc & Gc & <-), D as (td & pd & Td & Gd & <-).
  destruct A' as (ta' & pa' & Ta' & Ga' & <-), B' as (tb' & pb' & Tb' & Gb' & <-), C' as (tc' & pc' & Tc' & Gc' & <-), D' as (td' & pd' & Td' & Gd' & <-).
  destruct (M _ _ Ta Ga) as (u1 & _ & U1). destruct (M _ _ Tb Gb) as (u2 & _ & U2). destruct (M _ _ Tc Gc) as (u3 & _ & U3). destruct (M _ _ Td Gd) as (u4 & _ & U4).
  destruct (M' _ _ Ta' Ga') as (v1 & _ & V1). destruct (M' _ _ Tb' Gb') as (v2 & _ & V2). destruct (M' _ _ Tc' Gc') as (v3 & _ & V3). destruct (M' _ _ Td' Gd') as (v4 & _ & V4).
  repeat split; lra.
Qed.

Lemma norm_dist0 v : norm v = vdist (0, 0) v.
Proof. unfold norm, vdist, dist2, vdot. cbn [fst snd]. f_equal. unfold vsub; cbn [fst snd]. ring. Qed.
Lemma norm_diff v w : Rabs (norm v - norm w) <= norm (vsub w v).
Proof.
  assert (A : forall x y : pt, norm y <= norm x + norm (vsub y x)). { intros x y. replace y with (vadd x (vsub y x)) at 1 by (destruct x, y; unfold vadd, vsub; cbn [fst snd]; f_equal; ring). apply norm_add. }
  assert (S : norm (vsub v w) = norm (vsub w v)) by (unfold norm, vdot, vsub; cbn [fst snd]; f_equal; ring).
  pose proof (A v w). pose proof (A w v). apply Rabs_le. lra.
Qed.
Lemma legs_bound es r : 0 <= r -> (forall e, In e es -> vdist (0, 0) e <= r) -> forall v, In v (legs es) -> vdist (0, 0) v <= 2 * INR (length es - 1) * r.
Proof.
  intros R0 H v I. unfold legs in I. apply in_map_iff in I as (i & <- & Hi). apply in_seq in Hi. set (n := (length es - 1)%nat) in *.
  rewrite <- norm_dist0. change (norm (vscale (INR n) (vsub (nth (S i) es (0, 0)) (nth i es (0, 0)))) <= 2 * INR n * r). rewrite norm_scale, Rabs_right by (apply Rle_ge, pos_INR).
  assert (A : norm (nth (S i) es (0, 0)) <= r) by (rewrite norm_dist0; apply H, nth_In; lia). assert (B : norm (nth i es (0, 0)) <= r) by (rewrite norm_dist0; apply H, nth_In; lia).
  assert (C : norm (vsub (nth (S i) es (0, 0)) (nth i es (0, 0))) <= r + r).
  { replace (vsub (nth (S i) es (0, 0)) (nth i es (0, 0))) with (vadd (nth (S i) es (0, 0)) (vscale (-1) (nth i es (0, 0)))) by (unfold vadd, vscale, vsub; cbn [fst snd]; f_equal; ring).
    eapply Rle_trans; [apply norm_add|]. rewrite norm_scale. replace (Rabs (-1)) with 1 by (rewrite Rabs_left; lra). lra. }
  replace (2 * INR n * r) with (INR n * (r + r)) by ring. apply Rmult_le_compat_l; [apply pos_INR | exact C].
Qed.
Theorem length_follows (b c : bezier R) l l' r : (length (cps b) = 3 \/ length (cps b) = 4)%nat -> length (cps b) = length (cps c) -> 0 <= r ->
  (forall e, In e (edits (cps b) (cps c)) -> vdist (0, 0) e <= r) -> quadrature b = Ok l -> quadrature c = Ok l' ->
  Rabs (l' - l) <= 2 * INR (order b) * r * (1 + / IZR (10 ^ 36)).
Proof.
  intros L3 L R0 H E E'. pose proof (quadrature_gl round15 b L3) as Q. pose proof (quadrature_gl round15 c ltac:(lia)) as Q'.
  pose proof (eq_trans (eq_sym E) Q) as Z. pose proof (eq_trans (eq_sym E') Q') as Z'. injection Z as ->. injection Z' as ->. apply gl_diff. intros t T.
  eapply Rle_trans; [apply norm_diff|]. rewrite norm_dist0. pose proof (derivative_formula b t L3) as D. pose proof (derivative_formula c t ltac:(lia)) as D'.
  pose proof (derivative_follows c b t _ _ ltac:(lia) (eq_sym L) T D' D) as F. unfold order. rewrite L, <- (edits_length (cps c) (cps b)) by congruence.
  refine (hull_norm _ _ _ _ (legs_bound _ r R0 _) F); [apply Rmult_le_pos; [apply Rmult_le_pos; [lra | apply pos_INR] | exact R0]|].
  intros e I. apply (In_nth _ _ (0, 0)) in I as (i & Hi & <-). rewrite edits_length in Hi by congruence. rewrite edits_nth by congruence.
  replace (vdist (0, 0) (vsub (nth i (cps b) (0, 0)) (nth i (cps c) (0, 0)))) with (vdist (0, 0) (vsub (nth i (cps c) (0, 0)) (nth i (cps b) (0, 0)))) by (unfold vdist, dist2, vdot, vsub; cbn [fst snd]; f_equal; ring).
  apply H. rewrite <- edits_nth by exact L. apply nth_In. rewrite edits_length; lia.
Qed.
Lemma dist_far (p q x : pt) : vdist q x <= vdist p x + vdist (0, 0) (vsub q p).
Proof.
  rewrite <- (norm_dist0 (vsub q p)), <- !norm_vdist. replace (norm (vsub x q)) with (norm (vadd (vsub p x) (vsub q p))) by (unfold norm, vdot, vadd, vsub; cbn [fst snd]; f_equal; ring).
  replace (norm (vsub x p)) with (norm (vsub p x)) by (unfold norm, vdot, vsub; cbn [fst snd]; f_equal; ring). apply norm_add.
Qed.
Theorem closest_follows (l l' : list pt) (x : pt) (es : list pt) (r : R) (k k' : nat) : 0 <= r -> (forall e, In e es -> vdist (0, 0) e <= r) -> follows es l l' ->
  findClosest x l = Z.of_nat k -> findClosest x l' = Z.of_nat k' -> Rabs (vdist (nth k' l' (0, 0)) x - vdist (nth k l (0, 0)) x) <= r.
Proof.
  intros R0 H F E E'. pose proof (follows_length _ _ _ F) as L.
  assert (N : forall i, (i < length l)%nat -> vdist (0, 0) (vsub (nth i l' (0, 0)) (nth i l (0, 0))) <= r).
  { intros i Hi. apply (hull_norm es); auto. rewrite <- edits_nth by exact L. apply (follows_edits _ _ _ F). apply nth_In. rewrite edits_length; assumption. }
  destruct (findClosest_spec round15 x l) as [[K _]|(m & K & M & _ & B & _)]; [exfalso; pose proof (eq_trans (eq_sym E) K); lia|].
  destruct (findClosest_spec round15 x l') as [[K' _]|(m' & K' & M' & _ & B' & _)]; [exfalso; pose proof (eq_trans (eq_sym E') K'); lia|].
  pose proof (eq_trans (eq_sym E) K) as Z. pose proof (eq_trans (eq_sym E') K') as Z'. apply Nat2Z.inj in Z, Z'. subst m m'.
  assert (M1 : (k' < length l)%nat) by (rewrite L; exact M'). assert (M2 : (k < length l')%nat) by (rewrite <- L; exact M).
  pose proof (B (nth k' l (0, 0)) (nth_In _ _ M1)) as B1. pose proof (B' (nth k l' (0, 0)) (nth_In _ _ M2)) as B2.
  pose proof (dist_far (nth k l (0, 0)) (nth k l' (0, 0)) x) as D1. pose proof (N k M) as N1.
  pose proof (dist_far (nth k' l' (0, 0)) (nth k' l (0, 0)) x) as D2. pose proof (N k' M1) as N2.
  replace (vdist (0, 0) (vsub (nth k' l (0, 0)) (nth k' l' (0, 0)))) with (vdist (0, 0) (vsub (nth k' l' (0, 0)) (nth k' l (0, 0)))) in D2 by (unfold vdist, dist2, vdot, vsub; cbn [fst snd]; f_equal; ring).
  apply Rabs_le. lra.
Qed.

(** ** Boxes of points, clamps included *)
Theorem points_follow (ps qs : list pt) (e : R) : 0 <= e -> length ps = length qs -> (forall d, In d (edits ps qs) -> Rabs (fst d) <= e /\ Rabs (snd d) <= e) ->
  let r := BoundsRectangle ps in let r' := BoundsRectangle qs in
  Rabs (left r' - left r) <= e /\ Rabs (right r' - right r) <= e /\ Rabs (bottom r' - bottom r) <= e /\ Rabs (MBounds.top r' - MBounds.top r) <= e.
Proof.
  intros E0 L H. assert (Step : forall p q (s s' : rect R), Rabs (fst q - fst p) <= e -> Rabs (snd q - snd p) <= e ->
    (Rabs (left s' - left s) <= e /\ Rabs (right s' - right s) <= e /\ Rabs (bottom s' - bottom s) <= e /\ Rabs (MBounds.top s' - MBounds.top s) <= e) ->
    Rabs (left (addPoint s' q) - left (addPoint s p)) <= e /\ Rabs (right (addPoint s' q) - right (addPoint s p)) <= e /\ Rabs (bottom (addPoint s' q) - bottom (addPoint s p)) <= e /\ Rabs (MBounds.top (addPoint s' q) - MBounds.top (addPoint s p)) <= e).
  { intros [px py] [qx qy] s s' X Y (A & B & C & D). unfold addPoint. cbn [fst snd left right bottom MBounds.top] in *. unfold pmin, pmax. numRg.
    assert (Mi : forall a b a' b', Rabs (a' - a) <= e -> Rabs (b' - b) <= e -> Rabs ((if Rltb b' a' then b' else a') - (if Rltb b a then b else a)) <= e).
    { intros a b a' b' U V. pose proof (Rle_abs (a' - a)). pose proof (Rle_abs (- (a' - a))). pose proof (Rle_abs (b' - b)). pose proof (Rle_abs (- (b' - b))). rewrite Rabs_Ropp in *. destruct (Rltb_spec b' a'), (Rltb_spec b a); apply Rabs_le; lra. }
    assert (Ma : forall a b a' b', Rabs (a' - a) <= e -> Rabs (b' - b) <= e -> Rabs ((if Rltb a' b' then b' else a') - (if Rltb a b then b else a)) <= e).
    { intros a b a' b' U V. pose proof (Rle_abs (a' - a)). pose proof (Rle_abs (- (a' - a))). pose proof (Rle_abs (b' - b)). pose proof (Rle_abs (- (b' - b))). rewrite Rabs_Ropp in *. destruct (Rltb_spec a' b'), (Rltb_spec a b); apply Rabs_le; lra. }
    repeat split; auto. }
  unfold BoundsRectangle. assert (G : forall ps qs (s s' : rect R), length ps = length qs -> (forall d, In d (edits ps qs) -> Rabs (fst d) <= e /\ Rabs (snd d) <= e) ->
    (Rabs (left s' - left s) <= e /\ Rabs (right s' - right s) <= e /\ Rabs (bottom s' - bottom s) <= e /\ Rabs (MBounds.top s' - MBounds.top s) <= e) ->
    let r := fold_left addPoint ps s in let r' := fold_left addPoint qs s' in Rabs (left r' - left r) <= e /\ Rabs (right r' - right r) <= e /\ Rabs (bottom r' - bottom r) <= e /\ Rabs (MBounds.top r' - MBounds.top r) <= e).
  { clear ps qs L H. induction ps as [|p ps IH]; intros [|q qs] s s' L H K; try discriminate; [exact K|]. cbn [fold_left]. rewrite edits_cons in H. apply IH; [now injection L | intros d I; apply H; now right|].
    destruct (H _ (or_introl eq_refl)) as [X Y]. apply Step; assumption. }
  apply G; auto. rewrite !Rminus_eq_0, Rabs_R0. auto.
Qed.
