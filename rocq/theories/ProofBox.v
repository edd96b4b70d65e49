(** Proofs for C153: the bounding box of a transformed curve. *)
From Coq Require Import List ZArith Bool Reals Lra Lia.
From Verif Require Import Py Inst SpecGeom SpecTransform SpecOrder SpecBounds SpecArea SpecFrame SpecLattice MTransform MBounds MBezier ProofBounds ProofArea ProofLattice ProofFrame SpecCurve ProofBezier ProofBezier2 ProofBezier3 ProofBBox ProofCurve.
Import ListNotations.
Local Open Scope R_scope.
#[local] Existing Instance RPy.

Section Box.
  Variables (b : bezier R) (a0 b0 c0 d0 x0 y0 : R).
  Hypothesis L : (2 <= length (cps b) <= 4)%nat.
  Let m := [[a0; b0; 0]; [c0; d0; 0]; [x0; y0; 1]].
  Let f := sent a0 b0 c0 d0 x0 y0.
  Let b' := mkBez (map f (cps b)) (bt1 b) (bt2 b).
  Lemma image_length : (2 <= length (cps b') <= 4)%nat.
  Proof. unfold b'. cbn [cps]. now rewrite map_length. Qed.
  Lemma image_get t : exists c, get b t = Ok c /\ get b' t = Ok (f c).
  Proof.
    destruct (affine_commutes m b t ltac:(do 6 eexists; reflexivity) ltac:(lia)) as (p & c & q & E1 & E2 & E3 & E4).
    unfold m in E1, E3. rewrite sent_segment in E1. injection E1 as <-. rewrite sent_point in E3. injection E3 as <-. exists c. split; [exact E2|exact E4].
  Qed.
  Lemma box_of (k : bezier R) : (2 <= length (cps k) <= 4)%nat -> exists r, boundsRectangle k = Ok r /\ fine r /\ forall t c, 0 <= t <= 1 -> get k t = Ok c -> enclosesPoint r c = true.
  Proof.
    clear L. intros Lk. assert (G : exists c, get k 0 = Ok c) by (destruct (affine_commutes [[1; 0; 0]; [0; 1; 0]; [0; 0; 1]] k 0 ltac:(do 6 eexists; reflexivity) ltac:(lia)) as (p & c & q & _ & E & _); eauto).
    destruct G as (c & G). destruct (bbox_encloses round15 k 0 c Lk ltac:(lra) G) as (u0 & u1 & v0 & v1 & r & E & Er & _). exists r. split; [exact Er|]. split.
    - apply proper_iff. unfold boundsRectangle in Er. rewrite E in Er. cbn [bind] in Er. injection Er as <-. eexists. split; [|reflexivity]. discriminate.
    - intros t c' T G'. destruct (bbox_encloses round15 k t c' Lk T G') as (u0' & u1' & v0' & v1' & r' & E' & Er' & _ & _ & H). rewrite Er in Er'. injection Er' as <-. exact H.
  Qed.
  Theorem box_frame : small (map f (cps b)) -> exists r r', boundsRectangle b = Ok r /\ boundsRectangle b' = Ok r' /\ encloses (BoundsRectangle (map f (corners r))) r' = true /\
    (small (cps b) -> (b0 = 0 /\ c0 = 0) \/ (a0 = 0 /\ d0 = 0) -> BoundsRectangle (map f (corners r)) = r').
  Proof.
    intros S'. destruct (box_of b L) as (r & E & F & H). destruct (box_of b' image_length) as (r' & E' & F' & H'). exists r, r'. split; [exact E|]. split; [exact E'|].
    set (R0 := BoundsRectangle (map f (corners r))).
    assert (K : forall t c, 0 <= t <= 1 -> get b' t = Ok c -> enclosesPoint R0 c = true).
    { intros t c T G. destruct (image_get t) as (c1 & G1 & G2). rewrite G in G2. injection G2 as ->. apply frame_holds. exact (H t c1 T G1). }
    assert (In1 : encloses R0 r' = true).
    { destruct (rect_tight round15 b' image_length S') as (r2 & E2 & (t1 & c1 & T1 & G1 & X1) & (t2 & c2 & T2 & G2 & X2) & (t3 & c3 & T3 & G3 & X3) & (t4 & c4 & T4 & G4 & X4)).
      assert (r2 = r') as -> by (pose proof (eq_trans (eq_sym E2) E') as X; injection X; auto).
      pose proof (proj1 (enclosesPoint_R _ _) (K t1 c1 T1 G1)). pose proof (proj1 (enclosesPoint_R _ _) (K t2 c2 T2 G2)). pose proof (proj1 (enclosesPoint_R _ _) (K t3 c3 T3 G3)). pose proof (proj1 (enclosesPoint_R _ _) (K t4 c4 T4 G4)).
      destruct F' as (V1 & V2 & _). apply encloses_R. lra. }
    split; [exact In1|]. intros S Ax.
    assert (P1 : proper R0) by (exists (map f (corners r)); split; [discriminate|reflexivity]). pose proof (proj2 (proper_iff r') F') as P2.
    apply (proj1 (proj2 (enclosing_order _ _ r P1 P2))); [exact In1|].
    destruct (rect_tight round15 b L S) as (r2 & E2 & (t1 & c1 & T1 & G1 & X1) & (t2 & c2 & T2 & G2 & X2) & (t3 & c3 & T3 & G3 & X3) & (t4 & c4 & T4 & G4 & X4)).
    assert (r2 = r) as -> by (pose proof (eq_trans (eq_sym E2) E) as X; injection X; auto).
    assert (Q : forall t c, 0 <= t <= 1 -> get b t = Ok c -> enclosesPoint r' (f c) = true).
    { intros t c T G. destruct (image_get t) as (c5 & G5 & G6). rewrite G in G5. injection G5 as ->. exact (H' t (f c5) T G6). }
    pose proof (proj1 (enclosesPoint_R _ _) (Q t1 c1 T1 G1)) as Kl. pose proof (proj1 (enclosesPoint_R _ _) (Q t2 c2 T2 G2)) as Kr. pose proof (proj1 (enclosesPoint_R _ _) (Q t3 c3 T3 G3)) as Kb. pose proof (proj1 (enclosesPoint_R _ _) (Q t4 c4 T4 G4)) as Kt.
    clear K Q H H' E E' E2 In1 G1 G2 G3 G4.
    assert (C : forall p, In p (map f (corners r)) -> left r' <= fst p <= right r' /\ bottom r' <= snd p <= top r').
    { intros q Hq. apply in_map_iff in Hq as (p & <- & Hp). unfold f, sent in *. cbn [fst snd] in *. rewrite X1 in Kl. rewrite X2 in Kr. rewrite X3 in Kb. rewrite X4 in Kt. unfold corners in Hp. cbn [In] in Hp.
      destruct Ax as [[-> ->]|[-> ->]]; rewrite ?Rmult_0_r, ?Rplus_0_l, ?Rplus_0_r in *; destruct Hp as [<-|[<-|[<-|[<-|[]]]]]; cbn [fst snd]; rewrite ?Rmult_0_r, ?Rplus_0_l, ?Rplus_0_r; lra. }
    destruct F' as (V1 & V2 & V3 & V4 & V5 & V6). destruct (proj1 (proper_iff R0) P1) as (W1 & W2 & _).
    assert (Z1 : left r' <= left R0) by (apply BR_exact_R; split; [assumption|]; intros p Hp; apply (C p Hp)).
    assert (Z2 : right R0 <= right r') by (apply BR_exact_R; split; [assumption|]; intros p Hp; apply (C p Hp)).
    assert (Z3 : bottom r' <= bottom R0) by (apply BR_exact_R; split; [assumption|]; intros p Hp; apply (C p Hp)).
    assert (Z4 : top R0 <= top r') by (apply BR_exact_R; split; [assumption|]; intros p Hp; apply (C p Hp)).
    apply encloses_R. lra.
  Qed.
End Box.
(** The box of the curve is within that of its control points. *)
Theorem box_in_control (b : bezier R) : (2 <= length (cps b) <= 4)%nat -> small (cps b) -> exists r, boundsRectangle b = Ok r /\ encloses (BoundsRectangle (cps b)) r = true.
Proof.
  intros L S. destruct (box_of b L) as (r & E & F & _). exists r. split; [exact E|]. destruct (rect_tight round15 b L S) as (r2 & E2 & (t1 & c1 & T1 & G1 & X1) & (t2 & c2 & T2 & G2 & X2) & (t3 & c3 & T3 & G3 & X3) & (t4 & c4 & T4 & G4 & X4)).
  assert (r2 = r) as -> by (pose proof (eq_trans (eq_sym E2) E) as X; injection X; auto).
  assert (K : forall t c, 0 <= t <= 1 -> get b t = Ok c -> left (BoundsRectangle (cps b)) <= fst c <= right (BoundsRectangle (cps b)) /\ bottom (BoundsRectangle (cps b)) <= snd c <= top (BoundsRectangle (cps b))).
  { intros t c T G. apply (get_in_box b t c); try assumption. intros q Hq. apply BR_in_R. exact Hq. }
  pose proof (K t1 c1 T1 G1). pose proof (K t2 c2 T2 G2). pose proof (K t3 c3 T3 G3). pose proof (K t4 c4 T4 G4). destruct F as (V1 & V2 & _). apply encloses_R. lra.
Qed.
Theorem curve_frame (m : list (list R)) (b : bezier R) (p : list pt) : affine m -> (2 <= length (cps b) <= 4)%nat -> applyToSegment m (cps b) = Ok p -> small p ->
  exists r r' k, boundsRectangle b = Ok r /\ boundsRectangle (mkBez p (bt1 b) (bt2 b)) = Ok r' /\ applyToContour m (rcontour r) = Ok k /\ encloses (fromContour k) r' = true /\
    (small (cps b) -> upright m -> fromContour k = r').
Proof.
  intros (a & b0 & c & d & x & y & ->) L E S. rewrite sent_segment in E. injection E as <-. destruct (box_frame b a b0 c d x y L S) as (r & r' & E & E' & I & Q).
  exists r, r'. eexists. split; [exact E|]. split; [exact E'|]. split; [apply sent_contour|]. rewrite frame_corners. split; [exact I|]. intros S0 (u & v & w & z & U). apply Q; [exact S0|].
  destruct U as [U|U]; [left|right]; injection U; intros; subst; auto.
Qed.
