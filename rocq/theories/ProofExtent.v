(** Proofs for C154: bounds of contours and outlines made of curves. *)
From Coq Require Import List ZArith Bool Reals Lra Lia.
From Verif Require Import Py Inst SpecGeom SpecTransform SpecOrder SpecBounds SpecBezier SpecCurve SpecContour SpecArea SpecFrame SpecLattice SpecExtent MTransform MBounds MBezUtil MBezier MContour
  ProofBounds ProofArea ProofLattice ProofFrame ProofBezier ProofBezier2 ProofBezier3 ProofBBox ProofCurve ProofInter ProofLut ProofContour.
Import ListNotations.
Local Open Scope R_scope.

Lemma extent_iff (P Q : pt -> Prop) r : (forall q, P q <-> Q q) -> extent P r -> extent Q r.
Proof.
  intros E (H & (q1 & P1 & X1) & (q2 & P2 & X2) & (q3 & P3 & X3) & (q4 & P4 & X4)). split; [intros q Hq; apply H, E, Hq|].
  split; [exists q1; now rewrite <- E|]. split; [exists q2; now rewrite <- E|]. split; [exists q3; now rewrite <- E|exists q4; now rewrite <- E].
Qed.
Lemma extent_union (P Q : pt -> Prop) a b : fine a -> fine b -> extent P a -> extent Q b -> extent (fun q => P q \/ Q q) (union a b).
Proof.
  intros Fa Fb (H & (q1 & P1 & X1) & (q2 & P2 & X2) & (q3 & P3 & X3) & (q4 & P4 & X4)) (H' & (q1' & P1' & X1') & (q2' & P2' & X2') & (q3' & P3' & X3') & (q4' & P4' & X4')).
  rewrite union_R by assumption. cbn [left right top bottom]. unfold extent. cbn [left right top bottom]. split; [|split; [|split; [|split]]].
  - intros q [Hq|Hq]; [apply H in Hq|apply H' in Hq]; unfold Rmin, Rmax; repeat (destruct (Rle_dec _ _)); lra.
  - destruct (Rle_dec (left a) (left b)) as [L|L]; [exists q1|exists q1']; (split; [tauto|]); unfold Rmin; destruct (Rle_dec _ _); lra.
  - destruct (Rle_dec (right a) (right b)) as [L|L]; [exists q2'|exists q2]; (split; [tauto|]); unfold Rmax; destruct (Rle_dec _ _); lra.
  - destruct (Rle_dec (bottom a) (bottom b)) as [L|L]; [exists q3|exists q3']; (split; [tauto|]); unfold Rmin; destruct (Rle_dec _ _); lra.
  - destruct (Rle_dec (top a) (top b)) as [L|L]; [exists q4'|exists q4]; (split; [tauto|]); unfold Rmax; destruct (Rle_dec _ _); lra.
Qed.
Lemma empty_union_fine (r : rect R) : fine r -> union (BoundsRectangle []) r = r.
Proof. intros F. apply proper_iff in F as (ps & N & ->). apply Req_req. exact (proj1 (union_empty _ R_order ps (Rgood ps) N)). Qed.
(** The bounds of a set are unique. *)
Lemma extent_unique P a b : extent P a -> extent P b -> a = b.
Proof.
  intros (H & (q1 & P1 & X1) & (q2 & P2 & X2) & (q3 & P3 & X3) & (q4 & P4 & X4)) (H' & (q1' & P1' & X1') & (q2' & P2' & X2') & (q3' & P3' & X3') & (q4' & P4' & X4')).
  apply rect_ext.
  - pose proof (H _ P1'). pose proof (H' _ P1). lra.
  - pose proof (H _ P2'). pose proof (H' _ P2). lra.
  - pose proof (H _ P4'). pose proof (H' _ P4). lra.
  - pose proof (H _ P3'). pose proof (H' _ P3). lra.
Qed.
(** Sets sent through an affine map. *)
Section Image.
  Variables (a0 b0 c0 d0 x0 y0 : R) (P Q : pt -> Prop) (r r' : rect R).
  Let f := sent a0 b0 c0 d0 x0 y0.
  Hypotheses (image : forall q, Q q <-> exists p, P p /\ q = f p) (Ep : extent P r) (Eq : extent Q r') (F' : fine r').
  Lemma image_frame : encloses (BoundsRectangle (map f (corners r))) r' = true.
  Proof.
    set (R0 := BoundsRectangle (map f (corners r))). destruct Ep as (H & _). destruct Eq as (_ & (q1 & P1 & X1) & (q2 & P2 & X2) & (q3 & P3 & X3) & (q4 & P4 & X4)).
    assert (K : forall q, Q q -> left R0 <= fst q <= right R0 /\ bottom R0 <= snd q <= top R0) by (intros q Hq; apply image in Hq as (p & Hp & ->); apply enclosesPoint_R, frame_holds, enclosesPoint_R, H, Hp).
    pose proof (K _ P1). pose proof (K _ P2). pose proof (K _ P3). pose proof (K _ P4). destruct F' as (V1 & V2 & _). apply encloses_R. lra.
  Qed.
  Lemma image_exact : (b0 = 0 /\ c0 = 0) \/ (a0 = 0 /\ d0 = 0) -> BoundsRectangle (map f (corners r)) = r'.
  Proof.
    intros Ax. pose proof image_frame as In1. set (R0 := BoundsRectangle (map f (corners r))) in *. assert (P1 : proper R0) by (exists (map f (corners r)); split; [discriminate|reflexivity]). pose proof (proj2 (proper_iff r') F') as P2.
    apply (proj1 (proj2 (enclosing_order _ _ r P1 P2))); [exact In1|]. destruct Ep as (_ & (q1 & Q1 & X1) & (q2 & Q2 & X2) & (q3 & Q3 & X3) & (q4 & Q4 & X4)). destruct Eq as (H & _).
    assert (K : forall p, P p -> left r' <= fst (f p) <= right r' /\ bottom r' <= snd (f p) <= top r') by (intros p Hp; apply H, image; eauto).
    pose proof (K _ Q1) as Kl. pose proof (K _ Q2) as Kr. pose proof (K _ Q3) as Kb. pose proof (K _ Q4) as Kt.
    assert (C : forall p, In p (map f (corners r)) -> left r' <= fst p <= right r' /\ bottom r' <= snd p <= top r').
    { intros q Hq. apply in_map_iff in Hq as (p & <- & Hp). clear - Kl Kr Kb Kt X1 X2 X3 X4 Ax Hp. unfold f, sent in *. cbn [fst snd] in *. rewrite X1 in Kl. rewrite X2 in Kr. rewrite X3 in Kb. rewrite X4 in Kt. unfold corners in Hp. cbn [In] in Hp.
      destruct Ax as [[-> ->]|[-> ->]]; rewrite ?Rmult_0_r, ?Rplus_0_l, ?Rplus_0_r in *; destruct Hp as [<-|[<-|[<-|[<-|[]]]]]; cbn [fst snd]; rewrite ?Rmult_0_r, ?Rplus_0_l, ?Rplus_0_r; lra. }
    destruct F' as (V1 & V2 & V3 & V4 & V5 & V6). destruct (proj1 (proper_iff R0) P1) as (W1 & W2 & _).
    assert (Z1 : left r' <= left R0) by (apply BR_exact_R; split; [assumption|]; intros p Hp; apply (C p Hp)).
    assert (Z2 : right R0 <= right r') by (apply BR_exact_R; split; [assumption|]; intros p Hp; apply (C p Hp)).
    assert (Z3 : bottom r' <= bottom R0) by (apply BR_exact_R; split; [assumption|]; intros p Hp; apply (C p Hp)).
    assert (Z4 : top R0 <= top r') by (apply BR_exact_R; split; [assumption|]; intros p Hp; apply (C p Hp)).
    apply encloses_R. lra.
  Qed.
End Image.

Section Contours.
  Context (rnd : R -> R).
  #[local] Hint Extern 0 (TrigOps R) => exact (RTrig rnd) : typeclass_instances.
  Lemma curve_extent (s : list pt) : drawable s -> small s -> exists r, boundsRectangle (mkBez s 0 1) = Ok r /\ fine r /\ extent (fun q => exists t, 0 <= t <= 1 /\ q = curve s t) r.
  Proof.
    intros L S. destruct (curve_bounds rnd s L) as (r & E & _ & H). exists r. split; [exact E|]. split.
    - apply proper_iff. unfold boundsRectangle in E. destruct (bbox (mkBez s 0 1)) as [[[a b] [c d]]|]; [|discriminate]. cbn [bind] in E. apply Ok_inv in E. subst r. eexists. split; [|reflexivity]. discriminate.
    - destruct (rect_tight rnd (mkBez s 0 1) L S) as (r2 & E2 & (t1 & c1 & T1 & G1 & X1) & (t2 & c2 & T2 & G2 & X2) & (t3 & c3 & T3 & G3 & X3) & (t4 & c4 & T4 & G4 & X4)).
      assert (r2 = r) as -> by (pose proof (eq_trans (eq_sym E2) E) as X; injection X; auto). unfold drawable in L. rewrite get_ok in G1, G2, G3, G4 by (cbn [cps]; lia). cbn [cps] in *. apply Ok_inv in G1, G2, G3, G4. subst c1 c2 c3 c4.
      split; [intros q (t & T & ->); apply enclosesPoint_R; exact (H t T)|]. split; [exists (curve s t1); eauto|]. split; [exists (curve s t2); eauto|]. split; [exists (curve s t3); eauto|exists (curve s t4); eauto].
  Qed.
  Lemma contour_loop c : List.Forall drawable c -> small (concat c) -> forall bs r P, fine r -> extent P r -> exists bs' r',
    foldM (fun (st : list (bezier R) * rect R) seg => let* x := newBezier seg in let* r := boundsRectangle x in Ok (fst st ++ [x], union (snd st) r)) c (bs, r) = Ok (bs', r') /\
    fine r' /\ extent (fun q => P q \/ on_contour c q) r'.
  Proof.
    intros F. induction F as [|s c D F IH]; intros S bs r P Fr E.
    - exists bs, r. split; [reflexivity|]. split; [exact Fr|]. refine (extent_iff P _ r _ E). intros q. split; [tauto|]. intros [H|(s & t & [] & _)]; exact H.
    - destruct (curve_extent s D) as (r1 & E1 & F1 & X1); [intros q Hq; apply S; cbn [concat]; apply in_or_app; now left|]. cbn [foldM]. rewrite newBezier_ok by apply D. cbn [bind]. numRg. rewrite E1. cbn [bind fst snd].
      destruct (IH (fun q Hq => S q (in_or_app s (concat c) q (or_intror Hq))) (bs ++ [mkBez s 0 1]) (union r r1) _ (union_fine r r1 Fr F1) (extent_union P _ r r1 Fr F1 E X1)) as (bs' & r' & E' & F' & X').
      exists bs', r'. split; [exact E'|]. split; [exact F'|]. refine (extent_iff _ _ r' _ X'). intros q. unfold on_contour. split.
      + intros [[H|(t & T & ->)]|(s' & t & I & T & ->)]; [now left|right; exists s, t; split; [now left|auto]|right; exists s', t; split; [now right|auto]].
      + intros [H|(s' & t & [<-|I] & T & ->)]; [left; now left|left; right; eauto|right; eauto].
  Qed.
  Theorem contour_extent c : neat c -> exists b, newContour c = Ok b /\ fine (c_bounds b) /\ extent (on_contour c) (c_bounds b).
  Proof.
    intros (F & N & S). destruct (newContour_ok rnd c F N) as (b & E & _). exists b. split; [exact E|]. destruct c as [|s c]; [congruence|]. inversion F as [|? ? D F']; subst.
    destruct (curve_extent s D) as (r1 & E1 & F1 & X1); [intros q Hq; apply S; cbn [concat]; apply in_or_app; now left|].
    unfold newContour in E. cbn [foldM] in E. rewrite newBezier_ok in E by apply D. cbn [bind] in E. revert E. numRg. rewrite E1. cbn [bind fst snd]. rewrite (empty_union_fine r1 F1).
    destruct (contour_loop c F' (fun q Hq => S q (in_or_app s (concat c) q (or_intror Hq))) ([] ++ [mkBez s 0 1]) r1 _ F1 X1) as (bs' & r' & E' & F2 & X'). rewrite E'. cbn [bind].
    destruct (contourEnds bs') as [[u v]|]; cbn [bind]; [|discriminate]. intros E. apply Ok_inv in E. subst b. cbn [c_bounds]. split; [exact F2|]. refine (extent_iff _ _ r' _ X'). intros q. unfold on_contour. split.
    - intros [(t & T & ->)|(s' & t & I & T & ->)]; [exists s, t; split; [now left|auto]|exists s', t; split; [now right|auto]].
    - intros (s' & t & [<-|I] & T & ->); [left; eauto|right; eauto].
  Qed.
  Lemma outline_loop cs : List.Forall neat cs -> forall bs r P, fine r -> extent P r -> exists bs' r',
    foldM (fun (st : list (bcontour R) * rect R) c => let* bc := newContour c in Ok (fst st ++ [bc], union (snd st) (c_bounds bc))) cs (bs, r) = Ok (bs', r') /\
    fine r' /\ extent (fun q => P q \/ on_outline cs q) r'.
  Proof.
    intros F. induction F as [|c cs D F IH]; intros bs r P Fr E.
    - exists bs, r. split; [reflexivity|]. split; [exact Fr|]. refine (extent_iff P _ r _ E). intros q. split; [tauto|]. intros [H|(c & [] & _)]; exact H.
    - destruct (contour_extent c D) as (b & E1 & F1 & X1). cbn [foldM]. rewrite E1. cbn [bind fst snd].
      destruct (IH (bs ++ [b]) (union r (c_bounds b)) _ (union_fine _ _ Fr F1) (extent_union P _ _ _ Fr F1 E X1)) as (bs' & r' & E' & F' & X').
      exists bs', r'. split; [exact E'|]. split; [exact F'|]. refine (extent_iff _ _ r' _ X'). intros q. unfold on_outline. cbn [In]. split.
      + intros [[H|H]|(c' & I & H)]; [now left|right; eauto|right; eauto].
      + intros [H|(c' & [<-|I] & H)]; [left; now left|left; now right|right; eauto].
  Qed.
  Theorem outline_extent cs : List.Forall neat cs -> cs <> [] -> exists o, newOutline cs = Ok o /\ fine (ol_bounds o) /\ extent (on_outline cs) (ol_bounds o).
  Proof.
    intros F N. destruct cs as [|c cs]; [congruence|]. inversion F as [|? ? D F']; subst. destruct (contour_extent c D) as (b & E1 & F1 & X1).
    unfold newOutline. cbn [foldM]. rewrite E1. cbn [bind fst snd]. rewrite (empty_union_fine _ F1). destruct (outline_loop cs F' ([] ++ [b]) (c_bounds b) _ F1 X1) as (bs' & r' & E' & F2 & X'). rewrite E'. cbn [bind].
    eexists. split; [reflexivity|]. cbn [ol_bounds]. split; [exact F2|]. refine (extent_iff _ _ r' _ X'). intros q. unfold on_outline. cbn [In]. split.
    - intros [H|(c' & I & H)]; eauto.
    - intros (c' & [<-|I] & H); [now left|right; eauto].
  Qed.
  (** Within the bounds of the control points. *)
  Lemma curve_in_points s t ps : drawable s -> 0 <= t <= 1 -> incl s ps -> enclosesPoint (BoundsRectangle ps) (curve s t) = true.
  Proof.
    intros D T I. apply enclosesPoint_R. apply (get_in_box (mkBez s 0 1) t (curve s t)); [exact T|apply get_ok; cbn [cps]; unfold drawable in D; lia|]. intros q Hq. apply BR_in_R. apply I. exact Hq.
  Qed.
  Lemma neat_solid cs : List.Forall neat cs -> List.Forall solid cs.
  Proof.
    apply Forall_impl. intros c (F & N & _). split; [exact N|]. revert F. apply Forall_impl. intros s D ->. unfold drawable in D. cbn in D. lia.
  Qed.
  Theorem outline_control cs o : List.Forall neat cs -> cs <> [] -> newOutline cs = Ok o -> encloses (fromContours cs) (ol_bounds o) = true.
  Proof.
    intros F N E. destruct (outline_extent cs F N) as (o' & E' & (V1 & V2 & _) & (_ & (q1 & P1 & X1) & (q2 & P2 & X2) & (q3 & P3 & X3) & (q4 & P4 & X4))). rewrite E in E'. apply Ok_inv in E'. subst o'.
    rewrite (flats_R cs (neat_solid cs F)). set (B := BoundsRectangle (concat (concat cs))).
    assert (K : forall q, on_outline cs q -> left B <= fst q <= right B /\ bottom B <= snd q <= top B).
    { intros q (c & Ic & s & t & Is & T & ->). apply enclosesPoint_R. apply curve_in_points; [|exact T|].
      - rewrite Forall_forall in F. destruct (F c Ic) as (Fd & _). rewrite Forall_forall in Fd. exact (Fd s Is).
      - intros p Hp. apply in_concat. exists s. split; [|exact Hp]. apply in_concat. eauto. }
    pose proof (K _ P1). pose proof (K _ P2). pose proof (K _ P3). pose proof (K _ P4). apply encloses_R. lra.
  Qed.
  (** Transformed outlines. *)
  Lemma on_outline_image a b c d x y cs : List.Forall neat cs -> let f := sent a b c d x y in forall q, on_outline (map (map (map f)) cs) q <-> exists p, on_outline cs p /\ q = f p.
  Proof.
    intros F f q. rewrite Forall_forall in F. assert (K : forall k s t, In k cs -> In s k -> curve (map f s) t = f (curve s t)).
    { intros k s t Ik Is. destruct (F k Ik) as (Fd & _). rewrite Forall_forall in Fd. specialize (Fd s Is). unfold drawable in Fd. exact (curve_affine s a b c d x y t ltac:(lia)). }
    split.
    - intros (k' & Ik' & s' & t & Is' & T & ->). apply in_map_iff in Ik' as (k & <- & Ik). apply in_map_iff in Is' as (s & <- & Is). exists (curve s t). split; [exists k; split; [exact Ik|exists s, t; auto]|exact (K k s t Ik Is)].
    - intros (p & (k & Ik & s & t & Is & T & ->) & ->). exists (map (map f) k). split; [now apply in_map|]. exists (map f s), t. split; [now apply in_map|]. split; [exact T|]. symmetry. exact (K k s t Ik Is).
  Qed.
  Theorem outline_frame m cs cs' : affine m -> List.Forall neat cs -> cs <> [] -> applyToContours m cs = Ok cs' -> small (concat (concat cs')) ->
    exists o o' k, newOutline cs = Ok o /\ newOutline cs' = Ok o' /\ applyToContour m (rcontour (ol_bounds o)) = Ok k /\ encloses (fromContour k) (ol_bounds o') = true /\ (upright m -> fromContour k = ol_bounds o').
  Proof.
    intros (a & b & c & d & x & y & ->) F N E S. rewrite sent_contours in E. apply Ok_inv in E. subst cs'. set (f := sent a b c d x y) in *.
    assert (F2 : List.Forall neat (map (map (map f)) cs)).
    { apply Forall_forall. intros k' Ik'. apply in_map_iff in Ik' as (k & <- & Ik). rewrite Forall_forall in F. destruct (F k Ik) as (Fd & Nk & _). split; [|split].
      - apply Forall_forall. intros s' Is'. apply in_map_iff in Is' as (s & <- & Is). rewrite Forall_forall in Fd. specialize (Fd s Is). unfold drawable in *. now rewrite map_length.
      - destruct k; [congruence|discriminate].
      - intros q Hq. apply S. apply in_concat in Hq as (s & Hs & Hq). apply in_concat. exists s. split; [|exact Hq]. apply in_concat. exists (map (map f) k). split; [now apply in_map|exact Hs]. }
    destruct (outline_extent cs F N) as (o & Eo & Fo & Xo). destruct (outline_extent _ F2 ltac:(destruct cs; [congruence|discriminate])) as (o' & Eo' & Fo' & Xo').
    exists o, o'. eexists. split; [exact Eo|]. split; [exact Eo'|]. split; [apply sent_contour|]. rewrite frame_corners. pose proof (on_outline_image a b c d x y cs F) as Im. cbv zeta in Im.
    split; [exact (image_frame a b c d x y _ _ _ _ Im Xo Xo' Fo')|]. intros (u & v & w & z & U). apply (image_exact a b c d x y _ _ _ _ Im Xo Xo' Fo'). destruct U as [U|U]; [left|right]; injection U; intros; subst; auto.
  Qed.
End Contours.
