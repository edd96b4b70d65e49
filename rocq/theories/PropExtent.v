(** Property C154: the bounds of contours and outlines made of curves (BContour and BOutline in Bezier.py), over the reals. *)
From Coq Require Import List ZArith Bool Reals Lra Lia.
From Verif Require Import Py Inst SpecGeom SpecBezier SpecCurve SpecContour SpecArea SpecFrame SpecExtent MTransform MBounds MBezier MContour ProofLattice ProofFrame ProofBezier ProofExtent.
Import ListNotations.
Local Open Scope R_scope.
#[local] Existing Instance RPy.

(** ** C154.  The bounds hold all points of the curves, and every edge has one; no other rectangle does so. *)
Theorem C154_contour (c : list (list pt)) (N : neat c) : exists b, newContour c = Ok b /\ extent (on_contour c) (c_bounds b).
Proof. destruct (contour_extent round15 c N) as (b & E & _ & X). exact (ex_intro _ b (conj E X)). Qed.
Print Assumptions C154_contour.
Theorem C154_outline (cs : list (list (list pt))) (F : List.Forall neat cs) (some : cs <> []) : exists o, newOutline cs = Ok o /\ extent (on_outline cs) (ol_bounds o).
Proof. destruct (outline_extent round15 cs F some) as (o & E & _ & X). exact (ex_intro _ o (conj E X)). Qed.
Print Assumptions C154_outline.
Theorem C154_unique (P : pt -> Prop) (a b : rect R) (A : extent P a) (B : extent P b) : a = b.
Proof. exact (extent_unique P a b A B). Qed.
Print Assumptions C154_unique.
(** They are within the bounds of the control points. *)
Theorem C154_control (cs : list (list (list pt))) (o : boutline R) (F : List.Forall neat cs) (some : cs <> []) (E : newOutline cs = Ok o) : encloses (fromContours cs) (ol_bounds o) = true.
Proof. exact (outline_control round15 cs o F some E). Qed.
Print Assumptions C154_control.
(** Transformed outlines: as in C151 and C153. *)
Theorem C154_frame (m : list (list R)) (cs cs' : list (list (list pt))) (A : affine m) (F : List.Forall neat cs) (some : cs <> []) (E : applyToContours m cs = Ok cs') (S : small (concat (concat cs'))) :
  exists o o' k, newOutline cs = Ok o /\ newOutline cs' = Ok o' /\ applyToContour m (rcontour (ol_bounds o)) = Ok k /\ encloses (fromContour k) (ol_bounds o') = true /\ (upright m -> fromContour k = ol_bounds o').
Proof. exact (outline_frame round15 m cs cs' A F some E S). Qed.
Print Assumptions C154_frame.

(** A cap: an arc and the line back; its bounds reach y = 1, those of the control points y = 2. *)
Definition cap : list (list (list pt)) := [[[(0, 0); (1, 2); (2, 0)]; [(2, 0); (0, 0)]]].
Example C154_case : List.Forall neat cap /\ cap <> [] /\ upright (_scaleMatrix 2 3) /\ affine (_scaleMatrix 2 3) /\ extent (on_outline cap) (mkRect 0 2 1 0).
Proof.
  split; [constructor; [|constructor]; split; [repeat constructor|split; [discriminate|]]|].
  { intros q Hq. cbn [concat app In] in Hq. destruct Hq as [<-|[<-|[<-|[<-|[<-|[]]]]]]; cbn [fst snd]; split; apply Rabs_le; lra. }
  split; [discriminate|]. split; [apply upright_scale|]. split; [exists 2, 0, 0, 3, 0, 0; reflexivity|].
  assert (W : forall s t, In s [[(0, 0); (1, 2); (2, 0)]; [(2, 0); (0, 0)]] -> 0 <= t <= 1 -> on_outline cap (curve s t)) by (intros s t I T; eexists; split; [now left|]; exists s, t; auto).
  pose proof (W [(0, 0); (1, 2); (2, 0)] 0 ltac:(cbn; tauto) ltac:(lra)) as W0. pose proof (W [(0, 0); (1, 2); (2, 0)] (1 / 2) ltac:(cbn; tauto) ltac:(lra)) as W1. pose proof (W [(0, 0); (1, 2); (2, 0)] 1 ltac:(cbn; tauto) ltac:(lra)) as W2.
  rewrite curve3 in W0, W1, W2. unfold extent. cbn [left right top bottom]. split; [|split; [|split; [|split]]].
  - intros q (c & [<-|[]] & s & t & I & T & ->). cbn [In] in I. destruct I as [<-|[<-|[]]]; [rewrite curve3|rewrite curve2]; cbn [fst snd]; assert (0 <= t * (1 - t)) by nra; assert (0 <= (2 * t - 1) * (2 * t - 1)) by apply Rle_0_sqr; split; split; nra.
  - eexists. split; [exact W0|]. cbn [fst snd]. lra.
  - eexists. split; [exact W2|]. cbn [fst snd]. lra.
  - eexists. split; [exact W0|]. cbn [fst snd]. lra.
  - eexists. split; [exact W1|]. cbn [fst snd]. lra.
Qed.
