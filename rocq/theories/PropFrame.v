(** Property C151: the bounds of a transformed outline against the transformed bounds (PathUtilities.py, Transform.py), over the reals. *)
From Coq Require Import List ZArith Bool Reals Lra Lia.
From Verif Require Import Py Inst SpecGeom SpecOrder SpecBounds SpecArea SpecFrame MTransform MBounds ProofBounds ProofArea ProofFrame.
Import ListNotations.
Local Open Scope R_scope.

(** ** C151.  The bounds of the transformed corners enclose the transformed outline, for every affine transform. *)
Theorem C151_encloses (m : list (list R)) (cs : list (contour R)) (A : affine m) (some : cs <> []) (S : List.Forall solid cs) :
  exists cs' k, applyToContours m cs = Ok cs' /\ applyToContour m (rcontour (fromContours cs)) = Ok k /\ encloses (fromContour k) (fromContours cs') = true.
Proof. exact (frame m cs A some S). Qed.
Print Assumptions C151_encloses.
(** They are its bounds when the transform keeps the axes, or exchanges them. *)
Theorem C151_equal (m : list (list R)) (cs : list (contour R)) (U : upright m) (S : List.Forall solid cs) (range : in_range (concat (concat cs))) :
  exists cs' k, applyToContours m cs = Ok cs' /\ applyToContour m (rcontour (fromContours cs)) = Ok k /\ fromContour k = fromContours cs'.
Proof. exact (frame_equal m cs U S range). Qed.
Print Assumptions C151_equal.
(** Such are moves, scalings and mirrorings, and all their compositions. *)
Theorem C151_upright (p q : pt) (sx sy : R) (u v : bool) :
  (exists m, translate p q = Ok m /\ upright m) /\ (exists m, scale sx sy = Ok m /\ upright m) /\ (exists m, mirror u v = Ok m /\ upright m) /\ (exists m, mirrorAround p u v = Ok m /\ upright m).
Proof. exact (upright_named p q sx sy u v). Qed.
Print Assumptions C151_upright.
Theorem C151_compose (m : list (list R)) (ms : list (list (list R))) (U : upright m) (Us : List.Forall upright ms) : exists k, concatenateMatrices (m :: ms) = Ok k /\ upright k.
Proof. exact (upright_chain m ms U Us). Qed.
Print Assumptions C151_compose.

(** An outline there and back, scaled. *)
Example C151_case : let cs : list (contour R) := [[[(0, 0); (4, 2)]; [(4, 2); (0, 0)]]] in let m := _scaleMatrix 2 3 in
  affine m /\ upright m /\ cs <> [] /\ List.Forall solid cs /\ in_range (concat (concat cs)).
Proof.
  cbv zeta. split; [exists 2, 0, 0, 3, 0, 0; reflexivity|]. split; [apply upright_scale|]. split; [discriminate|].
  split; [constructor; [|constructor]; split; [discriminate|repeat constructor; discriminate]|].
  unfold in_range, le. cbn [concat app]. repeat split; exists (0, 0); (split; [now left|]); numR; apply Rleb_true; cbn; lra.
Qed.
(** Turned by an eighth (and enlarged) the diagonal is upright and its frame is not: the bounds differ. *)
Example C151_larger : let cs : list (contour R) := [[[(0, 0); (1, 1)]]] in let m := [[1; 1; 0]; [-1; 1; 0]; [0; 0; 1]] in
  affine m /\ List.Forall solid cs /\ in_range (concat (concat cs)) /\
  exists cs' k, applyToContours m cs = Ok cs' /\ applyToContour m (rcontour (fromContours cs)) = Ok k /\ fromContour k <> fromContours cs'.
Proof.
  cbv zeta. assert (S : List.Forall solid ([[[(0, 0); (1, 1)]]] : list (contour R))) by (constructor; [|constructor]; split; [discriminate|repeat constructor; discriminate]).
  assert (Rg : in_range ([(0, 0); (1, 1)] : list pt)) by (unfold in_range, le; repeat split; exists (0, 0); (split; [now left|]); numR; apply Rleb_true; cbn; lra).
  split; [exists 1, 1, (-1), 1, 0, 0; reflexivity|]. split; [exact S|]. split; [exact Rg|].
  do 2 eexists. split; [apply sent_contours|]. split; [apply sent_contour|]. rewrite frame_corners, (flats_R _ (solid_maps _ _ S)), (flats_R _ S), concat_maps2. cbn [concat app]. intros E.
  set (r := BoundsRectangle [(0, 0); (1, 1)]) in *. set (f := sent 1 1 (-1) 1 0 0) in *.
  assert (I : In (f (left r, MBounds.top r)) (map f (corners r))) by (apply in_map; unfold corners; cbn; tauto). apply BR_in_R in I. rewrite E in I.
  assert (B : -1 / 2 <= left (BoundsRectangle (map f [(0, 0); (1, 1)]))) by (apply BR_exact_R; split; [lra|]; intros p [<-|[<-|[]]]; unfold f, sent; cbn [fst snd]; lra).
  pose proof (BR_in_R [(0, 0); (1, 1)] (0, 0) ltac:(cbn; tauto)) as I0. pose proof (BR_in_R [(0, 0); (1, 1)] (1, 1) ltac:(cbn; tauto)) as I1. fold r in I0, I1. unfold f, sent in I, B. cbn [fst snd] in *. lra.
Qed.
(** Beyond 32768 the bounds of C10 are not tight, and even scaling changes them otherwise than the outline: hence [in_range]. *)
Example C151_range : let cs : list (contour R) := [[[(40000, 0); (40000, 1)]]] in let m := _scaleMatrix (1 / 2) 1 in
  upright m /\ List.Forall solid cs /\
  exists cs' k, applyToContours m cs = Ok cs' /\ applyToContour m (rcontour (fromContours cs)) = Ok k /\ fromContour k <> fromContours cs'.
Proof.
  cbv zeta. assert (S : List.Forall solid ([[[(40000, 0); (40000, 1)]]] : list (contour R))) by (constructor; [|constructor]; split; [discriminate|repeat constructor; discriminate]).
  split; [apply upright_scale|]. split; [exact S|]. change (_scaleMatrix (1 / 2) 1) with [[1 / 2; 0; 0]; [0; 1; 0]; [0; 0; 1]].
  do 2 eexists. split; [apply sent_contours|]. split; [apply sent_contour|]. rewrite frame_corners, (flats_R _ (solid_maps _ _ S)), (flats_R _ S), concat_maps2. cbn [concat app]. intros E.
  set (r := BoundsRectangle [(40000, 0); (40000, 1)]) in *. set (f := sent (1 / 2) 0 0 1 0 0) in *.
  assert (I : In (f (left r, MBounds.top r)) (map f (corners r))) by (apply in_map; unfold corners; cbn; tauto). apply BR_in_R in I. rewrite E in I.
  assert (B : 20000 <= left (BoundsRectangle (map f [(40000, 0); (40000, 1)]))) by (apply BR_exact_R; split; [lra|]; intros p [<-|[<-|[]]]; unfold f, sent; cbn [fst snd]; lra).
  pose proof (BR_sent_R [(40000, 0); (40000, 1)]) as J. fold r in J. unfold f, sent in I, B. cbn [fst snd] in *. lra.
Qed.
