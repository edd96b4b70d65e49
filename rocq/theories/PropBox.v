(** Property C153: the bounding box of a transformed curve (Bezier.py, PathUtilities.py, Transform.py), over the reals. *)
From Coq Require Import List ZArith Bool Reals Lra Lia.
From Verif Require Import Py Inst SpecGeom SpecArea SpecFrame MTransform MBounds MBezier ProofFrame ProofBox.
Import ListNotations.
Local Open Scope R_scope.
#[local] Existing Instance RPy.

(** ** C153.  The transformed corners of the box of a curve hold the box of the transformed curve, and have the same bounds when the transform keeps or exchanges the axes. *)
Theorem C153_frame (m : list (list R)) (b : bezier R) (p : list pt) (A : affine m) (L : (2 <= length (cps b) <= 4)%nat) (E : applyToSegment m (cps b) = Ok p) (S : small p) :
  exists r r' k, boundsRectangle b = Ok r /\ boundsRectangle (mkBez p (bt1 b) (bt2 b)) = Ok r' /\ applyToContour m (rcontour r) = Ok k /\ encloses (fromContour k) r' = true /\
    (small (cps b) -> upright m -> fromContour k = r').
Proof. exact (curve_frame m b p A L E S). Qed.
Print Assumptions C153_frame.
(** The box of a curve lies within the bounds of its control points. *)
Theorem C153_control (b : bezier R) (L : (2 <= length (cps b) <= 4)%nat) (S : small (cps b)) : exists r, boundsRectangle b = Ok r /\ encloses (BoundsRectangle (cps b)) r = true.
Proof. exact (box_in_control b L S). Qed.
Print Assumptions C153_control.

(** An arc, stretched. *)
Example C153_case : let b := mkBez [(0, 0); (1, 2); (2, 0)] 0 1 in let m := _scaleMatrix 2 3 in
  affine m /\ upright m /\ (2 <= length (cps b) <= 4)%nat /\ applyToSegment m (cps b) = Ok [(0, 0); (2, 6); (4, 0)] /\ small (cps b) /\ small [(0, 0); (2, 6); (4, 0)].
Proof.
  cbv zeta. split; [exists 2, 0, 0, 3, 0, 0; reflexivity|]. split; [apply upright_scale|]. split; [cbn; lia|]. split.
  - change (_scaleMatrix 2 3) with [[2; 0; 0]; [0; 3; 0]; [0; 0; 1]]. rewrite sent_segment. unfold sent. cbn [cps map fst snd]. f_equal. f_equal; [f_equal; ring|f_equal; [f_equal; ring|f_equal; f_equal; ring]].
  - split; intros q Hq; cbn [cps In] in Hq; destruct Hq as [<-|[<-|[<-|[]]]]; cbn [fst snd]; split; apply Rabs_le; lra.
Qed.
