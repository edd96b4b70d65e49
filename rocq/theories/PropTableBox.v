(** Property C155: the bounds of lookup tables (Bezier.py getLUT and boundsRectangle), over the reals. *)
From Coq Require Import List ZArith Bool Reals Lra Lia.
From Verif Require Import Py Inst SpecGeom SpecBezier SpecCurve SpecPolyline SpecFrame MBounds MBezier ProofLattice ProofBezier ProofTableBox.
Import ListNotations.
Local Open Scope R_scope.
#[local] Existing Instance RPy.

(** ** C155.  The bounds of a table with s samples are within the box of the curve, and no edge is farther in than m (m - 1) / 8 * D / (s - 1)^2,
    where D is twice the distance of the control points from the middle of their neighbours (as in C143). *)
Theorem C155_table (b : bezier R) (s : Z) (l : list pt) (D : R) (L : (2 <= length (cps b) <= 4)%nat) (Hs : (2 <= s)%Z) (Hl : getLUT b s = Ok l) (S : small (cps b)) (B : bent D (cps b)) (D0 : 0 <= D) :
  let m := INR (length (cps b) - 1) in let e := m * (m - 1) / 8 * D / (IZR (s - 1)) ^ 2 in let k := BoundsRectangle l in
  exists r, boundsRectangle b = Ok r /\ encloses r k = true /\ left k - e <= left r /\ right r <= right k + e /\ bottom k - e <= bottom r /\ top r <= top k + e.
Proof. exact (table_box b s l L Hs Hl D S B D0). Qed.
Print Assumptions C155_table.
(** With every step divided into k they can only grow. *)
Theorem C155_finer (b : bezier R) (s k : Z) (l l' : list pt) (L : (2 <= length (cps b) <= 4)%nat) (Hs : (2 <= s)%Z) (Hk : (1 <= k)%Z) (Hl : getLUT b s = Ok l) (Hl' : getLUT b (k * (s - 1) + 1) = Ok l') :
  encloses (BoundsRectangle l') (BoundsRectangle l) = true.
Proof. exact (table_box_finer b s k l l' L Hs Hk Hl Hl'). Qed.
Print Assumptions C155_finer.

(** For this parabola the bound is attained by the table of two samples: the box reaches y = 1, the table y = 0, and e = 1. *)
Example C155_case : let b := mkBez [(0, 0); (1, 2); (2, 0)] 0 1 in
  (2 <= length (cps b) <= 4)%nat /\ getLUT b 2 = Ok [(0, 0); (2, 0)] /\ small (cps b) /\ bent 4 (cps b) /\ BoundsRectangle [(0, 0); (2, 0)] = mkRect 0 2 0 0 /\
  curve (cps b) (1 / 2) = (1, 1) /\ INR (length (cps b) - 1) * (INR (length (cps b) - 1) - 1) / 8 * 4 / (IZR (2 - 1)) ^ 2 = 1.
Proof.
  intros b. assert (V : forall x z : R, 0 <= z -> x = z * z -> sqrt x = z) by (intros x z Z ->; now apply sqrt_square). split; [cbn; lia|]. split; [|split; [|split; [|split; [|split]]]].
  - pose proof (ProofLut.sample_ok b 2 ltac:(simpl; lia) ltac:(lia)) as K. change (getLUT b 2) with (MBezierObj.sampleLUT b 2). rewrite K. change (Z.to_nat 2) with 2%nat. cbn [seq map cps b]. rewrite !curve3. cbn [fst snd INR].
    change (2 - 1)%Z with 1%Z. f_equal. repeat (apply (f_equal2 cons); [apply f_equal2; field|]). reflexivity.
  - intros q Hq. cbn [cps b In] in Hq. destruct Hq as [<-|[<-|[<-|[]]]]; cbn [fst snd]; split; apply Rabs_le; lra.
  - intros p q r pre post E. destruct pre as [|x pre]; [|apply (f_equal (@length _)) in E; simpl in E; rewrite app_length in E; simpl in E; lia].
    injection E as <- <- <- _. unfold vdist, dist2, part_way. cbn [fst snd]. rewrite (V _ 2) by (lra || field). lra.
  - rewrite box2 by lra. reflexivity.
  - cbn [cps b]. rewrite curve3. cbn [fst snd]. f_equal; field.
  - cbn [cps b length]. change (3 - 1)%nat with 2%nat. cbn [INR]. change (2 - 1)%Z with 1%Z. field.
Qed.
