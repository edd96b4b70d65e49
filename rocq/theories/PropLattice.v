(** Property C150: the algebra of bounds rectangles (PathUtilities.py).  A rectangle is [proper] when it was made around at least one point (SpecLattice.v). *)
From Coq Require Import List ZArith Bool Reals Lra Lia.
From Verif Require Import Py Inst InstFloat SpecGeom SpecOrder SpecBounds SpecLattice MBounds ProofBounds ProofLattice.
Import ListNotations.
Local Infix "≤" := le (at level 70).

(** ** C150.  More points make the bounds larger; order and repetition of the points do not matter.  For numbers of any ordered kind. *)
Theorem C150_more_points (T : Type) (N : NumOps T) (D : T -> Prop) (O : TotalOrder D) (ps qs : list (point T)) (Gp : good_points D ps) (Gq : good_points D qs) (I : incl ps qs) :
  let a := BoundsRectangle ps in let b := BoundsRectangle qs in left b ≤ left a /\ right a ≤ right b /\ bottom b ≤ bottom a /\ top a ≤ top b.
Proof. exact (more_points D O ps qs Gp Gq I). Qed.
Print Assumptions C150_more_points.
Theorem C150_same_points (T : Type) (N : NumOps T) (D : T -> Prop) (O : TotalOrder D) (ps qs : list (point T)) (Gp : good_points D ps) (Gq : good_points D qs)
  (same : forall p, In p ps <-> In p qs) : req (BoundsRectangle ps) (BoundsRectangle qs).
Proof. exact (same_points D O ps qs Gp Gq same). Qed.
Print Assumptions C150_same_points.
Local Open Scope R_scope.
(** Which rectangles are proper; unions and intersections are. *)
Theorem C150_proper (r : rect R) : proper r <->
  left r <= right r /\ bottom r <= top r /\ left r <= 32768 /\ bottom r <= 32768 /\ -32768 <= right r /\ -32768 <= top r.
Proof. exact (proper_iff r). Qed.
Print Assumptions C150_proper.
Theorem C150_closed (a b : rect R) (A : proper a) (B : proper b) : proper (union a b) /\ forall i, intersection a b = Some i -> proper i.
Proof. exact (closed a b A B). Qed.
Print Assumptions C150_closed.
(** They form a lattice. *)
Theorem C150_commute (a b : rect R) (A : proper a) (B : proper b) : union a b = union b a /\ intersection a b = intersection b a.
Proof. exact (commute a b A B). Qed.
Print Assumptions C150_commute.
Theorem C150_associate (a b c : rect R) (A : proper a) (B : proper b) (C : proper c) : union (union a b) c = union a (union b c) /\
  and_then (intersection a b) (fun i => intersection i c) = and_then (intersection b c) (fun i => intersection a i).
Proof. exact (associate a b c A B C). Qed.
Print Assumptions C150_associate.
Theorem C150_absorb (a b : rect R) (A : proper a) (B : proper b) :
  union a a = a /\ intersection a a = Some a /\ intersection a (union a b) = Some a /\ forall i, intersection a b = Some i -> union a i = a.
Proof. exact (absorb a b A B). Qed.
Print Assumptions C150_absorb.
(** encloses is its order. *)
Theorem C150_encloses (a b : rect R) (A : proper a) (B : proper b) : (encloses a b = true <-> union a b = a) /\ (encloses a b = true <-> intersection a b = Some b).
Proof. exact (enclosing a b A B). Qed.
Print Assumptions C150_encloses.
Theorem C150_order (a b c : rect R) (A : proper a) (B : proper b) :
  encloses a a = true /\ (encloses a b = true -> encloses b a = true -> a = b) /\ (encloses a b = true -> encloses b c = true -> encloses a c = true).
Proof. exact (enclosing_order a b c A B). Qed.
Print Assumptions C150_order.
(** Areas: larger rectangles have larger ones, and the union has at least that of both without what they have in common. *)
Theorem C150_areas (a b : rect R) (A : proper a) (B : proper b) : (encloses a b = true -> area b <= area a) /\ (intersection a b = None -> area a + area b <= area (union a b)) /\
  (forall i, intersection a b = Some i -> area i <= area a /\ area i <= area b /\ area a + area b <= area (union a b) + area i).
Proof. exact (areas a b A B). Qed.
Print Assumptions C150_areas.

(** Two overlapping rectangles. *)
Example C150_case : let a := mkRect 0 4 4 0 in let b := mkRect 2 6 5 1 in proper a /\ proper b /\ intersection a b = Some (mkRect 2 4 4 1) /\ union a b = mkRect 0 6 5 0 /\ encloses a b = false.
Proof.
  intros a b. assert (A : fine a) by (unfold fine, a; cbn; lra). assert (B : fine b) by (unfold fine, b; cbn; lra).
  split; [now apply proper_iff|]. split; [now apply proper_iff|]. split; [|split].
  - destruct (inter_some a b A B) as [E _]; [unfold ordered, meet, a, b; cbn; unfold Rmin, Rmax; repeat (destruct (Rle_dec _ _)); lra|]. rewrite E. f_equal. apply rect_ext; unfold meet, a, b; cbn; unfold Rmin, Rmax; repeat (destruct (Rle_dec _ _)); lra.
  - rewrite union_R by assumption. apply rect_ext; cbn; unfold Rmin, Rmax; repeat (destruct (Rle_dec _ _)); lra.
  - apply Bool.not_true_iff_false. rewrite encloses_R. cbn. lra.
Qed.
(** Floats: a repeated point. *)
Example C150_floats : let ps : list (point b64) := [(bofZ 1, bofZ 2); (bofZ 5, bofZ 0)] in let qs := [(bofZ 5, bofZ 0); (bofZ 1, bofZ 2); (bofZ 5, bofZ 0)] in
  good_points not_nan ps /\ good_points not_nan qs /\ forall p, In p ps <-> In p qs.
Proof. cbv zeta. split; [repeat constructor|]. split; [repeat constructor|]. cbn [In]. intuition. Qed.
