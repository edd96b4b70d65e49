(** Property C152: intersection, union and enclosure of bounds rectangles with numbers of any ordered kind, floats that are not NaN included (PathUtilities.py).
    A rectangle is [around] when it was made from at least one point with comparable coordinates (SpecMeet.v). *)
From Coq Require Import List ZArith Bool.
From Verif Require Import Py Inst InstFloat SpecGeom SpecOrder SpecBounds SpecLattice SpecMeet MBounds ProofBounds ProofMeet.
Import ListNotations.

(** ** C152.  Unions and intersections are again around points; they are the least that encloses both and the most that both enclose. *)
Theorem C152_closed (T : Type) (N : NumOps T) (D : T -> Prop) (O : TotalOrder D) (a b : rect T) (A : around D a) (B : around D b) :
  around D (union a b) /\ forall i, intersection a b = Some i -> around D i.
Proof. exact (closed_any D O a b A B). Qed.
Print Assumptions C152_closed.
Theorem C152_bounds (T : Type) (N : NumOps T) (D : T -> Prop) (O : TotalOrder D) (a b c : rect T) (A : around D a) (B : around D b) (C : around D c) :
  (encloses (union a b) a = true /\ encloses (union a b) b = true /\ (encloses c a = true -> encloses c b = true -> encloses c (union a b) = true)) /\
  match intersection a b with
  | Some i => encloses a i = true /\ encloses b i = true /\ (encloses a c = true -> encloses b c = true -> encloses i c = true)
  | None => ~ (encloses a c = true /\ encloses b c = true)
  end.
Proof. exact (bounds_any D O a b c A B C). Qed.
Print Assumptions C152_bounds.
(** The laws of the intersection, and those it shares with the union. *)
Theorem C152_commute (T : Type) (N : NumOps T) (D : T -> Prop) (O : TotalOrder D) (a b : rect T) (A : around D a) (B : around D b) : same (intersection a b) (intersection b a).
Proof. exact (inter_comm_any D O a b A B). Qed.
Print Assumptions C152_commute.
Theorem C152_associate (T : Type) (N : NumOps T) (D : T -> Prop) (O : TotalOrder D) (a b c : rect T) (A : around D a) (B : around D b) (C : around D c) :
  same (and_then (intersection a b) (fun i => intersection i c)) (and_then (intersection b c) (fun i => intersection a i)).
Proof. exact (inter_assoc_any D O a b c A B C). Qed.
Print Assumptions C152_associate.
Theorem C152_absorb (T : Type) (N : NumOps T) (D : T -> Prop) (O : TotalOrder D) (a b : rect T) (A : around D a) (B : around D b) :
  same (intersection (union a b) a) (Some a) /\ forall i, intersection a b = Some i -> req (union a i) a.
Proof. exact (absorb_any D O a b A B). Qed.
Print Assumptions C152_absorb.
(** Enclosure is the order of this lattice. *)
Theorem C152_encloses (T : Type) (N : NumOps T) (D : T -> Prop) (O : TotalOrder D) (a b : rect T) (A : around D a) (B : around D b) :
  (encloses a b = true <-> req (union a b) a) /\ (encloses a b = true <-> same (intersection a b) (Some b)).
Proof. exact (encloses_any D O a b A B). Qed.
Print Assumptions C152_encloses.
Theorem C152_order (T : Type) (N : NumOps T) (D : T -> Prop) (O : TotalOrder D) (a b c : rect T) (A : around D a) (B : around D b) (C : around D c) :
  encloses a a = true /\ (encloses a b = true -> encloses b a = true -> req a b) /\ (encloses a b = true -> encloses b c = true -> encloses a c = true).
Proof. exact (order_any D O a b c A B C). Qed.
Print Assumptions C152_order.
(** Outlines: only the points count, not their order nor that of segments and contours; outlines put together have the union of the bounds. *)
Theorem C152_outline_points (T : Type) (N : NumOps T) (D : T -> Prop) (O : TotalOrder D) (cs ds : list (contour T)) (Gc : List.Forall (good_contour D) cs) (Gd : List.Forall (good_contour D) ds)
  (Sc : List.Forall solid cs) (Sd : List.Forall solid ds) (points : forall p, In p (concat (concat cs)) <-> In p (concat (concat ds))) : req (fromContours cs) (fromContours ds).
Proof. exact (outline_points D O cs ds Gc Gd Sc Sd points). Qed.
Print Assumptions C152_outline_points.
Theorem C152_outline_join (T : Type) (N : NumOps T) (D : T -> Prop) (O : TotalOrder D) (cs ds : list (contour T)) (Gc : List.Forall (good_contour D) cs) (Gd : List.Forall (good_contour D) ds)
  (Sc : List.Forall solid cs) (Sd : List.Forall solid ds) (some : cs ++ ds <> []) : req (fromContours (cs ++ ds)) (union (fromContours cs) (fromContours ds)).
Proof. exact (outline_join D O cs ds Gc Gd Sc Sd some). Qed.
Print Assumptions C152_outline_join.

(** Three rectangles of floats that meet. *)
Example C152_case : let a := BoundsRectangle [(bofZ 0, bofZ 0); (bofZ 4, bofZ 4)] in let b := BoundsRectangle [(bofZ 2, bofZ 1); (bofZ 6, bofZ 5)] in let c := BoundsRectangle [(bofZ 3, bofZ 3)] in
  TotalOrder not_nan /\ around not_nan a /\ around not_nan b /\ around not_nan c /\ encloses a b = false /\ encloses a c = true /\ encloses b c = true.
Proof.
  cbv zeta. split; [exact float_order|]. split; [eexists; split; [|split; [|reflexivity]]; [discriminate|repeat constructor]|].
  split; [eexists; split; [|split; [|reflexivity]]; [discriminate|repeat constructor]|]. split; [eexists; split; [|split; [|reflexivity]]; [discriminate|repeat constructor]|]. repeat split; vm_compute; reflexivity.
Qed.
(** An outline and the same one drawn from the other end. *)
Example C152_outline : let cs : list (contour b64) := [[[(bofZ 0, bofZ 0); (bofZ 4, bofZ 2)]; [(bofZ 4, bofZ 2); (bofZ 0, bofZ 0)]]] in let ds := [[[(bofZ 4, bofZ 2); (bofZ 0, bofZ 0)]]] in
  List.Forall (good_contour not_nan) cs /\ List.Forall (good_contour not_nan) ds /\ List.Forall solid cs /\ List.Forall solid ds /\ (forall p, In p (concat (concat cs)) <-> In p (concat (concat ds))) /\ cs ++ ds <> [].
Proof.
  cbv zeta. split; [repeat constructor|]. split; [repeat constructor|]. split; [constructor; [|constructor]; split; [discriminate|repeat constructor; discriminate]|].
  split; [constructor; [|constructor]; split; [discriminate|repeat constructor; discriminate]|]. split; [|discriminate]. cbn [concat app In]. intuition.
Qed.
