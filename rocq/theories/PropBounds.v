(** Properties C09-C15: BoundsRectangle.  The theorems hold for every number type and every set [D]
    of totally ordered values of it; reals, rationals and non-NaN binary64 floats are instances. *)
From Coq Require Import List ZArith Bool Reals QArith Lra.
From Verif Require Import Py Inst InstFloat SpecGeom SpecOrder SpecBounds MBounds MPathUtil ProofBounds.
Import ListNotations.
Local Open Scope num_scope.
Local Infix "≤" := le (at level 70).

(** The instances. *)
Theorem order_of_reals : TotalOrder (fun _ : R => True).
Proof. exact R_order. Qed.
Theorem order_of_rationals : TotalOrder (fun _ : Q => True).
Proof. exact Q_order. Qed.
Theorem order_of_floats : TotalOrder not_nan.
Proof. exact float_order. Qed.
Print Assumptions order_of_floats.

(** ** C09 *)
Theorem C09_encloses (T : Type) (N : NumOps T) (D : T -> Prop) (O : TotalOrder D) ps p :
  good_points D ps -> In p ps -> enclosesPoint (BoundsRectangle ps) p = true.
Proof. exact (BR_encloses D O ps p). Qed.
Print Assumptions C09_encloses.
Theorem C09_sentinels (T : Type) (N : NumOps T) (D : T -> Prop) (O : TotalOrder D) ps :
  good_points D ps -> let r := BoundsRectangle ps in
  left r ≤ nofZ 32768 /\ bottom r ≤ nofZ 32768 /\ nofZ (-32768) ≤ right r /\ nofZ (-32768) ≤ top r.
Proof. exact (BR_sentinels D O ps). Qed.
Print Assumptions C09_sentinels.
(** Floats, an infinity included. *)
Example C09_case : let ps : list (point b64) :=
    [(bofZ 3, bofZ 4); (Flocq.IEEE754.BinarySingleNaN.B754_infinity true, bofZ 70000)] in
  good_points not_nan ps /\ enclosesPoint (BoundsRectangle ps) (bofZ 3, bofZ 4) = true /\
  enclosesPoint (BoundsRectangle ps) (bofZ 3, bofZ 3) = false.
Proof. split; [repeat constructor; reflexivity | vm_compute; auto]. Qed.

(** ** C10: false beyond +-32768; exact when the points reach into that range *)
Theorem C10_tight_refuted : exists (ps : list (point Q)) (l r b t : Q),
  ps <> [] /\ (forall p, In p ps -> in_box l r b t p) /\ ~ (l ≤ left (BoundsRectangle ps)).
Proof. exact BR_tight_refuted. Qed.
Print Assumptions C10_tight_refuted.
Theorem C10_tight_partial (T : Type) (N : NumOps T) (D : T -> Prop) (O : TotalOrder D) ps l r b t :
  good_points D ps -> D l -> D r -> D b -> D t ->
  in_range ps -> (forall p, In p ps -> in_box l r b t p) ->
  let x := BoundsRectangle ps in l ≤ left x /\ right x ≤ r /\ b ≤ bottom x /\ top x ≤ t.
Proof. exact (BR_tight D O ps l r b t). Qed.
Print Assumptions C10_tight_partial.
(** The exact edges in general: the extreme coordinates clipped at the sentinels. *)
Theorem C10_exact_edges (T : Type) (N : NumOps T) (D : T -> Prop) (O : TotalOrder D) ps x :
  good_points D ps -> D x -> let r := BoundsRectangle ps in
  (x ≤ left r <-> x ≤ nofZ 32768 /\ forall p, In p ps -> x ≤ fst p) /\
  (right r ≤ x <-> nofZ (-32768) ≤ x /\ forall p, In p ps -> fst p ≤ x) /\
  (x ≤ bottom r <-> x ≤ nofZ 32768 /\ forall p, In p ps -> x ≤ snd p) /\
  (top r ≤ x <-> nofZ (-32768) ≤ x /\ forall p, In p ps -> snd p ≤ x).
Proof. exact (BR_exact D O ps x). Qed.
Print Assumptions C10_exact_edges.
Example C10_case : let ps : list (point Q) := [(1#1, 5#2); (-3#1, 50000#1); (40000#1, 0#1)]%Q in
  in_range ps /\ BoundsRectangle ps = mkRect (-3#1) (40000#1) (50000#1) (0#1)%Q.
Proof.
  split; [|vm_compute; auto]. split; [|split; [|split]]; exists (1#1, 5#2)%Q; (split; [simpl; auto | reflexivity]).
Qed.

(** ** C11 *)
Theorem C11_union_contains (T : Type) (N : NumOps T) (D : T -> Prop) (O : TotalOrder D) ps qs p :
  good_points D ps -> good_points D qs -> D (fst p) -> D (snd p) ->
  let a := BoundsRectangle ps in let b := BoundsRectangle qs in
  enclosesPoint a p = true \/ enclosesPoint b p = true -> enclosesPoint (union a b) p = true.
Proof. exact (union_encloses D O ps qs p). Qed.
Print Assumptions C11_union_contains.
Theorem C11_union_comm (T : Type) (N : NumOps T) (D : T -> Prop) (O : TotalOrder D) ps qs :
  good_points D ps -> good_points D qs ->
  req (union (BoundsRectangle ps) (BoundsRectangle qs)) (union (BoundsRectangle qs) (BoundsRectangle ps)).
Proof. exact (union_comm D O ps qs). Qed.
Print Assumptions C11_union_comm.
(** False for the empty rectangle: joined with itself it becomes the square +-32768. *)
Theorem C11_union_idem_refuted : exists ps : list (point Q),
  let a := BoundsRectangle ps in ~ req (union a a) a /\ enclosesPoint (union a a) (7#1, 7#1)%Q = true /\
  enclosesPoint a (7#1, 7#1)%Q = false.
Proof. exact empty_union_refuted. Qed.
Print Assumptions C11_union_idem_refuted.
Theorem C11_union_least_partial (T : Type) (N : NumOps T) (D : T -> Prop) (O : TotalOrder D) ps qs l r b t :
  good_points D ps -> good_points D qs -> ps ++ qs <> [] -> D l -> D r -> D b -> D t ->
  let a := BoundsRectangle ps in let c := BoundsRectangle qs in let u := union a c in
  l ≤ left a -> l ≤ left c -> right a ≤ r -> right c ≤ r ->
  b ≤ bottom a -> b ≤ bottom c -> top a ≤ t -> top c ≤ t ->
  l ≤ left u /\ right u ≤ r /\ b ≤ bottom u /\ top u ≤ t.
Proof. exact (union_least D O ps qs l r b t). Qed.
Print Assumptions C11_union_least_partial.
Theorem C11_union_assoc_partial (T : Type) (N : NumOps T) (D : T -> Prop) (O : TotalOrder D) ps qs rs :
  good_points D ps -> good_points D qs -> good_points D rs -> ps ++ qs <> [] -> qs ++ rs <> [] ->
  req (union (union (BoundsRectangle ps) (BoundsRectangle qs)) (BoundsRectangle rs))
      (union (BoundsRectangle ps) (union (BoundsRectangle qs) (BoundsRectangle rs))).
Proof. exact (union_assoc D O ps qs rs). Qed.
Print Assumptions C11_union_assoc_partial.
Theorem C11_union_idem_partial (T : Type) (N : NumOps T) (D : T -> Prop) (O : TotalOrder D) ps :
  good_points D ps -> ps <> [] -> let a := BoundsRectangle ps in
  req (union a a) a /\ req (union (BoundsRectangle []) a) a /\ req (union a (BoundsRectangle [])) a.
Proof. exact (fun G X => conj (union_idem D O ps G X) (union_empty D O ps G X)). Qed.
Print Assumptions C11_union_idem_partial.
(** Union of constructed rectangles is the rectangle of all the points together. *)
Theorem C11_union_of_points_partial (T : Type) (N : NumOps T) (D : T -> Prop) (O : TotalOrder D) ps qs :
  good_points D ps -> good_points D qs -> ps ++ qs <> [] ->
  req (union (BoundsRectangle ps) (BoundsRectangle qs)) (BoundsRectangle (ps ++ qs)).
Proof. exact (union_app D O ps qs). Qed.
Print Assumptions C11_union_of_points_partial.
Example C11_case : let ps : list (point b64) := [(bofZ 1, bofZ 2); (bofZ 5, bofZ 0)] in
  let qs := [(bofZ (-4), bofZ 9)] in
  good_points not_nan ps /\ good_points not_nan qs /\ ps ++ qs <> [] /\
  rpoints (union (BoundsRectangle ps) (BoundsRectangle qs)) = [bofZ (-4); bofZ 0; bofZ 5; bofZ 9].
Proof. repeat split; try discriminate; repeat constructor. Qed.

(** ** C12 *)
Theorem C12_fromContours_encloses (T : Type) (N : NumOps T) (D : T -> Prop) (O : TotalOrder D) cs c s p :
  Forall (good_contour D) cs -> In c cs -> In s c -> In p s ->
  enclosesPoint (fromContours cs) p = true /\ enclosesPoint (fromContour c) p = true.
Proof. exact (fromContours_encloses_both D O cs c s p). Qed.
Print Assumptions C12_fromContours_encloses.
(** One empty contour in the list blows the bounds up to the square +-32768. *)
Theorem C12_tight_refuted : exists cs : list (contour Q),
  concat (concat cs) = [(1#1, 1#1); (2#1, 2#1)]%Q /\
  rpoints (fromContours cs) = [-32768#1; -32768#1; 32768#1; 32768#1]%Q.
Proof. exact (ex_intro _ [ []; [ [(1#1, 1#1); (2#1, 2#1)]%Q ] ] (conj eq_refl eq_refl)). Qed.
Print Assumptions C12_tight_refuted.
Theorem C12_fromContour_tight_partial (T : Type) (N : NumOps T) (D : T -> Prop) (O : TotalOrder D) c l r b t :
  good_contour D c -> Forall (fun s => s <> []) c -> D l -> D r -> D b -> D t -> in_range (concat c) ->
  (forall p, In p (concat c) -> in_box l r b t p) ->
  let u := fromContour c in l ≤ left u /\ right u ≤ r /\ b ≤ bottom u /\ top u ≤ t.
Proof. exact (fromContour_tight D O c l r b t). Qed.
Print Assumptions C12_fromContour_tight_partial.
Theorem C12_fromContours_tight_partial (T : Type) (N : NumOps T) (D : T -> Prop) (O : TotalOrder D) cs l r b t :
  Forall (good_contour D) cs -> Forall solid cs -> D l -> D r -> D b -> D t -> in_range (concat (concat cs)) ->
  (forall p, In p (concat (concat cs)) -> in_box l r b t p) ->
  let u := fromContours cs in l ≤ left u /\ right u ≤ r /\ b ≤ bottom u /\ top u ≤ t.
Proof. exact (fromContours_tight D O cs l r b t). Qed.
Print Assumptions C12_fromContours_tight_partial.
Example C12_case : let cs : list (contour Q) := [[[(1#1, 1#1); (2#1, 5#1)]; [(2#1, 5#1); (1#1, 1#1)]]; [[(0#1, 0#1); (3#1, 1#1); (0#1, 0#1)]]]%Q in
  Forall (good_contour (fun _ => True)) cs /\ Forall solid cs /\ in_range (concat (concat cs)) /\
  rpoints (fromContours cs) = [0#1; 0#1; 3#1; 5#1]%Q.
Proof.
  split; [repeat constructor|]. split; [repeat (constructor; try discriminate)|]. split; [|reflexivity].
  split; [|split; [|split]]; exists (1#1, 1#1)%Q; (split; [simpl; auto | reflexivity]).
Qed.

(** ** C13 *)
Theorem C13_intersection_none (T : Type) (N : NumOps T) (D : T -> Prop) (O : TotalOrder D) ps qs :
  good_points D ps -> good_points D qs ->
  let a := BoundsRectangle ps in let b := BoundsRectangle qs in
  intersection a b = None <->
  (forall p, D (fst p) -> D (snd p) -> ~ (enclosesPoint a p = true /\ enclosesPoint b p = true)).
Proof. exact (intersection_none D O ps qs). Qed.
Print Assumptions C13_intersection_none.
Theorem C13_intersection_some (T : Type) (N : NumOps T) (D : T -> Prop) (O : TotalOrder D) ps qs i p :
  good_points D ps -> good_points D qs -> D (fst p) -> D (snd p) ->
  let a := BoundsRectangle ps in let b := BoundsRectangle qs in
  intersection a b = Some i ->
  enclosesPoint i p = true <-> (enclosesPoint a p = true /\ enclosesPoint b p = true).
Proof. exact (intersection_some D O ps qs i p). Qed.
Print Assumptions C13_intersection_some.
Example C13_case : let a := BoundsRectangle [(0#1, 0#1); (4#1, 4#1)]%Q in
  let b := BoundsRectangle [(2#1, 3#1); (9#1, 9#1)]%Q in let c := BoundsRectangle [(5#1, 0#1); (6#1, 1#1)]%Q in
  intersection a b = Some (mkRect (2#1) (4#1) (4#1) (3#1))%Q /\ intersection a c = None.
Proof. split; reflexivity. Qed.

(** ** C14 *)
Theorem C14_relationTo (T : Type) (N : NumOps T) (D : T -> Prop) (O : TotalOrder D) ps qs :
  good_points D ps -> good_points D qs -> ps <> [] -> qs <> [] ->
  let a := BoundsRectangle ps in let b := BoundsRectangle qs in
  (relationTo a b = relationEncloses <-> inside D b a) /\
  (relationTo a b = relationEnclosed <-> inside D a b /\ ~ inside D b a) /\
  (relationTo a b = relationIntersects <-> ~ disjoint D a b /\ ~ inside D a b /\ ~ inside D b a) /\
  (relationTo a b = relationSeparate <-> disjoint D a b).
Proof. exact (relationTo_spec D O ps qs). Qed.
Print Assumptions C14_relationTo.
Theorem C14_relationTo_consistent (T : Type) (N : NumOps T) (D : T -> Prop) (O : TotalOrder D) ps qs :
  good_points D ps -> good_points D qs -> ps <> [] -> qs <> [] ->
  let a := BoundsRectangle ps in let b := BoundsRectangle qs in
  (relationTo a b = relationSeparate <-> relationTo b a = relationSeparate) /\
  (relationTo a b = relationIntersects <-> relationTo b a = relationIntersects) /\
  (relationTo a b = relationEnclosed -> relationTo b a = relationEncloses) /\
  (relationTo a b = relationEncloses -> relationTo b a = relationEnclosed \/ req a b).
Proof. exact (relationTo_sym D O ps qs). Qed.
Print Assumptions C14_relationTo_consistent.
Example C14_case : let r x y z w := BoundsRectangle [(inject_Z x, inject_Z y); (inject_Z z, inject_Z w)] in
  relationTo (r 0 0 9 9)%Z (r 1 1 2 2)%Z = relationEncloses /\ relationTo (r 1 1 2 2)%Z (r 0 0 9 9)%Z = relationEnclosed /\
  relationTo (r 0 0 9 9)%Z (r 5 5 12 12)%Z = relationIntersects /\ relationTo (r 0 0 9 9)%Z (r 10 0 12 12)%Z = relationSeparate.
Proof. repeat split. Qed.

(** ** C15 *)
Theorem C15_contour_bounds (T : Type) (N : NumOps T) (D : T -> Prop) (O : TotalOrder D) ps :
  good_points D ps -> ps <> [] -> let r := BoundsRectangle ps in req (fromContour (rcontour r)) r.
Proof. exact (fromContour_rcontour D O ps). Qed.
Print Assumptions C15_contour_bounds.
Theorem C15_contour_shape (r : rect R) :
  length (rcontour r) = 4%nat /\ Forall (fun s => length s = 2%nat) (rcontour r) /\
  connected (rcontour r) /\ closed_contour (rcontour r).
Proof. exact (rcontour_shape r). Qed.
Print Assumptions C15_contour_shape.
Local Open Scope R_scope.
Theorem C15_center (ps : list (point R)) : ps <> [] -> let r := BoundsRectangle ps in
  exists c, centerPoint r = Ok c /\ enclosesPoint r c = true /\
            fst c - left r = right r - fst c /\ snd c - bottom r = top r - snd c.
Proof. exact (centerPoint_enclosed ps). Qed.
Print Assumptions C15_center.
Theorem C15_fractions (ps : list (point R)) (pc : R) : ps <> [] -> 0 <= pc <= 1 -> let r := BoundsRectangle ps in
  left r <= xFromLeft r pc <= right r /\ bottom r <= yFromBottom r pc <= top r /\
  xFromLeft r 0 = left r /\ xFromLeft r 1 = right r /\ yFromBottom r 0 = bottom r /\ yFromBottom r 1 = top r.
Proof. exact (fromEdge ps pc). Qed.
Print Assumptions C15_fractions.
Theorem C15_area (ps : list (point R)) : ps <> [] -> let r := BoundsRectangle ps in
  area r = width r * height r /\ width r = right r - left r /\ height r = top r - bottom r /\
  0 <= width r /\ 0 <= height r /\ 0 <= area r.
Proof. exact (area_nonneg ps). Qed.
Print Assumptions C15_area.
Example C15_case : let r := BoundsRectangle [(1#1, 2#1); (4#1, 8#1)]%Q in
  rpoints (fromContour (rcontour r)) = [1#1; 2#1; 4#1; 8#1]%Q /\ area r = (18#1)%Q /\ centerPoint r = Ok (5#2, 5#1)%Q.
Proof. repeat split. Qed.
