(** Properties C07, C37-C47, C56, C57 and C62: evaluation, splitting, boxes, derivatives and
    normals of curves (Bezier.py). *)
From Coq Require Import List ZArith Bool Reals QArith_base Lra Lia.
From Verif Require Import Py Inst InstFloat SpecGeom SpecMatrix SpecFit SpecUtil SpecBezier SpecBounds MTransform MBounds MBezUtil MBezier MContour
  SpecCurve ProofBezier ProofBezier2 ProofBezier3 ProofBBox ProofCurve ProofRaise.
Import ListNotations.
Local Open Scope R_scope.
#[local] Existing Instance RPy.

(** ** C07 *)
Theorem C07_affine_commutes_with_get (m : MTransform.matrix R) (b : bezier R) (t : R) : affine_matrix m -> (1 <= length (cps b))%nat ->
  exists p c q, applyToSegment m (cps b) = Ok p /\ get b t = Ok c /\ applyToPoint m c = Ok q /\
    get (mkBez p (bt1 b) (bt2 b)) t = Ok q.
Proof. exact (affine_commutes m b t). Qed.
Print Assumptions C07_affine_commutes_with_get.
Example C07_case : affine_matrix [[2; 1; 0]; [-3; 5; 0]; [7; 11; 1]] /\ (1 <= length (cps (mkBez [(0, 0); (1, 4); (3, 2)] 0 1)))%nat.
Proof. split; [do 6 eexists; reflexivity | simpl; lia]. Qed.

(** ** C37 *)
Theorem C37_get_is_the_Bernstein_sum (p : list pt) (u v t : R) : (1 <= length p)%nat ->
  get (mkBez p u v) t =
  Ok (rsum (length p) (fun i => Binomial.C (length p - 1) i * t ^ i * (1 - t) ^ (length p - 1 - i) * fst (nth i p (0, 0))),
      rsum (length p) (fun i => Binomial.C (length p - 1) i * t ^ i * (1 - t) ^ (length p - 1 - i) * snd (nth i p (0, 0)))).
Proof. exact (get_sum p u v t). Qed.
Print Assumptions C37_get_is_the_Bernstein_sum.
Theorem C37_get_is_curve (b : bezier R) t : (1 <= length (cps b))%nat -> get b t = Ok (curve (cps b) t).
Proof. exact (get_ok b t). Qed.
Print Assumptions C37_get_is_curve.
Example C37_case : curve [(0, 0); (1, 2); (2, 0)] (1 / 2) = (1, 1) /\ (1 <= length [(0, 0); (1, 2); (2, 0)])%nat.
Proof. rewrite curve3. cbn [fst snd length]. split; [f_equal; lra | lia]. Qed.

(** ** C38 *)
Theorem C38_ends_any_number_type (T : Type) (N : NumOps T) (b : bezier T) : neqb (T := T) (nofZ 0) (nofZ 0) = true ->
  neqb (T := T) (nofZ 1) (nofZ 0) = false -> neqb (T := T) (nofZ 1) (nofZ 1) = true ->
  get b (nofZ 0) = bstart b /\ get b (nofZ 1) = bend b.
Proof. exact (get_ends b). Qed.
Print Assumptions C38_ends_any_number_type.
Theorem C38_ends_real (b : bezier R) : get b 0 = bstart b /\ get b 1 = bend b.
Proof. exact (get_ends_R b). Qed.
Print Assumptions C38_ends_real.
(** binary64, NaN and infinities as coordinates included. *)
Theorem C38_ends_float (b : bezier b64) : get b (nofZ 0) = bstart b /\ get b (nofZ 1) = bend b.
Proof. exact (get_ends_F b). Qed.
Print Assumptions C38_ends_float.
Theorem C38_ends_rational (b : bezier Q) : get b (nofZ 0) = bstart b /\ get b (nofZ 1) = bend b.
Proof. exact (get_ends_Q b). Qed.
Print Assumptions C38_ends_rational.
Example C38_case : bstart (mkBez [(3, 1); (4, 1); (5, 9)] 0 1) = Ok (3, 1) /\ bend (mkBez [(3, 1); (4, 1); (5, 9)] 0 1) = Ok (5, 9).
Proof. split; reflexivity. Qed.

(** ** C39 *)
Theorem C39_split_restricts (b : bezier R) t : (length (cps b) = 3 \/ length (cps b) = 4)%nat ->
  exists l r, split1 b t = Ok (l, r, hull b t) /\ order l = order b /\ order r = order b /\
    (forall s, get l s = get b (t * s)) /\ (forall s, get r s = get b (t + (1 - t) * s)) /\
    bstart l = bstart b /\ bend r = bend b /\ bend l = bstart r /\ bstart r = get b t.
Proof. exact (split_get b t). Qed.
Print Assumptions C39_split_restricts.
Theorem C39_line_raises (b : bezier R) t : length (cps b) = 2%nat -> split1 b t = Err IndexError.
Proof. exact (split1_line b t). Qed.
Print Assumptions C39_line_raises.
Example C39_case : (length (cps (mkBez [(0, 0); (1, 2); (4, 2); (5, 0)] 0 1)) = 3 \/ length (cps (mkBez [(0, 0); (1, 2); (4, 2); (5, 0)] 0 1)) = 4)%nat.
Proof. right; reflexivity. Qed.

(** ** C40 *)
Theorem C40_split_extracts (b : bezier R) t1 t2 : (length (cps b) = 3 \/ length (cps b) = 4)%nat -> t2 <> 0 -> (t1 <> 1 \/ t2 = 1) ->
  exists c, split2 b t1 t2 = Ok (SCurve c) /\ order c = order b /\ forall s, get c s = get b (t1 + s * (t2 - t1)).
Proof. exact (split2_get b t1 t2). Qed.
Print Assumptions C40_split_extracts.
(** Outside that domain: a second argument 0 is ignored, a first argument 1 divides by zero. *)
Theorem C40_outside (b : bezier R) t1 t2 : (length (cps b) = 3 \/ length (cps b) = 4)%nat ->
  (t2 = 0 -> exists l r, split2 b t1 t2 = Ok (STriple l r (hull b t1))) /\
  (t1 = 1 -> t2 <> 0 -> t2 <> 1 -> split2 b t1 t2 = Err ZeroDivisionError).
Proof. exact (split2_outside b t1 t2). Qed.
Print Assumptions C40_outside.
Example C40_case : (3 / 4 <> 0) /\ (1 / 4 <> 1 \/ 3 / 4 = 1) /\ get (mkBez [(0, 0); (1, 2); (2, 0)] 0 1) (1 / 4 + 1 / 2 * (3 / 4 - 1 / 4)) = Ok (1, 1).
Proof. split; [lra|]. split; [left; lra|]. rewrite get_ok by (simpl; lia). cbn [cps]. rewrite curve3. apply Ok_pair; cbn [fst snd]; lra. Qed.

(** ** C41 *)
Theorem C41_intervals_after_any_history (p : list pt) (b o : bezier R) : (length p = 3 \/ length p = 4)%nat -> newBezier p = Ok o -> descends o b ->
  forall s, get b s = get o (bt1 b + s * (bt2 b - bt1 b)).
Proof. exact (descends_get p b o). Qed.
Print Assumptions C41_intervals_after_any_history.
(** The right half of the left half of a parabola has interval [1/4, 1/2]. *)
Example C41_case : exists o l r q l' r' q', newBezier [(0, 0); (1, 2); (2, 0)] = Ok o /\ split1 o (1 / 2) = Ok (l, r, q) /\
  split1 l (1 / 2) = Ok (l', r', q') /\ descends o r' /\ bt1 r' = 1 / 4 /\ bt2 r' = 1 / 2.
Proof.
  destruct (split1_ok (mkBez [(0, 0); (1, 2); (2, 0)] 0 1) (1 / 2) (or_introl eq_refl)) as (l & r & E & Ll & _ & _ & _ & _ & _ & _ & _ & A1 & A2 & _).
  destruct (split1_ok l (1 / 2)) as (l' & r' & E' & _ & _ & _ & _ & _ & _ & _ & _ & B1 & B2 & B3 & B4); [rewrite Ll; left; reflexivity|].
  exists (mkBez [(0, 0); (1, 2); (2, 0)] 0 1), l, r, (hull (mkBez [(0, 0); (1, 2); (2, 0)] 0 1) (1 / 2)), l', r', (hull l (1 / 2)).
  split; [rewrite newBezier_ok by (simpl; lia); reflexivity|]. split; [exact E|]. split; [exact E'|].
  split; [exact (d_right _ _ _ _ _ _ (d_left _ _ _ _ _ _ (d_self _) E) E')|]. cbn [bt1 bt2] in *. lra.
Qed.

(** ** C42 *)
Theorem C42_boxes_enclose (b : bezier R) t c : (2 <= length (cps b) <= 4)%nat -> 0 <= t <= 1 -> get b t = Ok c ->
  exists x0 x1 y0 y1 r, bbox b = Ok ((x0, x1), (y0, y1)) /\ boundsRectangle b = Ok r /\
    x0 <= fst c <= x1 /\ y0 <= snd c <= y1 /\ enclosesPoint r c = true.
Proof. exact (bbox_encloses round15 b t c). Qed.
Print Assumptions C42_boxes_enclose.
Example C42_case : get (mkBez [(0, 0); (1, 2); (2, 0)] 0 1) (1 / 2) = Ok (1, 1) /\ 0 <= 1 / 2 <= 1.
Proof. split; [|lra]. rewrite get_ok by (simpl; lia). cbn [cps]. rewrite curve3. apply Ok_pair; cbn [fst snd]; lra. Qed.

(** ** C43 *)
Theorem C43_bbox_tight (b : bezier R) : (2 <= length (cps b) <= 4)%nat -> (forall q, In q (cps b) -> safe_point q) ->
  exists x0 x1 y0 y1, bbox b = Ok ((x0, x1), (y0, y1)) /\
    (exists t c, 0 <= t <= 1 /\ get b t = Ok c /\ fst c = x0) /\ (exists t c, 0 <= t <= 1 /\ get b t = Ok c /\ fst c = x1) /\
    (exists t c, 0 <= t <= 1 /\ get b t = Ok c /\ snd c = y0) /\ (exists t c, 0 <= t <= 1 /\ get b t = Ok c /\ snd c = y1).
Proof. exact (bbox_tight round15 b). Qed.
Print Assumptions C43_bbox_tight.
Theorem C43_boundsRectangle_tight (b : bezier R) : (2 <= length (cps b) <= 4)%nat ->
  (forall q, In q (cps b) -> Rabs (fst q) <= 32768 /\ Rabs (snd q) <= 32768) ->
  exists r, boundsRectangle b = Ok r /\
    (exists t c, 0 <= t <= 1 /\ get b t = Ok c /\ fst c = left r) /\ (exists t c, 0 <= t <= 1 /\ get b t = Ok c /\ fst c = right r) /\
    (exists t c, 0 <= t <= 1 /\ get b t = Ok c /\ snd c = bottom r) /\ (exists t c, 0 <= t <= 1 /\ get b t = Ok c /\ snd c = top r).
Proof. exact (rect_tight round15 b). Qed.
Print Assumptions C43_boundsRectangle_tight.
Example C43_case : forall q, In q [(0, 0); (100, -2000); (200, 32768)] -> safe_point q /\ Rabs (fst q) <= 32768 /\ Rabs (snd q) <= 32768.
Proof. intros q [<-|[<-|[<-|[]]]]; unfold safe_point; cbn [fst snd]; repeat split; apply Rabs_le; lra. Qed.

(** ** C44 *)
Theorem C44_hull_is_the_de_Casteljau_triangle (b : bezier R) t : (1 <= length (cps b))%nat ->
  exists lv : list (list pt), hull b t = concat lv /\ length lv = length (cps b) /\ nth 0 lv [] = cps b /\
    (forall k, (k < length (cps b))%nat -> length (nth k lv []) = (length (cps b) - k)%nat) /\
    (forall k i, (S k < length (cps b))%nat -> (i < length (nth (S k) lv []))%nat ->
       nth i (nth (S k) lv []) (0, 0) = along (nth i (nth k lv []) (0, 0)) (nth (S i) (nth k lv []) (0, 0)) t) /\
    (2 * length (hull b t) = length (cps b) * (length (cps b) + 1))%nat /\
    last (hull b t) (0, 0) = curve (cps b) t.
Proof. exact (hull_full b t). Qed.
Print Assumptions C44_hull_is_the_de_Casteljau_triangle.
Example C44_case : hull (mkBez [(0, 0); (2, 4); (4, 0)] 0 1) (1 / 2) = [(0, 0); (2, 4); (4, 0); (1, 2); (3, 2); (2, 2)].
Proof. unfold hull, lerp. cbn. numRg. repeat first [lra | progress f_equal]. Qed.

(** ** C45 *)
Theorem C45_in_control_box (b : bezier R) t c xlo xhi ylo yhi : 0 <= t <= 1 -> get b t = Ok c ->
  (forall q, In q (cps b) -> xlo <= fst q <= xhi /\ ylo <= snd q <= yhi) ->
  xlo <= fst c <= xhi /\ ylo <= snd c <= yhi.
Proof. exact (get_in_box b t c xlo xhi ylo yhi). Qed.
Print Assumptions C45_in_control_box.
Theorem C45_in_skeletonBounds (b : bezier R) t c : 0 <= t <= 1 -> get b t = Ok c -> enclosesPoint (skeletonBounds b) c = true.
Proof. exact (get_in_skeleton b t c). Qed.
Print Assumptions C45_in_skeletonBounds.
Theorem C45_skeletonBounds_room (b : bezier R) xlo xhi ylo yhi : (forall q, In q (cps b) -> xlo <= fst q <= xhi /\ ylo <= snd q <= yhi) ->
  In xlo (map fst (cps b)) -> In xhi (map fst (cps b)) -> In ylo (map snd (cps b)) -> In yhi (map snd (cps b)) ->
  -32768 <= xlo -> xhi <= 32768 -> -32768 <= ylo -> yhi <= 32768 -> skeletonBounds b = mkRect xlo (xhi + 40) yhi ylo.
Proof. exact (skeleton_room b xlo xhi ylo yhi). Qed.
Print Assumptions C45_skeletonBounds_room.
(** Order 4. *)
Example C45_case : let b := mkBez [(0, 0); (1, 5); (2, -3); (4, 1); (6, 0)] 0 1 in
  (exists c, get b (1 / 3) = Ok c) /\ forall q, In q (cps b) -> 0 <= fst q <= 6 /\ -3 <= snd q <= 5.
Proof.
  split; [eexists; apply get_ok; simpl; lia|]. intros q [<-|[<-|[<-|[<-|[<-|[]]]]]]; cbn [fst snd]; lra.
Qed.

(** ** C46 *)
Theorem C46_dcPoints_are_derivatives (b : bezier R) : (1 <= length (cps b))%nat ->
  length (dcPoints b) = order b /\
  forall k, (k < order b)%nat ->
    length (nth k (dcPoints b) []) = (order b - k)%nat /\
    forall t, is_deriv (curve (nth k (cps b :: dcPoints b) [])) t (curve (nth k (dcPoints b) []) t).
Proof. exact (dcPoints_spec b). Qed.
Print Assumptions C46_dcPoints_are_derivatives.
Theorem C46_derivative (b : bezier R) t : (length (cps b) = 3 \/ length (cps b) = 4)%nat ->
  exists d, derivative b t = Ok d /\ is_deriv (curve (cps b)) t d.
Proof. exact (derivative_ok b t). Qed.
Print Assumptions C46_derivative.
Theorem C46_line_raises (b : bezier R) t : length (cps b) = 2%nat -> derivative b t = Err IndexError.
Proof. exact (derivative_line b t). Qed.
Print Assumptions C46_line_raises.
Example C46_case : dcPoints (mkBez [(0, 0); (1, 2); (4, 2)] 0 1) = [[(2, 4); (6, 0)]; [(4, -4)]].
Proof. cbv [dcPoints dcPointsFrom dcLevel diffStep length cps fst snd Z.of_nat Pos.of_succ_nat Pos.succ]; numRg. repeat first [lra | progress f_equal]. Qed.

(** ** C47 *)
Theorem C47_direction (p : list pt) (b : bezier R) d : (2 <= length p <= 4)%nat -> newBezier p = Ok b -> computeDirection p = Ok d ->
  forall s t c e, 0 <= s -> s <= t -> t <= 1 -> get b s = Ok c -> get b t = Ok e ->
  match d with
  | dir_up => snd c <= snd e
  | dir_down => snd e <= snd c
  | dir_flat => snd c = snd e
  | dir_mixed => (3 <= length p)%nat
  end.
Proof. exact (direction_get p b d). Qed.
Print Assumptions C47_direction.
Theorem C47_direction_of_a_line (a b : pt) : exists d, computeDirection [a; b] = Ok d /\
  (d = dir_up <-> snd a < snd b) /\ (d = dir_down <-> snd b < snd a) /\ (d = dir_flat <-> snd a = snd b).
Proof. exact (direction_line a b). Qed.
Print Assumptions C47_direction_of_a_line.
Example C47_case : computeDirection [(0, 3); (5, 2); (1, 2); (0, -1)] = Ok dir_down /\ computeDirection [(0, 0); (1, 1); (0, 1)] = Ok dir_up.
Proof. cbn. numRg. split; rcases; try reflexivity; lra. Qed.

(** ** C56: raiseOrder.  The full claim, false: *)
Theorem C56_raiseOrder_refuted : exists b c t, newBezier [(0, 0); (1, 0)] = Ok b /\ raiseOrder b = Ok c /\
  order c <> S (order b) /\ get c t <> get b t.
Proof. exact raise_refuted. Qed.
Print Assumptions C56_raiseOrder_refuted.
(** What does hold: only the ends are kept, and the order goes up by two. *)
Theorem C56_raiseOrder_partial (b : bezier R) : (2 <= length (cps b))%nat ->
  exists c, raiseOrder b = Ok c /\ order c = (order b + 2)%nat /\ bstart c = bstart b /\ bend c = bend b.
Proof. exact (raiseOrder_shape b). Qed.
Print Assumptions C56_raiseOrder_partial.
(** The result is the control polygon of order n+1 of the same curve, with its first point doubled. *)
Theorem C56_raised_polygon_partial (b : bezier R) : (2 <= length (cps b))%nat ->
  exists c e, raiseOrder b = Ok c /\ length e = S (length (cps b)) /\ (forall t, curve e t = curve (cps b) t) /\ cps c = nth 0 e (0, 0) :: e.
Proof.
  intros L. exists (mkBez (nth 0 (raised (cps b)) (0, 0) :: raised (cps b)) 0 1), (raised (cps b)). split; [exact (raiseOrder_points b L)|].
  split; [unfold raised; now rewrite map_length, seq_length|]. split; [|reflexivity]. intros t. apply raised_curve. lia.
Qed.
Print Assumptions C56_raised_polygon_partial.
(** So the curve is kept exactly when all control points coincide. *)
Theorem C56_curve_kept_partial (b c : bezier R) : (2 <= length (cps b))%nat -> raiseOrder b = Ok c ->
  ((forall t, get c t = get b t) <-> forall q, In q (cps b) -> q = nth 0 (cps b) (0, 0)).
Proof.
  intros L E. rewrite <- (raise_keeps_iff b c L E). assert (Lc : (1 <= length (cps c))%nat) by (rewrite raiseOrder_points in E by exact L; apply (f_equal (fun r => match r with Ok x => length (cps x) | Err _ => 0%nat end)) in E; cbn in E; lia).
  split; intros H t; specialize (H t).
  - rewrite !get_ok in H by lia. congruence.
  - rewrite !get_ok by lia. now rewrite H.
Qed.
Print Assumptions C56_curve_kept_partial.
Example C56_case : let b := mkBez [(0, 0); (3, 6); (6, 0)] 0 1 in raiseOrder b = Ok (mkBez [(0, 0); (0, 0); (2, 4); (4, 4); (6, 0)] 0 1) /\ ~ (forall q, In q (cps b) -> q = nth 0 (cps b) (0, 0)).
Proof.
  split.
  - unfold raiseOrder, raisedPoint. cbn -[Rmult Rplus newBezier]. numRg. rewrite newBezier_ok by (cbn; lia). numRg. repeat first [lra | progress f_equal].
  - intros H. specialize (H (3, 6) (or_intror (or_introl eq_refl))). injection H. lra.
Qed.

(** ** C57 *)
Theorem C57_normal (b : bezier R) t : (length (cps b) = 3 \/ length (cps b) = 4)%nat ->
  exists d, is_deriv (curve (cps b)) t d /\
    (d <> (0, 0) -> exists n, normal b t = Ok n /\ vdot n n = 1 /\ vdot n d = 0 /\ 0 < vcross d n) /\
    (d = (0, 0) -> normal b t = Err ZeroDivisionError).
Proof. exact (normal_spec round15 b t). Qed.
Print Assumptions C57_normal.
Theorem C57_offset (fuel : nat) (b : bezier R) (t k : R) (n : pt) : (2 <= length (cps b))%nat -> k <> 0 -> normal b t = Ok n -> vdot n n = 1 ->
  exists c q, get b t = Ok c /\ offset fuel b t (Some k) = Ok (OPoints c n q) /\ q = vadd c (vscale k n) /\ vdist c q = Rabs k.
Proof. exact (offset_spec round15 fuel b t k n). Qed.
Print Assumptions C57_offset.
Example C57_case : let b := mkBez [(0, 0); (3, 4); (6, 8)] 0 1 in derivative b (1 / 3) = Ok (6, 8) /\ normal b (1 / 3) = Ok (- (8) / 10, 6 / 10).
Proof.
  intros b. assert (D : derivative b (1 / 3) = Ok (6, 8)) by (unfold b; cbn; numRg; apply Ok_pair; lra).
  split; [exact D|]. destruct (normal_of round15 b (1 / 3) (6, 8) D) as [_ E]; [intros K; injection K; lra|].
  etransitivity; [exact E|]. cbn [fst snd]. replace (6 * 6 + 8 * 8) with (10 * 10) by lra. rewrite sqrt_square by lra. reflexivity.
Qed.

(** ** C62 *)
Theorem C62_ABC (b : bezier R) (t : R) : (length (cps b) = 3 \/ length (cps b) = 4)%nat -> 0 < t < 1 ->
  exists A B c ratio h p0 pn, getABC b t = Ok (A, B, c, ratio, h) /\ get b t = Ok B /\ bstart b = Ok p0 /\ bend b = Ok pn /\
    h = hull b t /\ (c = None <-> parallel A B p0 pn) /\
    forall C, c = Some C -> on_line p0 pn C /\ vsub B C = vscale ratio (vsub A B).
Proof. exact (getABC_spec b t). Qed.
Print Assumptions C62_ABC.
Example C62_case : let b := mkBez [(0, 0); (1, 2); (2, 0)] 0 1 in lli4 (1, 2) (1, 1) (0, 0) (2, 0) = Some (1, 0) /\
  get b (1 / 2) = Ok (1, 1) /\ ~ parallel (1, 2) (1, 1) (0, 0) (2, 0).
Proof.
  intros b. split; [|split].
  - unfold lli4, lli8; cbn [fst snd]; numRg. rcases; [lra|]. refine (f_equal (@Some pt) _). apply f_equal2; lra.
  - unfold b. rewrite get_ok by (simpl; lia). cbn [cps]. rewrite curve3. apply Ok_pair; cbn [fst snd]; lra.
  - unfold parallel, vcross, vsub; cbn [fst snd]. lra.
Qed.
