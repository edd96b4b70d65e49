(** Moving and resizing a drawing: intersections, alignment, offset curves, lengths. *)
From Coq Require Import List ZArith Bool Reals Lra Lia.
From Verif Require Import Py Inst SpecGeom SpecBezier SpecOrder SpecBounds SpecCurve SpecMove
  MTransform MBounds MBezUtil MPathUtil MBezier MTables MBezierObj ProofBounds ProofBezier ProofBezier2 ProofBezier3 ProofBBox ProofInter ProofReduce
  ProofTransform ProofMisc ProofSelf ProofLut ProofOffset ProofMove.
Import ListNotations.
Local Open Scope R_scope.

Section Place2.
  Context (rnd : R -> R).
  #[local] Hint Extern 0 (TrigOps R) => exact (RTrig rnd) : typeclass_instances.
  Context (k : R) (v : R * R) (K : 0 < k).
  Let mv : pt -> pt := placed k v.
  Let mvb : bezier R -> bezier R := placed_curve k v.
  Let sc (p : pt) : pt := (k * fst p, k * snd p).

  (** ** Curves that stay in the range of the boxes, before and after *)
  Definition stays (p : list pt) : Prop := forall t, 0 <= t <= 1 -> Rabs (fst (curve p t)) <= 32768 /\ Rabs (snd (curve p t)) <= 32768.
  Definition good (b : bezier R) : Prop := (length (cps b) = 3 \/ length (cps b) = 4)%nat /\ stays (cps b) /\ stays (map mv (cps b)).
  Lemma stays_box p : p <> [] -> in_sentinels p -> stays p.
  Proof.
    intros N S t T. destruct (curve_in_box p t (-32768) 32768 (-32768) 32768 N T) as [X Y].
    { intros q Q. destruct (S q Q) as [A B]. apply Rabs_inv in A, B. lra. }
    split; apply Rabs_le; lra.
  Qed.
  Lemma good_part b c a z : good b -> length (cps c) = length (cps b) -> 0 <= a -> a <= z -> z <= 1 ->
    (forall u, curve (cps c) u = curve (cps b) (a + u * (z - a))) -> good c.
  Proof.
    intros (L & S & S') Lc A AZ Z C. assert (I : forall t, 0 <= t <= 1 -> 0 <= a + t * (z - a) <= 1) by (intros t T; nra).
    split; [now rewrite Lc|]. split.
    - intros t T. rewrite C. apply S, I, T.
    - intros t T. unfold mv in *. rewrite curve_mv by (exact K || lia). rewrite C. rewrite <- (curve_mv k v) by (exact K || lia). apply S', I, T.
  Qed.
  Lemma good_reaches b : good b -> reaches b /\ reaches (mvb b).
  Proof. intros (L & S & S'). split; exists 0; (split; [lra|]); [apply S|apply S']; lra. Qed.
  Lemma good_box b : good b -> boundsRectangle (mvb b) = answer (placed_rect k v) (boundsRectangle b).
  Proof. intros G. destruct (good_reaches b G). apply bounds_mv; auto. destruct G as (L & _). lia. Qed.
  Lemma good_halves b : good b -> exists l r, split1 b (1 / 2) = Ok (l, r, hull b (1 / 2)) /\ good l /\ good r.
  Proof.
    intros G. destruct (subc_split b b 0 1 (subc_self b (proj1 G))) as (l & r & E & Sl & Sr). exists l, r. split; [exact E|].
    destruct Sl as (_ & Ll & A1 & A2 & C & _), Sr as (_ & Lr & B1 & B2 & D & _).
    split; [apply (good_part b l 0 ((0 + 1) / 2))|apply (good_part b r ((0 + 1) / 2) 1)]; auto; lra.
  Qed.
  Lemma tiles_good o a z l : good (mkBez o 0 1) -> 0 <= a -> z <= 1 -> tiles o a z l -> a <= z /\ Forall good l.
  Proof.
    intros G. revert a. induction l as [|s l IH]; intros a A Z T; cbn [tiles] in T; [split; [lra|constructor]|].
    destruct T as (E1 & E2 & Ls & C & T). destruct (IH (bt2 s)) as [I1 I2]; auto; [lra|]. split; [lra|]. constructor; auto.
    apply (good_part (mkBez o 0 1) s a (bt2 s)); auto; lra.
  Qed.
  Lemma good_reduce fuel b l : good b -> (102 <= fuel)%nat -> reduce fuel b = Ok l -> Forall good l.
  Proof.
    intros G F E. destruct (reduce_spec' rnd b fuel (proj1 G) F) as [[E' _]|(l' & E' & [->|[T _]])]; rewrite E in E'; [discriminate| |].
    - injection E' as ->. constructor.
    - injection E' as <-. eapply tiles_good; [|..|exact T]; [exact G|lra|lra].
  Qed.
  (** ** Intersections *)
  Lemma pmin_mv w a b : @pmin R _ (k * a + w) (k * b + w) = k * pmin a b + w.
  Proof. unfold pmin. numRg. rewrite Rltb_place by exact K. now destruct (Rltb b a). Qed.
  Lemma pmax_mv w a b : @pmax R _ (k * a + w) (k * b + w) = k * pmax a b + w.
  Proof. unfold pmax. numRg. rewrite Rltb_place by exact K. now destruct (Rltb a b). Qed.
  Lemma overlaps_mv a b : good a -> good b -> overlaps (mvb a) (mvb b) = overlaps a b.
  Proof.
    intros A B. unfold overlaps. rewrite (good_box a A), (good_box b B), bind_answer. apply bind_ext. intros r1 _. rewrite bind_answer. apply bind_ext. intros r2 _.
    f_equal. unfold intersection, placed_rect. cbn [left right top bottom]. rewrite !pmin_mv, !pmax_mv. numRg. rewrite !Rltb_place by exact K. now destruct (_ || _).
  Qed.
  Definition both (pr : bezier R * bezier R) : bezier R * bezier R := (mvb (fst pr), mvb (snd pr)).
  Lemma pair_mv th : forall fuel c1 c2, good c1 -> good c2 -> pairiteration fuel (k * th) (mvb c1) (mvb c2) = pairiteration fuel th c1 c2.
  Proof.
    induction fuel as [|f IH]; intros c1 c2 G1 G2; [reflexivity|]. cbn [pairiteration]. rewrite (good_box c1 G1), (good_box c2 G2), bind_answer.
    apply bind_ext. intros r1 _. rewrite bind_answer. apply bind_ext. intros r2 _.
    assert (S : forall r, nadd (height (placed_rect k v r)) (width (placed_rect k v r)) = k * (height r + width r)).
    { intros r. unfold height, width, placed_rect. cbn [left right top bottom]. numRg. ring. }
    rewrite !S. numRg. rewrite !Rltb_scale by exact K. destruct (_ && _); [reflexivity|].
    change (nlit 1 2) with (1 / 2). unfold mvb. rewrite !split1_mv by exact K.
    destruct (good_halves c1 G1) as (l1 & q1 & E1 & Gl1 & Gr1). destruct (good_halves c2 G2) as (l2 & q2 & E2 & Gl2 & Gr2).
    rewrite E1, E2. cbn [answer bind pieces].
    change [(placed_curve k v l1, placed_curve k v l2); (placed_curve k v l1, placed_curve k v q2); (placed_curve k v q1, placed_curve k v q2); (placed_curve k v q1, placed_curve k v l2)]
      with (map both [(l1, l2); (l1, q2); (q1, q2); (q1, l2)]).
    assert (G : forall a, In a [(l1, l2); (l1, q2); (q1, q2); (q1, l2)] -> good (fst a) /\ good (snd a)).
    { intros a [<-|[<-|[<-|[<-|[]]]]]; cbn [fst snd]; auto. }
    rewrite (filterM_answer both (fun pr => overlaps (fst pr) (snd pr))) by (intros a Ha; apply overlaps_mv; apply G in Ha; tauto).
    destruct (filterM _ [(l1, l2); (l1, q2); (q1, q2); (q1, l2)]) as [ps|] eqn:Ef; cbn [answer bind]; [|reflexivity]. rewrite map_length.
    destruct (Nat.eqb (length ps) 0); [reflexivity|].
    rewrite (mapM_answer both (fun x => x) (fun pr => pairiteration f th (fst pr) (snd pr))).
    - rewrite (answer_ext _ (fun x => x)) by apply map_id. now rewrite answer_id.
    - intros a Ha. rewrite answer_id. apply (filterM_Ok _ _ _ Ef a) in Ha. destruct Ha as [Ha _]. apply G in Ha. apply IH; tauto.
  Qed.
  Lemma prod_both : forall c1 c2, list_prod (map mvb c1) (map mvb c2) = map both (list_prod c1 c2).
  Proof.
    induction c1 as [|a c1 IH]; intros c2; cbn [map list_prod]; [reflexivity|]. rewrite map_app, IH. f_equal. rewrite !map_map. reflexivity.
  Qed.
  Lemma curveIntersects_mv fuel th c1 c2 : Forall good c1 -> Forall good c2 ->
    curveIntersects fuel (k * th) (map mvb c1) (map mvb c2) = curveIntersects fuel th c1 c2.
  Proof.
    intros F1 F2. rewrite Forall_forall in F1, F2. unfold curveIntersects. rewrite prod_both.
    assert (G : forall a, In a (list_prod c1 c2) -> good (fst a) /\ good (snd a)).
    { intros [x y] H. apply in_prod_iff in H. cbn [fst snd]. split; [apply F1|apply F2]; tauto. }
    rewrite (filterM_answer both (fun pr => overlaps (fst pr) (snd pr))) by (intros a Ha; apply overlaps_mv; apply G in Ha; tauto).
    destruct (filterM _ (list_prod c1 c2)) as [ps|] eqn:Ef; cbn [answer bind]; [|reflexivity].
    rewrite (mapM_answer both (fun x => x) (fun pr => pairiteration fuel th (fst pr) (snd pr))).
    - rewrite (answer_ext _ (fun x => x)) by apply map_id. now rewrite answer_id.
    - intros a Ha. rewrite answer_id. apply (filterM_Ok _ _ _ Ef a) in Ha. destruct Ha as [Ha _]. apply G in Ha. apply pair_mv; tauto.
  Qed.
  Lemma Forall_skip {A} (P : A -> Prop) n l : Forall P l -> Forall P (skipn n l).
  Proof. intros F. rewrite Forall_forall in *. intros x Hx. apply F. rewrite <- (firstn_skipn n l). apply in_or_app. now right. Qed.
  Lemma Forall_first {A} (P : A -> Prop) n l : Forall P l -> Forall P (firstn n l).
  Proof. intros F. rewrite Forall_forall in *. intros x Hx. apply F. rewrite <- (firstn_skipn n l). apply in_or_app. now left. Qed.
  Theorem intersects_mv rf f b oc th : (102 <= rf)%nat -> good b -> (forall c, oc = Some c -> good c) ->
    intersects rf f (mvb b) (option_map mvb oc) (k * th) = intersects rf f b oc th.
  Proof.
    intros F G Gc. unfold intersects. destruct oc as [c|]; cbn [option_map].
    - unfold mvb. rewrite !reduce_mv by exact K. rewrite bind_answer. apply bind_ext. intros l1 E1. rewrite bind_answer. apply bind_ext. intros l2 E2.
      apply curveIntersects_mv; [exact (good_reduce rf b l1 G F E1)|exact (good_reduce rf c l2 (Gc c eq_refl) F E2)].
    - unfold selfIntersects. unfold mvb. rewrite reduce_mv by exact K. rewrite bind_answer. apply bind_ext. intros l E.
      pose proof (good_reduce rf b l G F E) as Gl. rewrite map_length. f_equal. apply mapM_same. intros i _.
      rewrite !skipn_map, firstn_map. apply curveIntersects_mv; [apply Forall_first, Forall_skip, Gl|apply Forall_skip, Gl].
  Qed.
  (** ** Alignment *)
  Lemma slope_mv s : rawSlopeAngle (map mv s) = rawSlopeAngle s.
  Proof.
    unfold rawSlopeAngle, getDeltas, endPoints. rewrite idx_answer, idx_last_answer. destruct (idx s 0) as [a|]; cbn [answer bind]; [|reflexivity].
    destruct (idx_last s) as [z|]; cbn [answer bind]; [|reflexivity]. f_equal. f_equal. unfold mv, placed. numRg. cbn [fst snd].
    etransitivity; [|apply (atan2_scale k _ _ K)]. f_equal; ring.
  Qed.
  Lemma mapM_ok {A B} (f : A -> res B) (g : A -> B) l : (forall a, f a = Ok (g a)) -> mapM f l = Ok (map g l).
  Proof. intros E. induction l as [|a l IH]; cbn [mapM map]; [reflexivity|]. rewrite E. cbn [bind]. now rewrite IH. Qed.
  Lemma align_mv p s : alignPoints (map mv p) (map mv s) = answer (map sc) (alignPoints p s).
  Proof.
    unfold alignPoints. rewrite slope_mv, answer_bind. apply bind_ext. intros a _. rewrite idx_answer, bind_answer, answer_bind. apply bind_ext. intros s0 _.
    destruct (moveAndRotate_raw rnd (mv s0) (0, 0) (- a)) as (t & E & A). destruct (moveAndRotate_raw rnd s0 (0, 0) (- a)) as (t' & E' & A').
    numRg. rewrite E, E'. cbn [bind]. unfold applyToSegment. rewrite (mapM_ok _ _ _ A), (mapM_ok _ _ _ A'). cbn [answer]. f_equal.
    rewrite !map_map. apply map_ext. intros [x y]. unfold turn15, vadd, vsub, sc, mv, placed. cbn [fst snd]. f_equal; ring.
  Qed.
  Lemma clockwise_mv p : isClockwise (map mv p) = isClockwise p.
  Proof.
    unfold isClockwise. rewrite idx_answer, idx_last_answer. destruct (idx p 0) as [a|]; cbn [answer bind]; [|reflexivity].
    destruct (idx_last p) as [z|]; cbn [answer bind]; [|reflexivity]. rewrite idx_answer. destruct (idx p 1) as [q|]; cbn [answer bind]; [|reflexivity].
    unfold mv. now rewrite angle_mv.
  Qed.
  (** ** Lines *)
  Lemma lli4_mv a b c d : lli4 (mv a) (mv b) (mv c) (mv d) = option_map mv (lli4 a b c d).
  Proof.
    destruct a as [x1 y1], b as [x2 y2], c as [x3 y3], d as [x4 y4]. unfold lli4, lli8, mv, placed. numRg. cbn [fst snd].
    replace (_ - _) with (k * k * ((x1 - x2) * (y3 - y4) - (y1 - y2) * (x3 - x4))) by ring. rewrite Reqb_scale0 by nra.
    destruct (Reqb_spec ((x1 - x2) * (y3 - y4) - (y1 - y2) * (x3 - x4)) 0) as [E|E]; cbn [option_map]; [reflexivity|].
    refine (f_equal2 (fun x y => Some (x, y)) _ _); cbn [fst snd]; field; split; auto; lra.
  Qed.
  Lemma lli_mv a b : lli (map mv a) (map mv b) = answer (option_map mv) (lli a b).
  Proof.
    unfold lli. rewrite !idx_answer. repeat (rewrite bind_answer, answer_bind; apply bind_ext; intros ? _). cbn [answer]. now rewrite lli4_mv.
  Qed.
  (** ** Offsets *)
  Lemma offsetPoint_mv b t d : offsetPoint (mvb b) t (k * d) = answer (fun x => let '(c, n, p) := x in (mv c, n, mv p)) (offsetPoint b t d).
  Proof.
    unfold offsetPoint, mvb. rewrite get_mv by exact K. rewrite normal_mv by exact K. rewrite bind_answer, answer_bind. apply bind_ext. intros c _. rewrite answer_bind. apply bind_ext. intros n _.
    cbn [answer]. f_equal. f_equal. unfold mv, placed. numRg. cbn [fst snd]. f_equal; ring.
  Qed.
  Lemma offset10_mv b t : offsetPoint (mvb b) t 10 = bind (offsetPoint b t 10) (fun x => let '(c, n, _) := x in Ok (mv c, n, (fst (mv c) + fst n * 10, snd (mv c) + snd n * 10))).
  Proof.
    unfold offsetPoint, mvb. rewrite get_mv by exact K. rewrite normal_mv by exact K. destruct (get b t) as [c|]; cbn [answer bind]; [|reflexivity].
    now destruct (normal b t).
  Qed.
  Lemma offset10_form b t x : offsetPoint b t 10 = Ok x -> snd x = (fst (fst (fst x)) + fst (snd (fst x)) * 10, snd (fst (fst x)) + snd (snd (fst x)) * 10).
  Proof.
    unfold offsetPoint. destruct (get b t) as [c|]; cbn [bind]; [|discriminate]. destruct (normal b t) as [n|]; cbn [bind]; [|discriminate]. intros E. injection E as <-. reflexivity.
  Qed.
  Lemma origin_mv c0 n0 c1 n1 :
    scaleOrigin (mv c0, n0, (fst (mv c0) + fst n0 * 10, snd (mv c0) + snd n0 * 10)) (mv c1, n1, (fst (mv c1) + fst n1 * 10, snd (mv c1) + snd n1 * 10)) =
    answer mv (scaleOrigin (c0, n0, (fst c0 + fst n0 * 10, snd c0 + snd n0 * 10)) (c1, n1, (fst c1 + fst n1 * 10, snd c1 + snd n1 * 10))).
  Proof.
    destruct c0 as [x0 y0], n0 as [p0 q0], c1 as [x1 y1], n1 as [p1 q1]. unfold scaleOrigin, lli4, lli8, mv, placed. numRg. cbn [fst snd].
    set (D := 100 * (p0 * q1 - q0 * p1)).
    match goal with |- context [if Reqb ?a 0 then None else Some (?b / ?a, ?c / ?a)] => replace a with D by (unfold D; ring) end.
    match goal with |- context [answer _ match (if Reqb ?a 0 then _ else _) with _ => _ end] => replace a with D by (unfold D; ring) end.
    destruct (Reqb_spec D 0) as [E|E]; cbn [answer]; [reflexivity|]. unfold D in *.
    refine (f_equal2 (fun x y => Ok (x, y)) _ _); cbn [fst snd]; field; lra.
  Qed.
  Lemma inner_mv' p o rc : movedInner (mv p) (mv o) (k * rc) = answer mv (movedInner p o rc).
  Proof.
    destruct p as [x y], o as [ox oy]. unfold movedInner, mv, placed. numRg. cbn [fst snd].
    replace (k * x + fst v - (k * ox + fst v)) with (k * (x - ox)) by ring. replace (k * y + snd v - (k * oy + snd v)) with (k * (y - oy)) by ring.
    rewrite hyp_sc by exact K. rewrite !ndiv_sc by exact K.
    destruct (ndiv (x - ox) _) as [a|]; cbn [bind answer]; [|reflexivity]. destruct (ndiv (y - oy) _) as [c|]; cbn [bind answer]; [|reflexivity].
    refine (f_equal2 (fun x y => Ok (x, y)) _ _); cbn [fst snd]; ring.
  Qed.
  Lemma end_mv p n d : movedEnd (mv p) n (k * d) = mv (movedEnd p n d).
  Proof. destruct p, n. unfold movedEnd, mv, placed. numRg. cbn [fst snd]. f_equal; ring. Qed.
  Theorem scaleNum_mv b d : (length (cps b) <= 4)%nat -> scaleNum (mvb b) (k * d) = answer mvb (scaleNum b d).
  Proof.
    intros L. unfold scaleNum. cbv zeta. replace (order (mvb b)) with (order b) by (symmetry; apply order_mv).
    change (cps (mvb b)) with (map mv (cps b)). rewrite clockwise_mv. rewrite answer_bind. apply bind_ext. intros cw _.
    change (@nofZ R _ 10) with 10. rewrite !offset10_mv.
    destruct (offsetPoint b (nofZ 0) 10) as [[[c0 n0] q0]|] eqn:E0; cbn [bind answer]; [|reflexivity].
    destruct (offsetPoint b (nofZ 1) 10) as [[[c1 n1] q1]|] eqn:E1; cbn [bind answer]; [|reflexivity].
    apply offset10_form in E0, E1. cbn [fst snd] in E0, E1. subst q0 q1. rewrite origin_mv, bind_answer, answer_bind. apply bind_ext. intros o _. cbn [fst snd].
    rewrite idx_answer, bind_answer, answer_bind. apply bind_ext. intros p0 _.
    rewrite idx_answer, bind_answer, answer_bind. apply bind_ext. intros pn _. rewrite !end_mv.
    replace (if cw then k * d else nopp (k * d)) with (k * (if cw then d else nopp d)) by (numRg; destruct cw; ring).
    rewrite idx_answer, bind_answer, answer_bind. apply bind_ext. intros p1 _. rewrite inner_mv', bind_answer, answer_bind. apply bind_ext. intros m1 _.
    destruct (Nat.eqb (order b) 2); [exact (new3 k v K _ _ _)|].
    rewrite idx_answer, bind_answer, answer_bind. apply bind_ext. intros p2 _. rewrite inner_mv', bind_answer, answer_bind. apply bind_ext. intros m2 _.
    destruct (Nat.eqb (order b) 3) eqn:O3; [exact (new4 k v K _ _ _ _)|].
    apply Nat.eqb_neq in O3. unfold order in *. replace (length (cps b) - 1 - 3)%nat with 0%nat by lia. exact (new4 k v K _ _ _ _).
  Qed.
  Lemma offsetLinear_mv b t : offsetLinear (mvb b) (k * t) = answer (map mvb) (offsetLinear b t).
  Proof.
    unfold offsetLinear, mvb. rewrite normal_mv by exact K. rewrite answer_bind. apply bind_ext. intros n _. unfold placed_curve at 1. cbn [cps].
    replace (map (fun p : pt => _) (map (placed k v) (cps b))) with (map mv (map (fun p : pt => (fst p + t * fst n, snd p + t * snd n)) (cps b))).
    - unfold mv. rewrite new_mv by exact K. numRg. now destruct (newBezier _).
    - rewrite !map_map. apply map_ext. intros [x y]. unfold mv, placed. numRg. cbn [fst snd]. f_equal; ring.
  Qed.
  (** ** ABC points, order raising *)
  Lemma getABC_mv b t : getABC (mvb b) t = answer (fun x => let '(A, B, C, r, h) := x in (mv A, mv B, option_map mv C, r, map mv h)) (getABC b t).
  Proof.
    unfold getABC, mvb. rewrite hull_mv by exact K. rewrite order_mv by exact K. unfold placed_curve. cbn [cps]. rewrite !idx_answer, idx_last_answer.
    destruct (Nat.eqb (order b) 2).
    - destruct (idx (cps b) 1); cbn [bind answer]; [|reflexivity]. destruct (idx (hull b t) 5); cbn [bind answer]; [|reflexivity]. destruct (quadraticRatio t); cbn [bind answer]; [|reflexivity].
      destruct (idx (cps b) 0); cbn [bind answer]; [|reflexivity]. destruct (idx_last (cps b)); cbn [bind answer]; [|reflexivity]. fold mv. now rewrite lli4_mv.
    - destruct (idx (hull b t) 5); cbn [bind answer]; [|reflexivity]. destruct (idx (hull b t) 9); cbn [bind answer]; [|reflexivity]. destruct (cubicRatio t); cbn [bind answer]; [|reflexivity].
      destruct (idx (cps b) 0); cbn [bind answer]; [|reflexivity]. destruct (idx_last (cps b)); cbn [bind answer]; [|reflexivity]. fold mv. now rewrite lli4_mv.
  Qed.
  Lemma raiseOrder_mv b : raiseOrder (mvb b) = answer mvb (raiseOrder b).
  Proof.
    unfold raiseOrder, mvb. unfold placed_curve at 1 2 3 4 5. cbn [cps]. rewrite map_length, idx_answer, bind_answer, answer_bind. apply bind_ext. intros p0 E0.
    assert (N : INR (length (cps b)) <> 0). { apply not_0_INR. destruct (cps b); [discriminate|simpl; lia]. } rewrite INR_IZR_INZ in N.
    assert (M : mapM (raisedPoint (map (placed k v) (cps b)) (length (cps b))) (seq 0 (length (cps b))) = answer (map mv) (mapM (raisedPoint (cps b) (length (cps b))) (seq 0 (length (cps b))))).
    { rewrite <- (map_id (seq 0 (length (cps b)))) at 1. apply mapM_answer. intros i _. unfold raisedPoint. rewrite idx_answer, bind_answer, answer_bind. apply bind_ext. intros p _.
      assert (Pm : (match i with O => idx_last (map (placed k v) (cps b)) | S j => idx (map (placed k v) (cps b)) j end) = answer mv (match i with O => idx_last (cps b) | S j => idx (cps b) j end)).
      { destruct i; [apply idx_last_answer|apply idx_answer]. }
      rewrite Pm, bind_answer, answer_bind. apply bind_ext. intros q _. cbn [answer]. unfold mv, placed. numRg. cbn [fst snd]. rewrite minus_IZR.
      refine (f_equal2 (fun x y => Ok (x, y)) _ _); field; exact N. }
    rewrite M, bind_answer, answer_bind. apply bind_ext. intros mid _. rewrite idx_last_answer, bind_answer, answer_bind. apply bind_ext. intros pn _.
    replace (placed k v p0 :: map mv mid ++ [placed k v pn]) with (map mv (p0 :: mid ++ [pn])) by (cbn [map]; now rewrite map_app). exact (new_mv k v K _).
  Qed.
  (** ** Length *)
  Lemma arc_mv b t : arcfun (mvb b) t = answer (Rmult k) (arcfun b t).
  Proof.
    unfold arcfun, mvb. rewrite derivative_mv by exact K. rewrite bind_answer, answer_bind. apply bind_ext. intros [x y] _. cbn [fst snd answer]. numRg. now rewrite hyp_sc.
  Qed.
  Theorem length_mv b : quadrature (mvb b) = answer (Rmult k) (quadrature b).
  Proof.
    unfold quadrature. set (z := nlit 1 2). generalize (combine (tValues (T := R)) (cValues (T := R))) as l.
    assert (G : forall l s, foldM (fun sum (tc : R * R) => let t := nadd (nmul (fst tc) z) z in let* a := arcfun (mvb b) t in Ok (nadd (nmul (snd tc) a) sum)) l (k * s) =
      answer (Rmult k) (foldM (fun sum (tc : R * R) => let t := nadd (nmul (fst tc) z) z in let* a := arcfun b t in Ok (nadd (nmul (snd tc) a) sum)) l s)).
    { induction l as [|tc l IH]; intros s; cbn [foldM]; [reflexivity|]. cbv zeta. rewrite arc_mv. destruct (arcfun b _) as [a|]; cbn [bind answer]; [|reflexivity].
      rewrite <- IH. f_equal. numRg. ring. }
    intros l. specialize (G l 0). rewrite Rmult_0_r in G. change (@nofZ R _ 0) with 0. cbv zeta in G |- *. rewrite G, bind_answer, answer_bind. apply bind_ext. intros s _. cbn [answer]. f_equal. numRg. ring.
  Qed.
  (** ** The tight box *)
  Lemma sc_placed : forall p, sc p = placed k (0, 0) p.
  Proof. intros [x y]. unfold sc, placed. cbn [fst snd]. f_equal; ring. Qed.
  Lemma align_none_mv b : align (mvb b) None = answer (placed_curve k (0, 0)) (align b None).
  Proof.
    unfold align. change (cps (mvb b)) with (map mv (cps b)). rewrite align_mv, bind_answer, answer_bind. apply bind_ext. intros p _.
    rewrite (map_ext _ _ sc_placed). exact (new_mv k (0, 0) K p).
  Qed.
  Lemma aligned_form b c : align b None = Ok c -> (length (cps c) = length (cps b)) /\ ((1 <= length (cps b))%nat -> curve (cps c) 0 = (0, 0)).
  Proof.
    unfold align, alignPoints. destruct (rawSlopeAngle (cps b)) as [a|]; cbn [bind]; [|discriminate]. destruct (idx (cps b) 0) as [s0|] eqn:E0; cbn [bind]; [|discriminate].
    destruct (moveAndRotate_raw rnd s0 (0, 0) (- a)) as (t & E & A). numRg. rewrite E. cbn [bind]. unfold applyToSegment. rewrite (mapM_ok _ _ _ A). cbn [bind].
    unfold newBezier. destruct (computeDirection _); cbn [bind]; [|discriminate]. intros X. injection X as <-. cbn [cps]. rewrite map_length. split; [reflexivity|].
    intros L. rewrite curve_0 by (now rewrite map_length). destruct (cps b) as [|p l]; [simpl in L; lia|]. cbn [map nth]. unfold idx in E0. cbn [nth_error] in E0. injection E0 as <-.
    destruct p as [x y]. unfold turn15, vadd, vsub. cbn [fst snd]. f_equal; ring.
  Qed.
  Theorem tight_mv b : (2 <= length (cps b) <= 4)%nat -> tightbbox (mvb b) = answer (map (map mv)) (tightbbox b).
  Proof.
    intros L. unfold tightbbox. rewrite align_none_mv, bind_answer, answer_bind. apply bind_ext. intros c Ec. destruct (aligned_form b c Ec) as [Lc C0]. specialize (C0 ltac:(lia)).
    rewrite (bounds_mv rnd k (0, 0) K c); [|lia| |].
    - rewrite bind_answer, answer_bind. apply bind_ext. intros r _. change (cps (mvb b)) with (map mv (cps b)). rewrite slope_mv, answer_bind. apply bind_ext. intros a _.
      rewrite idx_answer, bind_answer, answer_bind. apply bind_ext. intros p0 _.
      destruct (rotateAndMove_raw rnd (0, 0) (mv p0) a) as (t & E & A). destruct (rotateAndMove_raw rnd (0, 0) p0 a) as (t' & E' & A').
      numRg. rewrite E, E'. cbn [bind]. unfold applyToContour, applyToSegment.
      replace (rcontour (placed_rect k (0, 0) r)) with (map (map sc) (rcontour r)).
      + apply mapM_answer. intros s _. apply mapM_answer. intros q _. rewrite A, A'. cbn [answer]. f_equal. unfold turn15, vadd, vsub, sc, mv, placed. cbn [fst snd]. f_equal; ring.
      + unfold rcontour, placed_rect, sc. cbn [map fst snd left right top bottom]. rewrite !Rplus_0_r. reflexivity.
    - exists 0. rewrite C0. cbn [fst snd]. rewrite Rabs_R0. lra.
    - exists 0. unfold placed_curve. cbn [cps]. rewrite (curve_mv k (0, 0)) by (exact K || lia). rewrite C0. unfold placed. cbn [fst snd]. replace (k * 0 + 0) with 0 by ring. rewrite Rabs_R0. lra.
  Qed.
End Place2.

(** ** Translations: the queries with fixed tolerances *)
Section Move.
  Context (rnd : R -> R).
  #[local] Hint Extern 0 (TrigOps R) => exact (RTrig rnd) : typeclass_instances.
  Context (v : R * R).
  Let mv : pt -> pt := placed 1 v.
  Let mvb : bezier R -> bezier R := placed_curve 1 v.
  Let K : 0 < 1 := Rlt_0_1.
  Lemma sc1 l : map (fun p : pt => (1 * fst p, 1 * snd p)) l = l.
  Proof. rewrite <- (map_id l) at 2. apply map_ext. intros [x y]. cbn [fst snd]. now rewrite !Rmult_1_l. Qed.
  Lemma align_t p s : alignPoints (map mv p) (map mv s) = alignPoints p s.
  Proof. unfold mv. rewrite (align_mv rnd 1 v K). rewrite (answer_ext _ (fun x => x)) by apply sc1. apply answer_id. Qed.
  Lemma linear_t p : isLinear (map mv p) = isLinear p.
  Proof.
    unfold isLinear. rewrite idx_answer, idx_last_answer. destruct (idx p 0) as [a|]; cbn [answer bind]; [|reflexivity].
    destruct (idx_last p) as [z|]; cbn [answer bind]; [|reflexivity]. change [mv a; mv z] with (map mv [a; z]). now rewrite align_t.
  Qed.
  Lemma roots_t b s : s <> [] -> roots (mvb b) (Some (map mv s)) = roots b (Some s).
  Proof. intros N. destruct s as [|a s]; [congruence|]. unfold roots. change (cps (mvb b)) with (map mv (cps b)). cbn [map]. change (mv a :: map mv s) with (map mv (a :: s)). now rewrite align_t. Qed.
  Lemma between_t w x a b : between (1 * x + w) (1 * a + w) (1 * b + w) = between x a b.
  Proof.
    unfold between, approximately, approximatelyP. numRg. rewrite !Rleb_place by exact K. replace (1 * x + w - (1 * a + w)) with (x - a) by ring. now replace (1 * x + w - (1 * b + w)) with (x - b) by ring.
  Qed.
  Theorem lineIntersects_t b p q : lineIntersects (mvb b) (mv p) (mv q) = lineIntersects b p q.
  Proof.
    unfold lineIntersects. cbv zeta. change [mv p; mv q] with (map mv [p; q]). rewrite roots_t by discriminate. apply bind_ext. intros rs _.
    rewrite <- (map_id rs) at 1. rewrite (filterM_answer (fun x => x) (fun t => let* xy := get b t in Ok (between (fst xy) (pmin (fst p) (fst q)) (pmax (fst p) (fst q)) && between (snd xy) (pmin (snd p) (snd q)) (pmax (snd p) (snd q)))%bool)).
    - rewrite (answer_ext _ (fun x => x)) by apply map_id. apply answer_id.
    - intros t _. unfold mvb. rewrite (get_mv 1 v), bind_answer. apply bind_ext. intros xy _. unfold mv, placed. cbn [fst snd]. rewrite !(pmin_mv 1 K), !(pmax_mv 1 K), !between_t. reflexivity.
  Qed.
  Theorem intersectWithLine_t b l : cps l <> [] -> intersectWithLine (mvb b) (mvb l) = answer (option_map mv) (intersectWithLine b l).
  Proof.
    intros N. unfold intersectWithLine. unfold mvb at 1. rewrite order_mv. change (cps (mvb b)) with (map mv (cps b)). change (cps (mvb l)) with (map mv (cps l)).
    destruct (Nat.eqb (order b) 1); [exact (lli_mv 1 v K _ _)|]. rewrite roots_t by exact N. rewrite answer_bind. apply bind_ext. intros [|r rs] _; [reflexivity|].
    unfold mvb. rewrite (get_mv 1 v), bind_answer, answer_bind. reflexivity.
  Qed.
  Lemma tiles_lengths o : forall l a z, tiles o a z l -> Forall (fun s => length (cps s) = length o) l.
  Proof. induction l as [|s l IH]; intros a z T; cbn [tiles] in T; [constructor|]. destruct T as (_ & _ & E & _ & T). constructor; eauto. Qed.
  Theorem offset_t fuel b t : (length (cps b) = 3 \/ length (cps b) = 4)%nat -> (102 <= fuel)%nat ->
    offsetCurves fuel (mvb b) t = answer (map mvb) (offsetCurves fuel b t).
  Proof.
    intros L F. rewrite <- (Rmult_1_l t) at 1. unfold offsetCurves. change (cps (mvb b)) with (map mv (cps b)). rewrite linear_t, answer_bind. apply bind_ext. intros lin _.
    destruct lin; [exact (offsetLinear_mv rnd 1 v K b t)|]. unfold mvb at 1. rewrite (reduce_mv rnd 1 v K), bind_answer, answer_bind. apply bind_ext. intros l El.
    apply mapM_answer. intros r Hr. change (cps (placed_curve 1 v r)) with (map mv (cps r)). rewrite linear_t, answer_bind. apply bind_ext. intros rl _. destruct rl.
    - rewrite (offsetLinear_mv rnd 1 v K r t), bind_answer, answer_bind. apply bind_ext. intros c _. apply idx_answer.
    - apply (scaleNum_mv rnd 1 v K r t). destruct (reduce_spec' rnd b fuel L F) as [[E _]|(l' & E & [->|[T _]])]; rewrite El in E; [discriminate|injection E as ->; destruct Hr|].
      injection E as <-. apply tiles_lengths in T. rewrite Forall_forall in T. rewrite (T r Hr). lia.
  Qed.
End Move.

Theorem intersections_mv (rnd : R -> R) (k : R) (v : R * R) (b : bezier R) (other : option (bezier R)) (threshold : R) (rfuel fuel : nat) : 0 < k -> (102 <= rfuel)%nat ->
  (forall c, c = b \/ other = Some c -> (length (cps c) = 3 \/ length (cps c) = 4)%nat /\ in_sentinels (cps c) /\ in_sentinels (map (placed k v) (cps c))) ->
  @intersects R RNum (RTrig rnd) rfuel fuel (placed_curve k v b) (option_map (placed_curve k v) other) (k * threshold) = @intersects R RNum (RTrig rnd) rfuel fuel b other threshold.
Proof.
  intros K F H. assert (G : forall c, c = b \/ other = Some c -> good k v c).
  { intros c Hc. destruct (H c Hc) as (L & S & S'). assert (N : cps c <> []) by (intros E; rewrite E in L; simpl in L; lia). split; [exact L|].
    split; apply stays_box; auto. intros E. apply map_eq_nil in E. auto. }
  apply (intersects_mv rnd k v K); auto.
Qed.
Lemma range_needed_mv (rnd : R -> R) : let tr := RTrig rnd in let b := mkBez [(0, 0); (1, 1); (2, 0)] 0 1 in
  boundsRectangle (placed_curve 1 (100000, 0) b) <> answer (placed_rect 1 (100000, 0)) (boundsRectangle b).
Proof.
  intros tr b E. destruct (boundsRectangle_spec rnd b) as (r & E1 & _ & A); [cbn; lia|].
  destruct A as ((t & T & X) & _).
  { exists 0. split; [lra|]. rewrite curve_0 by (cbn; lia). cbn [b cps nth fst snd]. rewrite Rabs_R0. lra. }
  assert (P : 0 <= left r).
  { rewrite <- X. destruct (curve_in_box (cps b) t 0 2 0 1) as [Q _]; [discriminate|exact T| |lra].
    intros q [<-|[<-|[<-|[]]]]; cbn [fst snd]; lra. }
  destruct (boundsRectangle_spec rnd (placed_curve 1 (100000, 0) b)) as (r' & E2 & _); [cbn; lia|].
  assert (Q : left r' <= 32768).
  { unfold boundsRectangle in E2. destruct (bbox _) as [[[x0 x1] [y0 y1]]|]; cbn [bind] in E2; [|discriminate]. injection E2 as <-. rewrite BR_two. cbn [left].
    pose proof (Rmin_l (Rmin 32768 x0) x1). pose proof (Rmin_l 32768 x0). lra. }
  unfold tr in E. rewrite E1 in E. cbn [answer] in E. rewrite E2 in E. injection E as ->. unfold placed_rect in Q. cbn [left fst] in Q. lra.
Qed.
Lemma arch_linear (h : R) : 0 < h -> @isLinear R RNum RPy [(0, 0); (h, h); (2 * h, 0)] = Ok (negb (Rltb (1 / 10000) h)).
Proof.
  intros H. unfold RPy, isLinear. cbn [idx idx_last nth_error last_error bind]. unfold alignPoints, rawSlopeAngle, getDeltas, endPoints.
  cbn [idx idx_last nth_error last_error bind fst snd]. numRg.
  assert (A : Ratan2 (0 - 0) (2 * h - 0) = 0). { unfold Ratan2. destruct (Rlt_dec 0 (2 * h - 0)); [|lra]. unfold Rdiv. rewrite Rminus_0_r, Rmult_0_l. apply atan_0. }
  assert (D : - @degrees R RNum (RTrig round15) (Ratan2 (0 - 0) (2 * h - 0)) = 0) by (rewrite A; unfold degrees; numRg; ring).
  destruct (moveAndRotate_raw round15 (0, 0) (0, 0) (- @degrees R RNum (RTrig round15) (Ratan2 (0 - 0) (2 * h - 0)))) as (t & E & Ap).
  rewrite E. cbn [bind]. unfold applyToSegment. rewrite (mapM_ok _ _ _ Ap). cbn [bind map]. rewrite D.
  assert (S : forall q : pt, turn15 round15 0 (vadd q (vsub (0, 0) (0, 0))) = q).
  { intros [x y]. unfold turn15, vadd, vsub, rad. cbn [fst snd]. replace (0 * PI / 180) with 0 by (unfold Rdiv; ring). rewrite sin_0, cos_0.
    change 0 with (IZR 0) at 1 2. change 1 with (IZR 1) at 1 2. rewrite !round15_int. cbn [fst snd]. f_equal; ring. }
  rewrite !S. cbn [filter fst snd]. unfold nlit. numRg. rewrite Rabs_R0, (Rabs_pos_eq h) by lra. rewrite (proj2 (Rltb_false (1 / 10000) 0)) by lra.
  now destruct (Rltb (1 / 10000) h).
Qed.
Lemma straight_when_small : let p := [(0, 0); (1, 1); (2, 0)] in @isLinear R RNum RPy p = Ok false /\ @isLinear R RNum RPy (map (placed (1 / 100000) (0, 0)) p) = Ok true.
Proof.
  cbv zeta. split.
  - replace [(0, 0); (1, 1); (2, 0)] with [(0, 0); (1, 1); (2 * 1, 0)] by (now rewrite Rmult_1_r). rewrite arch_linear by lra. now rewrite (proj2 (Rltb_true (1 / 10000) 1)) by lra.
  - replace (map _ _) with [(0, 0); (1 / 100000, 1 / 100000); (2 * (1 / 100000), 0)].
    + rewrite arch_linear by lra. now rewrite (proj2 (Rltb_false (1 / 10000) (1 / 100000))) by lra.
    + unfold placed. cbn [map fst snd]. replace (1 / 100000 * 0 + 0) with 0 by lra. replace (1 / 100000 * 1 + 0) with (1 / 100000) by lra. now replace (1 / 100000 * 2 + 0) with (2 * (1 / 100000)) by lra.
Qed.
