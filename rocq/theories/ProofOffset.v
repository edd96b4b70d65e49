(** The pieces of an offset curve, and straightness (Bezier.py 54-60, 745-759). *)
From Coq Require Import List ZArith Bool Reals Lra Lia Psatz.
From Verif Require Import Py Inst SpecGeom SpecMatrix SpecFit SpecUtil SpecBezier SpecOrder SpecBounds
  MTransform MBounds MBezUtil MPathUtil MBezier SpecCurve
  ProofTransform ProofMatrix ProofFit ProofUtil ProofBounds ProofBezier ProofBezier2 ProofBezier3 ProofBBox ProofAlign ProofLut ProofLength ProofReduce ProofSelf ProofGentle ProofTight ProofScale.
Import ListNotations.
Local Open Scope R_scope.

Lemma left_normal_scale (k : R) (v n : pt) : 0 < k -> left_normal (vscale k v) n <-> left_normal v n.
Proof.
  intros K. destruct v as [x y], n as [a b]. unfold left_normal, vdot, vcross, vscale; cbn [fst snd]. split; intros (A & B & C); (split; [exact A|]).
  - split; [apply Rmult_eq_reg_l with k; lra|]. apply Rmult_lt_reg_l with k; lra.
  - split; [replace (a * (k * x) + b * (k * y)) with (k * (a * x + b * y)) by ring; rewrite B; ring|]. replace (k * x * b - k * y * a) with (k * (x * b - y * a)) by ring. now apply Rmult_lt_0_compat.
Qed.
Lemma offset_point_unique o d t q q' : offset_point o d t q -> offset_point o d t q' -> q = q'.
Proof.
  intros (v & n & D & N & ->) (v' & n' & D' & N' & ->). rewrite (is_deriv_unique _ _ _ _ D' D) in N'. now rewrite (left_normal_unique _ _ _ N N').
Qed.
Lemma left_normal_nz v n : left_normal v n -> v <> (0, 0).
Proof. intros (_ & _ & C) ->. unfold vcross in C; cbn [fst snd] in C. lra. Qed.
(** The offset points of a part are offset points of the curve. *)
Lemma offset_part (o p : list pt) a z t d q : (length o = 3 \/ length o = 4)%nat -> a < z -> (forall u, curve p u = curve o (a + u * (z - a))) ->
  offset_point p d t q -> offset_point o d (a + t * (z - a)) q.
Proof.
  intros L Lt C (v & n & D & N & ->). destruct (derivative_ok (mkBez o 0 1) (a + t * (z - a)) L) as (w & _ & W). cbn [cps] in W.
  pose proof (is_deriv_part o p a z t w Lt C W) as D'. pose proof (is_deriv_unique _ _ _ _ D D'). subst v.
  exists w, n. split; [exact W|]. split; [|now rewrite C]. revert N. apply left_normal_scale. lra.
Qed.

Section Offset.
  Context (rnd : R -> R).
  #[local] Hint Extern 0 (TrigOps R) => exact (RTrig rnd) : typeclass_instances.
  Lemma ends_offset (b : bezier R) d n : (length (cps b) = 3 \/ length (cps b) = 4)%nat ->
    (left_normal (first_leg (cps b)) n -> offset_point (cps b) d 0 (vadd (nth 0 (cps b) (0, 0)) (vscale d n))) /\
    (left_normal (last_leg (cps b)) n -> offset_point (cps b) d 1 (vadd (nth (length (cps b) - 1) (cps b) (0, 0)) (vscale d n))).
  Proof.
    intros L. destruct (end_derivatives b L) as [D0 D1]. assert (K : 0 < INR (length (cps b) - 1)) by (apply lt_0_INR; lia).
    destruct (derivative_ok b 0 L) as (v0 & E0 & V0). destruct (derivative_ok b 1 L) as (v1 & E1 & V1). rewrite D0 in E0. rewrite D1 in E1. injection E0 as <-. injection E1 as <-.
    split; intros N.
    - exists (vscale (INR (length (cps b) - 1)) (first_leg (cps b))), n. split; [exact V0|]. split; [now apply left_normal_scale|]. rewrite curve_0 by lia. reflexivity.
    - exists (vscale (INR (length (cps b) - 1)) (last_leg (cps b))), n. split; [exact V1|]. split; [now apply left_normal_scale|]. rewrite curve_1 by lia. reflexivity.
  Qed.
  Lemma scale_ends (b c : bezier R) d : (length (cps b) = 3 \/ length (cps b) = 4)%nat -> scaleNum b d = Ok c ->
    length (cps c) = length (cps b) /\ offset_point (cps b) d 0 (nth 0 (cps c) (0, 0)) /\ offset_point (cps b) d 1 (last (cps c) (0, 0)).
  Proof.
    intros L E. destruct (scale_number rnd b d L) as (S1 & S2 & S3).
    assert (D : forall v : pt, {v = (0, 0)} + {v <> (0, 0)}).
    { intros [x y]. destruct (Req_EM_T x 0); [destruct (Req_EM_T y 0)|]; [left; subst; reflexivity|right; congruence|right; congruence]. }
    destruct (D (first_leg (cps b))) as [Z|Na]; [rewrite S1 in E by auto; discriminate|]. destruct (D (last_leg (cps b))) as [Z|Nz]; [rewrite S1 in E by auto; discriminate|].
    destruct (Req_EM_T (vcross (first_leg (cps b)) (last_leg (cps b))) 0) as [Z|C]; [rewrite S2 in E by auto; discriminate|].
    destruct (S3 C) as (o & n0 & n1 & k & N0 & N1 & M & _ & _ & I & NI).
    assert (Dec : {In o (removelast (tl (cps b)))} + {~ In o (removelast (tl (cps b)))}).
    { apply in_dec. intros [x y] [x' y']. destruct (Req_EM_T x x'); [destruct (Req_EM_T y y')|]; [left; subst; reflexivity|right; congruence|right; congruence]. }
    destruct Dec as [H|H]; [rewrite (I H) in E; discriminate|]. destruct (NI H) as (c' & E' & P). rewrite E in E'. injection E' as <-. rewrite P. split; [|split].
    - simpl. rewrite app_length, map_length. simpl. destruct (cps b) as [|p0 [|p1 [|p2 [|p3 [|p4 r]]]]]; simpl in L |- *; lia.
    - cbn [nth]. now apply (proj1 (ends_offset b d n0 L)).
    - rewrite app_comm_cons, last_last. now apply (proj2 (ends_offset b d n1 L)).
  Qed.
  Lemma linear_offset (b : bezier R) d : (length (cps b) = 3 \/ length (cps b) = 4)%nat ->
    (first_leg (cps b) = (0, 0) -> offsetLinear b d = Err ZeroDivisionError) /\
    (first_leg (cps b) <> (0, 0) -> exists n, left_normal (first_leg (cps b)) n /\ offsetLinear b d = Ok [mkBez (map (fun p => vadd p (vscale d n)) (cps b)) 0 1]).
  Proof.
    intros L. destruct (end_derivatives b L) as [D0 _]. assert (K : 0 < INR (length (cps b) - 1)) by (apply lt_0_INR; lia).
    destruct (end_normal rnd b 0 _ _ D0 K) as [A B]. unfold offsetLinear. numRg. split; intros Z.
    - rewrite (A Z). reflexivity.
    - exists (unit_left (first_leg (cps b))). split; [now apply unit_left_normal|]. rewrite (B Z). cbn [bind]. rewrite newBezier_ok by (rewrite map_length; lia). reflexivity.
  Qed.
  (** C83 *)
  Theorem offset_linear (b : bezier R) d fuel : (length (cps b) = 3 \/ length (cps b) = 4)%nat -> isLinear (cps b) = Ok true ->
    (first_leg (cps b) = (0, 0) -> offsetCurves fuel b d = Err ZeroDivisionError) /\
    (first_leg (cps b) <> (0, 0) -> exists n c, left_normal (first_leg (cps b)) n /\ offsetCurves fuel b d = Ok [c] /\ length (cps c) = length (cps b) /\
       forall t, curve (cps c) t = vadd (curve (cps b) t) (vscale d n)).
  Proof.
    intros L E. destruct (linear_offset b d L) as [A B]. unfold offsetCurves. rewrite E. cbn [bind]. split; intros Z; [exact (A Z)|].
    destruct (B Z) as (n & N & ->). exists n. eexists. split; [exact N|]. split; [reflexivity|]. cbn [cps]. split; [apply map_length|].
    intros t. rewrite (map_ext _ (fun p : pt => (fst p * 1 + snd p * 0 + d * fst n, fst p * 0 + snd p * 1 + d * snd n))) by (intros [x y]; unfold vadd, vscale; cbn [fst snd]; f_equal; ring).
    rewrite (curve_affine (cps b) 1 0 0 1 (d * fst n) (d * snd n) t) by lia. unfold vadd, vscale; cbn [fst snd]. f_equal; ring.
  Qed.
  Theorem offset_pieces (b : bezier R) d fuel l : (length (cps b) = 3 \/ length (cps b) = 4)%nat -> (102 <= fuel)%nat -> isLinear (cps b) = Ok false ->
    offsetCurves fuel b d = Ok l ->
    exists rs, reduce fuel b = Ok rs /\ length l = length rs /\ (rs = [] \/ tiles (cps b) 0 1 rs) /\
    forall i r c, nth_error rs i = Some r -> nth_error l i = Some c -> length (cps c) = length (cps b) /\
      offset_point (cps b) d (bt1 r) (nth 0 (cps c) (0, 0)) /\ (isLinear (cps r) = Ok false -> offset_point (cps b) d (bt2 r) (last (cps c) (0, 0))).
  Proof.
    intros L F Lin E. unfold offsetCurves in E. rewrite Lin in E. cbn [bind] in E.
    destruct (reduce_spec rnd b fuel L F) as [Z|(rs & Er & T)]; [rewrite Z in E; discriminate|]. rewrite Er in E. cbn [bind] in E.
    exists rs. split; [exact Er|]. split; [exact (mapM_length _ _ _ E)|]. split; [destruct T as [->|[T _]]; auto|].
    intros i r c Hr Hc. destruct (mapM_nth _ _ _ _ _ E Hr) as (c' & Hc' & Ec). rewrite Hc in Hc'. injection Hc' as <-.
    destruct T as [->|[T _]]; [destruct i; discriminate|]. apply nth_error_In in Hr. destruct (tiles_In rnd _ _ _ _ _ T Hr) as (A & Lt & Z & Ls & C).
    assert (Lr : (length (cps r) = 3 \/ length (cps r) = 4)%nat) by (rewrite Ls; exact L).
    assert (P0 : forall q, offset_point (cps r) d 0 q -> offset_point (cps b) d (bt1 r) q).
    { intros q Q. apply (offset_part (cps b) (cps r) (bt1 r) (bt2 r) 0 d q L Lt C) in Q. replace (bt1 r + 0 * (bt2 r - bt1 r)) with (bt1 r) in Q by ring. exact Q. }
    assert (P1 : forall q, offset_point (cps r) d 1 q -> offset_point (cps b) d (bt2 r) q).
    { intros q Q. apply (offset_part (cps b) (cps r) (bt1 r) (bt2 r) 1 d q L Lt C) in Q. replace (bt1 r + 1 * (bt2 r - bt1 r)) with (bt2 r) in Q by ring. exact Q. }
    destruct (isLinear (cps r)) as [[|]|e]; cbn [bind] in Ec; [| |discriminate].
    - destruct (linear_offset r d Lr) as [A1 A2]. assert (D : {first_leg (cps r) = (0, 0)} + {first_leg (cps r) <> (0, 0)}).
      { destruct (first_leg (cps r)) as [x y]. destruct (Req_EM_T x 0); [destruct (Req_EM_T y 0)|]; [left; subst; reflexivity|right; congruence|right; congruence]. }
      destruct D as [D|D]; [rewrite (A1 D) in Ec; discriminate|]. destruct (A2 D) as (n & N & E2). rewrite E2 in Ec. cbn in Ec. injection Ec as <-. cbn [cps].
      split; [rewrite map_length; exact Ls|]. split; [|discriminate]. apply P0.
      rewrite (nth_indep _ (0, 0) (vadd (0, 0) (vscale d n))) by (rewrite map_length; lia). rewrite (map_nth (fun p => vadd p (vscale d n)) (cps r) (0, 0) 0). now apply (proj1 (ends_offset r d n Lr)).
    - destruct (scale_ends r c d Lr Ec) as (S1 & S2 & S3). split; [congruence|]. split; [now apply P0|]. intros _. now apply P1.
  Qed.
  Lemma tiles_next o : forall rs a z i r s, tiles o a z rs -> nth_error rs i = Some r -> nth_error rs (S i) = Some s -> bt1 s = bt2 r.
  Proof.
    induction rs as [|x rs IH]; intros a z i r s T H1 H2; [destruct i; discriminate|]. destruct T as (_ & _ & _ & _ & T). destruct i as [|i].
    - injection H1 as ->. destruct rs as [|y rs]; [discriminate|]. injection H2 as ->. exact (proj1 T).
    - exact (IH _ _ i r s T H1 H2).
  Qed.
  Theorem offset_joins (b : bezier R) d fuel l rs i r c c' : (length (cps b) = 3 \/ length (cps b) = 4)%nat -> (102 <= fuel)%nat -> isLinear (cps b) = Ok false ->
    offsetCurves fuel b d = Ok l -> reduce fuel b = Ok rs -> nth_error rs i = Some r -> isLinear (cps r) = Ok false ->
    nth_error l i = Some c -> nth_error l (S i) = Some c' -> last (cps c) (0, 0) = nth 0 (cps c') (0, 0).
  Proof.
    intros L F Lin E Er Hr Lr Hc Hc'. destruct (offset_pieces b d fuel l L F Lin E) as (rs' & Er' & Le & T & P). rewrite Er in Er'. injection Er' as <-.
    assert (Hs : exists s, nth_error rs (S i) = Some s). { destruct (nth_error rs (S i)) as [s|] eqn:X; [eauto|]. apply nth_error_None in X. assert (S i < length l)%nat by (apply nth_error_Some; congruence). lia. }
    destruct Hs as (s & Hs). destruct (P i r c Hr Hc) as (_ & _ & A). destruct (P (S i) s c' Hs Hc') as (_ & B & _).
    destruct T as [->|T]; [destruct i; discriminate|]. rewrite (tiles_next _ _ _ _ _ _ _ T Hr Hs) in B. exact (offset_point_unique _ _ _ _ _ (A Lr) B).
  Qed.
End Offset.
(** C84: straightness. *)
Section Straight.
  Context (rnd : R -> R) (odd : forall x, rnd (- x) = - rnd x).
  #[local] Hint Extern 0 (TrigOps R) => exact (RTrig rnd) : typeclass_instances.
  Lemma linear_test (p : list pt) : (2 <= length p)%nat -> let p0 := nth 0 p (0, 0) in let pn := nth (length p - 1) p (0, 0) in
    let th := Ratan2 (snd pn - snd p0) (fst pn - fst p0) in let u := (rnd (cos th), rnd (sin th)) in
    exists l, isLinear p = Ok l /\ (l = true <-> forall q, In q p -> Rabs (vcross u (vsub q p0)) <= 1 / 10000).
  Proof.
    intros L p0 pn th u. destruct (slope_turn rnd [p0; pn] ltac:(simpl; lia)) as (th' & Ea & Et). cbn [nth length Nat.sub] in Et. fold th in Et. subst th'.
    destruct (rad_deg rnd th) as [R1 R2]. set (cs := rnd (cos th)) in *. set (sn := rnd (sin th)) in *.
    set (f := fun q : pt => (fst q * cs + snd q * sn + - (fst p0 * cs + snd p0 * sn), fst q * - sn + snd q * cs + - (fst p0 * - sn + snd p0 * cs))).
    unfold isLinear. rewrite (idx_nth p 0 (0, 0)) by lia. unfold idx_last. rewrite last_error_nth, (nth_error_nth' p (0, 0)) by lia. cbn [bind]. fold p0 pn.
    assert (Al : alignPoints p [p0; pn] = Ok (map f p)).
    { unfold alignPoints. rewrite Ea. cbn [bind]. unfold idx; cbn [nth_error bind]. unfold f. destruct p0 as [ax ay] eqn:E0. cbn [fst snd]. unfold moveAndRotate, mkTransform, concatenateMatrices.
      unfold _translateMatrix, _rotationMatrix, _matrix, tf_sin, tf_cos. rewrite R2. numRg. rewrite cos_neg, sin_neg, odd. fold cs sn.
      cbn [bind foldM multiplyMatrixByMatrix mapM multiplyRowByMatrix unpack3]. numRg.
      unfold applyToSegment. apply mapM_pure. intros [x y] _. rewrite apply_Ok by lra. cbn [fst snd]. apply Ok_pair; field; lra. }
    rewrite Al. cbn [bind]. eexists. split; [reflexivity|]. rewrite Nat.eqb_eq.
    assert (G : forall q, snd (f q) = vcross u (vsub q p0)) by (intros q; unfold f, u, vcross, vsub; cbn [fst snd]; ring).
    change (nlit 1 10000) with (1 / 10000). numRg. split.
    - intros Z q Hq. rewrite <- G. destruct (Rle_dec (Rabs (snd (f q))) (1 / 10000)) as [K|K]; [exact K|]. exfalso.
      assert (I : In (f q) (filter (fun x : pt => Rltb (1 / 10000) (Rabs (snd x))) (map f p))).
      { apply filter_In. split; [now apply in_map|]. apply Rltb_true. lra. }
      destruct (filter _ _); [destruct I|discriminate].
    - intros H. destruct (filter _ _) as [|x r] eqn:E; [reflexivity|]. exfalso. assert (I : In x (x :: r)) by now left. rewrite <- E in I.
      apply filter_In in I as [I K]. apply in_map_iff in I as (q & <- & Hq). specialize (H q Hq). rewrite <- G in H. apply Rltb_true in K. lra.
  Qed.
End Straight.
Theorem linear_exact (p : list pt) : (2 <= length p)%nat -> let p0 := nth 0 p (0, 0) in let pn := nth (length p - 1) p (0, 0) in
  exists l, @isLinear R RNum RExact p = Ok l /\
    (p0 <> pn -> (l = true <-> forall q, In q p -> Rabs (vcross (vsub pn p0) (vsub q p0)) <= 1 / 10000 * vdist p0 pn)) /\
    (p0 = pn -> (l = true <-> forall q, In q p -> Rabs (snd q - snd p0) <= 1 / 10000)).
Proof.
  intros L p0 pn. destruct (linear_test (fun x => x) (fun _ => eq_refl) p L) as (l & E & H). exists l. split; [exact E|]. fold p0 pn in H.
  set (th := Ratan2 (snd pn - snd p0) (fst pn - fst p0)) in *. split; intros D; rewrite H.
  - pose proof (vdist_pos p0 pn D) as P. destruct (atan2_polar (snd pn - snd p0) (fst pn - fst p0)) as [A B]. fold th in A, B.
    replace (sqrt _) with (vdist p0 pn) in A, B by (unfold vdist, dist2; f_equal; ring).
    assert (G : forall q, vcross (vsub pn p0) (vsub q p0) = vdist p0 pn * vcross (cos th, sin th) (vsub q p0)).
    { intros q. unfold vcross, vsub; cbn [fst snd]. rewrite <- A, <- B. ring. }
    split; intros K q Hq; specialize (K q Hq).
    + rewrite G, Rabs_mult, (Rabs_pos_eq (vdist p0 pn)) by lra. nra.
    + rewrite G, Rabs_mult, (Rabs_pos_eq (vdist p0 pn)) in K by lra. apply Rmult_le_reg_l with (vdist p0 pn); lra.
  - assert (T : th = 0). { unfold th. rewrite D. unfold Rminus. rewrite !Rplus_opp_r. unfold Ratan2. destruct (Rlt_dec 0 0); [lra|]. destruct (Rlt_dec 0 0); [lra|]. destruct (Rlt_dec 0 0); lra. }
    rewrite T, cos_0, sin_0. assert (G : forall q, vcross (1, 0) (vsub q p0) = snd q - snd p0) by (intros q; unfold vcross, vsub; cbn [fst snd]; ring).
    split; intros K q Hq; specialize (K q Hq); [now rewrite G in K|now rewrite G].
Qed.
(** ** Cases *)
Section Cases.
  Context (rnd : R -> R).
  #[local] Hint Extern 0 (TrigOps R) => exact (RTrig rnd) : typeclass_instances.
  Theorem corner_scaled : exists c, scaleNum (mkBez [(0, 0); (0, 3); (4, 3)] 0 1) 5 = Ok c /\ cps c = [(-5, 0); (-4, 6); (4, 8)].
  Proof.
    destruct (scale_number rnd (mkBez [(0, 0); (0, 3); (4, 3)] 0 1) 5 (or_introl eq_refl)) as (_ & _ & H).
    cbn [cps length Nat.sub nth removelast tl] in H. unfold normals_meet, first_leg, last_leg, vsub, vcross, vdot in H; cbn [nth length Nat.sub fst snd] in H.
    destruct H as (o & n0 & n1 & k & N0 & N1 & (O1 & O2) & K & _ & _ & C); [lra|]. rewrite K in C by (left; lra). clear K k.
    destruct o as [ox oy]. cbn [fst snd] in O1, O2. assert (ox = 4) by lra. assert (oy = 0) by lra. subst ox oy.
    rewrite (left_normal_unique _ _ (-1, 0) N0) in C by (unfold left_normal, vdot, vcross; cbn [fst snd]; lra).
    rewrite (left_normal_unique _ _ (0, 1) N1) in C by (unfold left_normal, vdot, vcross; cbn [fst snd]; lra).
    destruct C as (c & E & P); [intros [X|[]]; injection X; lra|]. exists c. split; [exact E|]. rewrite P. cbn [map app].
    assert (D : vdist (4, 0) (0, 3) = 5). { unfold vdist, dist2; cbn [fst snd]. replace (_ + _) with (5 * 5) by lra. apply sqrt_square. lra. }
    unfold away. rewrite D. unfold vadd, vscale, vsub; cbn [fst snd]. repeat (f_equal; try lra).
  Qed.
  Theorem tangent_lost : exists (b c : bezier R) (d : R), length (cps b) = 3%nat /\ scaleNum b d = Ok c /\ first_leg (cps b) <> (0, 0) /\
    vcross (first_leg (cps b)) (first_leg (cps c)) <> 0.
  Proof.
    destruct corner_scaled as (c & E & P). exists (mkBez [(0, 0); (0, 3); (4, 3)] 0 1), c, 5. split; [reflexivity|]. split; [exact E|].
    rewrite P. unfold first_leg, vsub, vcross; cbn [nth cps fst snd]. split; [intros X; injection X; lra|lra].
  Qed.
  Theorem regular_ok (b : bezier R) (fuel : nat) : (length (cps b) = 3 \/ length (cps b) = 4)%nat -> (102 <= fuel)%nat ->
    (forall t, 0 <= t <= 1 -> ~ is_deriv (curve (cps b)) t (0, 0)) -> (exists s, simple b = Ok s) /\ (exists l, reduce fuel b = Ok l).
  Proof.
    intros L F N. split.
    - destruct (simple_or' rnd b L) as [E|[E|[_ (t & Ht & D)]]]; eauto. destruct (N t Ht D).
    - destruct (reduce_spec' rnd b fuel L F) as [[_ (t & Ht & D)]|(l & E & _)]; eauto. destruct (N t Ht D).
  Qed.
End Cases.
Lemma diagonal_deriv : forall t d, is_deriv (curve [(0, 0); (3, 3); (6, 6)]) t d -> d = (6, 6).
Proof.
  intros t d D. destruct (derivative_ok (mkBez [(0, 0); (3, 3); (6, 6)] 0 1) t (or_introl eq_refl)) as (e & E & De).
  rewrite (is_deriv_unique _ _ _ _ D De). rewrite derivative_formula in E by (left; reflexivity). cbn [cps speed_at] in E. injection E as <-.
  unfold vadd, vscale, vsub; cbn [fst snd]. f_equal; ring.
Qed.

Section Quadratic.
  #[local] Hint Extern 0 (TrigOps R) => exact (RTrig round15) : typeclass_instances.
  Lemma quad_part_cross (o p : list pt) a z : length o = 3%nat -> length p = 3%nat -> a < z -> (forall u, curve p u = curve o (a + u * (z - a))) ->
    vcross (first_leg p) (last_leg p) = (z - a) ^ 3 * vcross (first_leg o) (last_leg o).
  Proof.
    intros Lo Lp Lt C. destruct (end_derivatives (mkBez p 0 1) (or_introl Lp)) as [D0 D1]. cbn [cps] in *.
    destruct (derivative_ok (mkBez p 0 1) 0 (or_introl Lp)) as (v0 & E0 & V0). destruct (derivative_ok (mkBez p 0 1) 1 (or_introl Lp)) as (v1 & E1 & V1).
    rewrite D0 in E0. rewrite D1 in E1. injection E0 as <-. injection E1 as <-. cbn [cps] in *.
    destruct (derivative_ok (mkBez o 0 1) (a + 0 * (z - a)) (or_introl Lo)) as (w0 & F0 & W0). destruct (derivative_ok (mkBez o 0 1) (a + 1 * (z - a)) (or_introl Lo)) as (w1 & F1 & W1). cbn [cps] in *.
    pose proof (is_deriv_unique _ _ _ _ V0 (is_deriv_part o p a z 0 _ Lt C W0)) as X0. pose proof (is_deriv_unique _ _ _ _ V1 (is_deriv_part o p a z 1 _ Lt C W1)) as X1.
    rewrite derivative_formula in F0, F1 by (left; exact Lo). cbn [cps] in F0, F1. injection F0 as <-. injection F1 as <-. clear - X0 X1 Lo Lp.
    set (f := first_leg p) in *. set (l := last_leg p) in *. clearbody f l. rewrite Lp in X0, X1. replace (INR (3 - 1)) with 2 in X0, X1 by (simpl; lra).
    destruct o as [|[x0 y0] [|[x1 y1] [|[x2 y2] [|p3 r]]]]; try (simpl in Lo; lia). destruct f as [fx fy], l as [lx ly].
    unfold speed_at, first_leg, last_leg, vscale, vadd, vsub, vcross in *; cbn [fst snd nth length Nat.sub] in *. injection X0 as A1 A2. injection X1 as B1 B2.
    assert (fx = (z - a) * ((1 - a) * (x1 - x0) + a * (x2 - x1))) by lra. assert (fy = (z - a) * ((1 - a) * (y1 - y0) + a * (y2 - y1))) by lra.
    assert (lx = (z - a) * ((1 - z) * (x1 - x0) + z * (x2 - x1))) by lra. assert (ly = (z - a) * ((1 - z) * (y1 - y0) + z * (y2 - y1))) by lra.
    subst fx fy lx ly. ring.
  Qed.
  Lemma quad_scale_ok (b : bezier R) d : length (cps b) = 3%nat -> vcross (first_leg (cps b)) (last_leg (cps b)) <> 0 -> exists c, scaleNum b d = Ok c.
  Proof.
    intros L C. destruct (scale_number round15 b d (or_introl L)) as (_ & _ & H). destruct (H C) as (o & n0 & n1 & k & _ & _ & (M & _) & _ & _ & _ & K).
    destruct K as (c & E & _); [|eauto]. intros I. destruct b as [p u v]; cbn [cps] in *. destruct p as [|p0 [|p1 [|p2 [|p3 r]]]]; try (simpl in L; lia).
    cbn [tl removelast] in I. destruct I as [<-|[]]. unfold first_leg in M, C; cbn [nth] in M, C.
    assert (Z : vsub p1 p0 = (0, 0)).
    { destruct (vsub p1 p0) as [x y]. unfold vdot in M; cbn [fst snd] in M. f_equal; nra. }
    apply C. rewrite Z. unfold vcross; cbn [fst snd]. ring.
  Qed.
  Theorem offset_quadratic (b : bezier R) (d : R) (fuel : nat) : length (cps b) = 3%nat -> (102 <= fuel)%nat -> vcross (first_leg (cps b)) (last_leg (cps b)) <> 0 ->
    exists l, offsetCurves fuel b d = Ok l.
  Proof.
    intros L F C. assert (Nf : first_leg (cps b) <> (0, 0)) by (intros K; apply C; rewrite K; unfold vcross; cbn [fst snd]; ring).
    destruct (linear_test round15 round15_opp (cps b) ltac:(lia)) as (li & El & _). unfold offsetCurves. rewrite El. cbn [bind]. destruct li.
    - destruct (linear_offset round15 b d (or_introl L)) as [_ A]. destruct (A Nf) as (n & _ & E). rewrite E. eauto.
    - destruct (reduce_spec' round15 b fuel (or_introl L) F) as [[_ (t & Ht & D)]|(rs & Er & T)].
      { exfalso. destruct (derivative_ok b t (or_introl L)) as (w & E & W). pose proof (is_deriv_unique _ _ _ _ D W). subst w. rewrite derivative_formula in E by (left; exact L).
        destruct b as [p u v]; cbn [cps] in *. destruct p as [|[x0 y0] [|[x1 y1] [|[x2 y2] [|p3 r]]]]; try (simpl in L; lia).
        unfold speed_at, first_leg, last_leg, vscale, vadd, vsub, vcross in *; cbn [fst snd nth length Nat.sub] in *. injection E as E1 E2.
        set (ax := x1 - x0) in *. set (ay := y1 - y0) in *. set (zx := x2 - x1) in *. set (zy := y2 - y1) in *.
        assert (X1 : (1 - t) * (ax * zy - ay * zx) = 0). { replace ((1 - t) * (ax * zy - ay * zx)) with (((1 - t) * ax + t * zx) * zy - ((1 - t) * ay + t * zy) * zx) by ring. replace ((1 - t) * ax + t * zx) with 0 by lra. replace ((1 - t) * ay + t * zy) with 0 by lra. ring. }
        assert (X2 : t * (ax * zy - ay * zx) = 0). { replace (t * (ax * zy - ay * zx)) with (ax * ((1 - t) * ay + t * zy) - ay * ((1 - t) * ax + t * zx)) by ring. replace ((1 - t) * ax + t * zx) with 0 by lra. replace ((1 - t) * ay + t * zy) with 0 by lra. ring. }
        apply C. lra. }
      rewrite Er. cbn [bind]. assert (G : forall r, In r rs -> exists c, (let* rl := isLinear (cps r) in if rl then let* l := offsetLinear r d in idx l 0 else scaleNum r d) = Ok c).
      { intros r Hr. destruct T as [->|[T _]]; [destruct Hr|]. destruct (tiles_In round15 _ _ _ _ _ T Hr) as (A & Lt & Z & Ls & Cr). rewrite L in Ls.
        pose proof (quad_part_cross (cps b) (cps r) _ _ L Ls Lt Cr) as X. assert (Cn : vcross (first_leg (cps r)) (last_leg (cps r)) <> 0).
        { rewrite X. apply Rmult_integral_contrapositive. split; [|exact C]. apply Rgt_not_eq. apply pow_lt. lra. }
        destruct (linear_test round15 round15_opp (cps r) ltac:(lia)) as (lr & El' & _). rewrite El'. cbn [bind]. destruct lr.
        - destruct (linear_offset round15 r d (or_introl Ls)) as [_ A']. destruct A' as (n & _ & E); [intros K; apply Cn; rewrite K; unfold vcross; cbn [fst snd]; ring|]. rewrite E. cbn. eauto.
        - exact (quad_scale_ok r d Ls Cn). }
      clear - G. induction rs as [|r rs IH]; [exists []; reflexivity|]. cbn [mapM]. destruct (G r (or_introl eq_refl)) as (c & ->). cbn [bind].
      destruct IH as (l & ->); [intros q Hq; apply G; now right|]. cbn [bind]. eauto.
  Qed.
  Definition arch : list pt := [(0, 0); (1, 1); (2, 0)].
  Lemma arch_deriv t : is_deriv (curve arch) t (2, 2 - 4 * t).
  Proof.
    destruct (derivative_ok (mkBez arch 0 1) t (or_introl eq_refl)) as (e & E & De). rewrite derivative_formula in E by (left; reflexivity). cbn [cps] in *.
    replace (2, 2 - 4 * t) with e; [exact De|]. injection E as <-. unfold arch, speed_at, vadd, vscale, vsub; cbn [fst snd]. f_equal; ring.
  Qed.
  Lemma arch_gentle : gentle arch.
  Proof.
    intros t1 t2 p P1 P2 P3 P4 L C. split; [|intros K; rewrite L in K; discriminate]. split; [|intros K; rewrite L in K; discriminate].
    pose proof (is_deriv_part arch p t1 t2 0 _ P2 C (arch_deriv _)) as D0. pose proof (is_deriv_part arch p t1 t2 1 _ P2 C (arch_deriv _)) as D1. cbn [fst snd] in *.
    replace (t1 + 0 * (t2 - t1)) with t1 in D0 by ring. replace (t1 + 1 * (t2 - t1)) with t2 in D1 by ring.
    eexists _, _. split; [exact D0|]. split; [exact D1|]. set (h := t2 - t1) in *. set (y0 := 2 - 4 * t1). set (y1 := 2 - 4 * t2).
    assert (H : 0 < h <= 1 / 100) by (unfold h in *; lra). unfold vdot; cbn [fst snd].
    assert (Y : y0 - y1 = 4 * h) by (unfold y0, y1, h; ring).
    assert (Dot : 3 <= 4 + y0 * y1). { replace (y0 * y1) with (((y0 + y1) * (y0 + y1) - (y0 - y1) * (y0 - y1)) / 4) by field. rewrite Y. pose proof (Rle_0_sqr (y0 + y1)) as Sq; unfold Rsqr in Sq. nra. }
    assert (Hh : 0 < h * h) by nra. assert (S0 : 0 <= y0 * y0) by nra. assert (S1 : 0 <= y1 * y1) by nra.
    replace (h * 2 * (h * 2) + h * y0 * (h * y0)) with ((h * h) * (4 + y0 * y0)) by ring. replace (h * 2 * (h * 2) + h * y1 * (h * y1)) with ((h * h) * (4 + y1 * y1)) by ring.
    replace (h * 2 * (h * 2) + h * y0 * (h * y1)) with ((h * h) * (4 + y0 * y1)) by ring. split; [nra|]. split; [nra|].
    rewrite <- sqrt_mult by nra. rewrite <- (sqrt_square (2 * (h * h * (4 + y0 * y1)))) by nra. apply sqrt_lt_1_alt. split; [nra|].
    replace (h * h * (4 + y0 * y0) * (h * h * (4 + y1 * y1))) with ((h * h) * (h * h) * ((4 + y0 * y1) * (4 + y0 * y1) + 4 * (y0 - y1) * (y0 - y1))) by ring.
    replace (2 * (h * h * (4 + y0 * y1)) * (2 * (h * h * (4 + y0 * y1)))) with ((h * h) * (h * h) * (4 * ((4 + y0 * y1) * (4 + y0 * y1)))) by ring.
    rewrite Y. apply Rmult_lt_compat_l; [nra|]. nra.
  Qed.
  Lemma level_dir (x : R) : 0 < x -> Ratan2 (0 - 0) (x - 0) = 0.
  Proof. intros X. unfold Ratan2. rewrite !Rminus_0_r. destruct (Rlt_dec 0 x); [|lra]. unfold Rdiv. rewrite Rmult_0_l. apply atan_0. Qed.
  Lemma round15_int (z : Z) : round15 (IZR z) = IZR z.
  Proof.
    unfold round15, Rround. replace (10 ^ 15) with (IZR (10 ^ 15)) by (rewrite (pow_IZR 10 15); reflexivity). rewrite <- mult_IZR.
    set (n := (z * 10 ^ 15)%Z). assert (E : Int_part (IZR n) = n).
    { pose proof (Int_part_bounds (IZR n)) as [A B]. apply le_IZR in A. rewrite <- plus_IZR in B. apply lt_IZR in B. lia. }
    rewrite E. replace (IZR n - IZR n) with 0 by ring. destruct (Rlt_dec 0 (1 / 2)); [|lra]. unfold n. rewrite mult_IZR. field. apply not_0_IZR. lia.
  Qed.
  Lemma level_linear : isLinear [(0, 0); (1, 0); (4, 0)] = Ok true.
  Proof.
    destruct (linear_test round15 round15_opp [(0, 0); (1, 0); (4, 0)] ltac:(simpl; lia)) as (l & E & H). rewrite E. f_equal. apply H.
    cbn [nth length Nat.sub fst snd]. rewrite level_dir by lra. rewrite cos_0, sin_0, (round15_int 1), (round15_int 0).
    intros q [<-|[<-|[<-|[]]]]; unfold vcross, vsub; cbn [fst snd]; match goal with |- Rabs ?x <= _ => replace x with 0 by ring end; rewrite Rabs_R0; lra.
  Qed.
  Theorem arch_offset : let b := mkBez [(0, 0); (1, 1); (2, 0)] 0 1 in isLinear (cps b) = Ok false /\ exists l, offsetCurves 102 b (1 / 2) = Ok l /\ l <> [].
  Proof.
    intros b. assert (Li : isLinear (cps b) = Ok false).
    { destruct (linear_test round15 round15_opp (cps b) ltac:(simpl; lia)) as (l & E & H). rewrite E. f_equal. destruct l; [|reflexivity]. exfalso.
      specialize (proj1 H eq_refl (1, 1) ltac:(simpl; tauto)). cbn [cps b nth length Nat.sub fst snd]. rewrite level_dir by lra. rewrite cos_0, sin_0, (round15_int 1), (round15_int 0).
      unfold vcross, vsub; cbn [fst snd]. replace (1 * (1 - 0) - 0 * (1 - 0)) with 1 by ring. rewrite Rabs_R1. lra. }
    split; [exact Li|]. destruct (offset_quadratic b (1 / 2) 102 eq_refl (Nat.le_refl _)) as (l & E).
    { unfold b, first_leg, last_leg, vcross, vsub; cbn [cps nth length Nat.sub fst snd]. lra. }
    exists l. split; [exact E|]. destruct (reduce_goes_on round15 b 102 (or_introl eq_refl) (Nat.le_refl _) arch_gentle) as (rs & Er & Nr).
    destruct (offset_pieces round15 b (1 / 2) 102 l (or_introl eq_refl) (Nat.le_refl _) Li E) as (rs' & Er' & Le & _). rewrite Er in Er'. injection Er' as <-.
    intros ->. destruct rs; [congruence|discriminate].
  Qed.
End Quadratic.
