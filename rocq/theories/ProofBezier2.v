(** Proofs about construction, split, derivative, direction, raiseOrder, normals and ABC. *)
From Coq Require Import List ZArith Bool Reals Lra Lia.
From Verif Require Import Py Inst SpecGeom SpecMatrix SpecFit SpecBezier SpecOrder SpecBounds MTransform MBounds MBezUtil MPathUtil MBezier SpecCurve
  ProofMatrix ProofFit ProofUtil ProofBounds ProofBezier.
Import ListNotations.
Local Open Scope R_scope.

(** ** Construction *)
Lemma newBezier_ok {T} `{NumOps T} (p : list (point T)) : (2 <= length p)%nat -> newBezier p = Ok (mkBez p (nofZ 0) (nofZ 1)).
Proof.
  intros L. unfold newBezier. destruct (computeDirection p) eqn:E; [reflexivity|]. exfalso. revert E.
  unfold computeDirection. destruct p as [|a [|b r]]; try (simpl in L; lia). cbn [idx nth_error bind length].
  unfold idx at 1 2. cbn [nth_error bind].
  destruct r as [|c [|d r]]; cbn -[nltb nleb neqb]; repeat match goal with |- context [if ?c then _ else _] => destruct c end; discriminate.
Qed.
Lemma newBezier_err {T} `{NumOps T} (p : list (point T)) : (length p < 2)%nat -> newBezier p = Err IndexError.
Proof. intros L. destruct p as [|a [|b r]]; try reflexivity. simpl in L; lia. Qed.

(** C38, for any number type. *)
Theorem get_ends {T} `{NumOps T} (b : bezier T) : neqb (T := T) (nofZ 0) (nofZ 0) = true ->
  neqb (T := T) (nofZ 1) (nofZ 0) = false -> neqb (T := T) (nofZ 1) (nofZ 1) = true ->
  get b (nofZ 0) = idx (cps b) 0 /\ get b (nofZ 1) = idx_last (cps b).
Proof.
  intros E00 E10 E11. unfold get. rewrite E00, E10, E11. split; auto. unfold idx, idx_last, order. now rewrite last_error_nth.
Qed.

(** ** Split *)
Definition left_of (b l : bezier R) (t : R) : Prop := forall s, curve (cps l) s = curve (cps b) (t * s).
Definition right_of (b r : bezier R) (t : R) : Prop := forall s, curve (cps r) s = curve (cps b) (t + (1 - t) * s).
Lemma bmap01 v u w : bmap v 0 1 u w = Ok (u + v * (w - u)).
Proof. unfold bmap; numRg. rewrite ndivR by lra. cbn [bind]. f_equal. field. Qed.
Theorem split1_ok (b : bezier R) t : (length (cps b) = 3 \/ length (cps b) = 4)%nat ->
  exists l r, split1 b t = Ok (l, r, hull b t) /\ length (cps l) = length (cps b) /\ length (cps r) = length (cps b) /\
    (forall s, curve (cps l) s = curve (cps b) (t * s)) /\
    (forall s, curve (cps r) s = curve (cps b) (t + (1 - t) * s)) /\
    nth 0 (cps l) (0, 0) = nth 0 (cps b) (0, 0) /\
    nth (length (cps b) - 1) (cps r) (0, 0) = nth (length (cps b) - 1) (cps b) (0, 0) /\
    nth (length (cps b) - 1) (cps l) (0, 0) = nth 0 (cps r) (0, 0) /\
    nth 0 (cps r) (0, 0) = curve (cps b) t /\
    bt1 l = bt1 b /\ bt2 l = bt1 b + t * (bt2 b - bt1 b) /\ bt1 r = bt2 l /\ bt2 r = bt2 b.
Proof.
  intros L. destruct b as [p u v]; cbn [cps bt1 bt2] in *.
  destruct p as [|[x0 y0] [|[x1 y1] [|[x2 y2] [|[x3 y3] [|p4 r]]]]]; try (simpl in L; lia).
  - unfold split1, hull. cbn [cps length order Nat.sub Nat.eqb hullLoop Nat.ltb Nat.leb dcLevel app idx nth_error bind].
    unfold idx; cbn [nth_error bind]. rewrite !newBezier_ok by (simpl; lia). cbn [bind cps bt1 bt2].
    numRg. rewrite !bmap01. cbn [bind]. do 2 eexists. split; [reflexivity|]. unfold withInterval, lerp; cbn [cps bt1 bt2 length nth fst snd Nat.sub].
    numRg. split; [reflexivity|]. split; [reflexivity|].
    split; [intros s; rewrite !curve3; cbn [fst snd]; f_equal; ring|].
    split; [intros s; rewrite !curve3; cbn [fst snd]; f_equal; ring|].
    split; [reflexivity|]. split; [reflexivity|]. split; [reflexivity|].
    split; [rewrite !curve3; cbn [fst snd]; f_equal; ring|].
    split; [ring|]. split; [reflexivity|]. split; [reflexivity|]. ring.
  - unfold split1, hull. cbn [cps length order Nat.sub Nat.eqb hullLoop Nat.ltb Nat.leb dcLevel app idx nth_error bind].
    unfold idx; cbn [nth_error bind]. rewrite !newBezier_ok by (simpl; lia). cbn [bind cps bt1 bt2].
    numRg. rewrite !bmap01. cbn [bind]. do 2 eexists. split; [reflexivity|]. unfold withInterval, lerp; cbn [cps bt1 bt2 length nth fst snd Nat.sub].
    numRg. split; [reflexivity|]. split; [reflexivity|].
    split; [intros s; rewrite !curve4; cbn [fst snd]; f_equal; ring|].
    split; [intros s; rewrite !curve4; cbn [fst snd]; f_equal; ring|].
    split; [reflexivity|]. split; [reflexivity|]. split; [reflexivity|].
    split; [rewrite !curve4; cbn [fst snd]; f_equal; ring|].
    split; [ring|]. split; [reflexivity|]. split; [reflexivity|]. ring.
Qed.
(** C40 *)
Theorem split2_ok (b : bezier R) t1 t2 : (length (cps b) = 3 \/ length (cps b) = 4)%nat -> t2 <> 0 -> (t1 <> 1 \/ t2 = 1) ->
  exists c, split2 b t1 t2 = Ok (SCurve c) /\ length (cps c) = length (cps b) /\
    (forall s, curve (cps c) s = curve (cps b) (t1 + s * (t2 - t1))) /\
    bt1 c = bt1 b + t1 * (bt2 b - bt1 b) /\ bt2 c = bt1 b + t2 * (bt2 b - bt1 b).
Proof.
  intros L N2 N1. unfold split2; numRg.
  destruct (Reqb_spec t1 0) as [->|N0]; destruct (Reqb_spec t2 0) as [|_]; try contradiction; cbn [andb negb].
  - destruct (split1_ok b t2 L) as (l & r & E & Ll & Lr & Hl & Hr & _ & _ & _ & _ & T1 & T2 & _).
    rewrite E. cbn [bind]. eexists. split; [reflexivity|]. split; auto. split; [|split; [rewrite T1; ring | exact T2]].
    intros s. rewrite Hl. f_equal. ring.
  - destruct (split1_ok b t1 L) as (l & r & E & Ll & Lr & Hl & Hr & _ & _ & _ & _ & T1 & T2 & T3 & T4).
    rewrite E. cbn [bind]. destruct (Reqb_spec t2 1) as [->|N1'].
    + eexists. split; [reflexivity|]. split; auto. split; [|split; [rewrite T3, T2; ring | rewrite T4; ring]].
      intros s. rewrite Hr. f_equal. ring.
    + destruct N1 as [N1|]; [|contradiction].
      unfold bmap; numRg. rewrite ndivR by lra. cbn [bind].
      match goal with |- context [split1 r ?x] => replace x with ((t2 - t1) / (1 - t1)) by (field; lra) end.
      destruct (split1_ok r ((t2 - t1) / (1 - t1)) ltac:(lia)) as (l' & r' & E' & Ll' & _ & Hl' & _ & _ & _ & _ & _ & T1' & T2' & _).
      rewrite E'. cbn [bind]. eexists. split; [reflexivity|]. split; [lia|]. split; [|split].
      * intros s. rewrite Hl', Hr. f_equal. field. lra.
      * rewrite T1', T3, T2. ring.
      * rewrite T2', T3, T4, T2. field. lra.
Qed.
(** Outside the domain. *)
Theorem split2_outside (b : bezier R) t1 t2 : (length (cps b) = 3 \/ length (cps b) = 4)%nat ->
  (t2 = 0 -> exists l r, split2 b t1 t2 = Ok (STriple l r (hull b t1))) /\
  (t1 = 1 -> t2 <> 0 -> t2 <> 1 -> split2 b t1 t2 = Err ZeroDivisionError).
Proof.
  intros L. unfold split2; numRg. split.
  - intros ->. destruct (split1_ok b t1 L) as (l & r & E & _). rewrite E. cbn [bind].
    rewrite Reqb_refl. rewrite andb_false_r. destruct (Reqb_spec 0 1); [lra|]. eauto.
  - intros -> N0 N1. destruct (split1_ok b 1 L) as (l & r & E & _). rewrite E. cbn [bind].
    destruct (Reqb_spec 1 0); [lra|]. destruct (Reqb_spec t2 1); [contradiction|]. destruct (Reqb_spec t2 0); [contradiction|]. cbn [andb negb bind].
    unfold bmap; numRg. replace (1 - 1) with 0 by ring. now rewrite ndivR0.
Qed.
(** Orders without a split: a line raises IndexError. *)
Theorem split1_line (b : bezier R) t : length (cps b) = 2%nat -> split1 b t = Err IndexError.
Proof. destruct b as [p u v]; cbn [cps]. intros L. destruct p as [|a [|b [|c r]]]; try (simpl in L; lia). reflexivity. Qed.

(** C41: descendants of a curve by splits. *)
Lemma split2_domain (b : bezier R) t1 t2 : (length (cps b) = 3 \/ length (cps b) = 4)%nat ->
  (t2 <> 0 /\ (t1 <> 1 \/ t2 = 1)) \/ t2 = 0 \/ (t1 = 1 /\ t2 <> 0 /\ t2 <> 1).
Proof. intros _. destruct (Req_dec t2 0), (Req_dec t1 1), (Req_dec t2 1); tauto. Qed.
Definition part_of (o b : bezier R) : Prop := (length (cps b) = length (cps o)) /\
  forall s, curve (cps b) s = curve (cps o) (bt1 b + s * (bt2 b - bt1 b)).
Lemma part_left o b t l r q : (length (cps o) = 3 \/ length (cps o) = 4)%nat -> part_of o b -> split1 b t = Ok (l, r, q) -> part_of o l /\ part_of o r.
Proof.
  intros L [Lb P] E. rewrite <- Lb in L. destruct (split1_ok b t L) as (l' & r' & E' & Ll & Lr & Hl & Hr & _ & _ & _ & _ & T1 & T2 & T3 & T4).
  rewrite E in E'. injection E' as <- <- _. split; (split; [congruence|]); intros s.
  - rewrite Hl, P, T1, T2. f_equal. ring.
  - rewrite Hr, P, T4, T3, T2. f_equal. ring.
Qed.
Lemma triple_split (b : bezier R) t1 t2 l r q : split2 b t1 t2 = Ok (STriple l r q) -> split1 b t1 = Ok (l, r, q).
Proof.
  unfold split2; numRg. rcases; intros E; apply bind_Ok in E as ([[a b'] c] & E1 & E); try discriminate;
    try (injection E as <- <- <-; exact E1);
    apply bind_Ok in E as (x & _ & E); apply bind_Ok in E as ([[a2 b2] c2] & _ & E); discriminate.
Qed.
Theorem descends_part o b : (length (cps o) = 3 \/ length (cps o) = 4)%nat -> bt1 o = 0 -> bt2 o = 1 -> descends o b -> part_of o b.
Proof.
  intros L T1 T2 H. induction H.
  - split; auto. intros s. rewrite T1, T2. f_equal. ring.
  - exact (proj1 (part_left o b t l r q L IHdescends H0)).
  - exact (proj2 (part_left o b t l r q L IHdescends H0)).
  - destruct IHdescends as [Lb P]. pose proof L as Lb'. rewrite <- Lb in Lb'.
    destruct (split2_domain b t1 t2 Lb') as [[N2 N1]|[N|[N1 [N2 N3]]]].
    + destruct (split2_ok b t1 t2 Lb' N2 N1) as (c' & E & Lc & Hc & U1 & U2). rewrite H0 in E. injection E as <-.
      split; [congruence|]. intros s. rewrite Hc, P, U1, U2. f_equal. ring.
    + destruct (proj1 (split2_outside b t1 t2 Lb') N) as (l & r & E). congruence.
    + rewrite (proj2 (split2_outside b t1 t2 Lb')) in H0 by auto. discriminate.
  - apply triple_split in H0. exact (proj1 (part_left o b t1 l r q L IHdescends H0)).
  - apply triple_split in H0. exact (proj2 (part_left o b t1 l r q L IHdescends H0)).
Qed.

(** ** C45 *)
Theorem curve_in_box (p : list pt) t xlo xhi ylo yhi : p <> [] -> 0 <= t <= 1 ->
  (forall q, In q p -> xlo <= fst q <= xhi /\ ylo <= snd q <= yhi) ->
  xlo <= fst (curve p t) <= xhi /\ ylo <= snd (curve p t) <= yhi.
Proof.
  intros N Ht B. rewrite curve_cv. unfold cv; cbn [fst snd].
  assert (I : forall i, (i <= length p - 1)%nat -> In (nth i p (0, 0)) p).
  { intros i Hi. apply nth_In. destruct p; [congruence | simpl in *; lia]. }
  split; apply bez_bound; auto; intros i Hi; apply (B (nth i p (0, 0))); auto.
Qed.
Theorem curve_in_skeleton (b : bezier R) t : (1 <= length (cps b))%nat -> 0 <= t <= 1 ->
  enclosesPoint (skeletonBounds b) (curve (cps b) t) = true.
Proof.
  intros L Ht. set (s := fromContour [cps b]).
  assert (B : forall q, In q (cps b) -> left s <= fst q <= right s /\ bottom s <= snd q <= top s).
  { intros q Hq. assert (E : enclosesPoint s q = true).
    { apply (fromContour_encloses _ R_order [cps b] (cps b)); simpl; auto. constructor; [apply Rgood | constructor]. }
    apply enclosesPoint_iff in E. unfold in_box in E. numR. rewrite !Rleb_true in E. lra. }
  destruct (curve_in_box (cps b) t _ _ _ _ ltac:(destruct (cps b); [simpl in L; lia | discriminate]) Ht B) as [X Y].
  apply enclosesPoint_iff. unfold in_box, skeletonBounds. fold s. cbn [left right top bottom]. numRg. rewrite !Rleb_true. lra.
Qed.

Theorem skeleton_room (b : bezier R) xlo xhi ylo yhi : (forall q, In q (cps b) -> xlo <= fst q <= xhi /\ ylo <= snd q <= yhi) ->
  In xlo (map fst (cps b)) -> In xhi (map fst (cps b)) -> In ylo (map snd (cps b)) -> In yhi (map snd (cps b)) ->
  -32768 <= xlo -> xhi <= 32768 -> -32768 <= ylo -> yhi <= 32768 -> skeletonBounds b = mkRect xlo (xhi + 40) yhi ylo.
Proof.
  intros B I1 I2 I3 I4 X1 X2 Y1 Y2. set (s := fromContour [cps b]).
  assert (E : forall q, In q (cps b) -> left s <= fst q <= right s /\ bottom s <= snd q <= top s).
  { intros q Hq. assert (E : enclosesPoint s q = true).
    { apply (fromContour_encloses _ R_order [cps b] (cps b)); simpl; auto. constructor; [apply Rgood | constructor]. }
    apply enclosesPoint_iff in E. unfold in_box in E. numR. rewrite !Rleb_true in E. lra. }
  assert (T : xlo <= left s /\ right s <= xhi /\ ylo <= bottom s /\ top s <= yhi).
  { assert (Q : In xlo (map fst (cps b)) /\ In ylo (map snd (cps b)) /\ In xhi (map fst (cps b)) /\ In yhi (map snd (cps b))) by auto.
    destruct Q as (J1 & J3 & J2 & J4). apply in_map_iff in J1 as (p1 & K1 & J1). apply in_map_iff in J2 as (p2 & K2 & J2). apply in_map_iff in J3 as (p3 & K3 & J3). apply in_map_iff in J4 as (p4 & K4 & J4).
    pose proof (fromContour_tight _ R_order [cps b] xlo xhi ylo yhi) as T. cbv zeta in T. fold s in T. cbn [concat] in T. rewrite app_nil_r in T. numR.
    assert (T' : Rleb xlo (left s) = true /\ Rleb (right s) xhi = true /\ Rleb ylo (bottom s) = true /\ Rleb (top s) yhi = true).
    { apply T; auto.
      - constructor; [apply Rgood | constructor].
      - constructor; [|constructor]. intros N. rewrite N in J1. destruct J1.
      - pose proof (B p1 J1). pose proof (B p3 J3). repeat split; [exists p1 | exists p2 | exists p3 | exists p4]; (split; [assumption|]); unfold SpecBounds.le; numRg; rewrite ?Rleb_true; lra.
      - intros p Hp. unfold in_box. numRg. rewrite !Rleb_true. specialize (B p Hp). lra. }
    rewrite !Rleb_true in T'. exact T'. }
  apply in_map_iff in I1 as (q1 & <- & I1). apply in_map_iff in I2 as (q2 & <- & I2). apply in_map_iff in I3 as (q3 & <- & I3). apply in_map_iff in I4 as (q4 & <- & I4).
  pose proof (E _ I1). pose proof (E _ I2). pose proof (E _ I3). pose proof (E _ I4).
  unfold skeletonBounds. fold s. numRg. f_equal; lra.
Qed.

(** ** C46 *)
Lemma cv_deriv (p : list pt) t : (2 <= length p)%nat -> is_deriv (cv p) t (cv (dcLevel (diffStep (length p - 1)) p) t).
Proof.
  intros L. unfold is_deriv, cv; cbn [fst snd]. rewrite dcLevel_length. destruct (length p) as [|[|n]] eqn:E; try lia.
  replace (S (S n) - 1)%nat with (S n) by lia. replace (S n - 1)%nat with n by lia.
  split.
  - rewrite (bez_ext n _ (fun i => INR (S n) * (cx p (S i) - cx p i) + 0 * 0)).
    + rewrite (bez_lin n _ _ _ (fun _ => 0)). rewrite Rmult_0_l, Rplus_0_r. apply (bez_deriv (S n)).
    + intros i Hi. unfold cx. rewrite dcLevel_nth by lia. unfold diffStep; numRg. cbn [fst]. rewrite INR_IZR_INZ. ring.
  - rewrite (bez_ext n _ (fun i => INR (S n) * (cy p (S i) - cy p i) + 0 * 0)).
    + rewrite (bez_lin n _ _ _ (fun _ => 0)). rewrite Rmult_0_l, Rplus_0_r. apply (bez_deriv (S n)).
    + intros i Hi. unfold cy. rewrite dcLevel_nth by lia. unfold diffStep; numRg. cbn [snd]. rewrite INR_IZR_INZ. ring.
Qed.
Lemma is_deriv_ext f g t d : (forall u, f u = g u) -> is_deriv f t d -> is_deriv g t d.
Proof. intros E [A B]. split; eapply derivable_pt_lim_ext; eauto; intros; simpl; now rewrite E. Qed.
Lemma curve_deriv (p : list pt) t : (2 <= length p)%nat -> is_deriv (curve p) t (curve (dcLevel (diffStep (length p - 1)) p) t).
Proof.
  intros L. rewrite curve_cv. apply (is_deriv_ext (cv p)); [intros; now rewrite curve_cv|]. now apply cv_deriv.
Qed.
Lemma dcPointsFrom_S d p : dcPointsFrom (T := R) (S (S d)) p = dcLevel (diffStep (S d)) p :: dcPointsFrom (S d) (dcLevel (diffStep (S d)) p).
Proof. reflexivity. Qed.
Theorem dcPoints_derivs : forall d (p : list pt), length p = d ->
  length (dcPointsFrom d p) = (d - 1)%nat /\
  forall k t, (k < d - 1)%nat ->
    length (nth (S k) (p :: dcPointsFrom d p) []) = (d - 1 - k)%nat /\
    is_deriv (curve (nth k (p :: dcPointsFrom d p) [])) t (curve (nth (S k) (p :: dcPointsFrom d p) []) t).
Proof.
  induction d as [|[|d] IH]; intros p L.
  - split; [reflexivity|]. intros; lia.
  - split; [reflexivity|]. intros; lia.
  - rewrite dcPointsFrom_S. destruct (IH (dcLevel (diffStep (S d)) p)) as [A B]; [rewrite dcLevel_length; lia|].
    split; [cbn [length]; rewrite A; lia|]. intros [|k] t Hk.
    + cbn [nth]. split; [rewrite dcLevel_length; lia|]. replace (S d) with (length p - 1)%nat at 1 by lia. apply curve_deriv. lia.
    + change (nth (S (S k)) (p :: ?l)) with (nth (S k) l). change (nth (S k) (p :: ?l)) with (nth k l).
      destruct (B k t ltac:(lia)) as [B1 B2]. split; [rewrite B1; lia | exact B2].
Qed.
Theorem derivative_ok (b : bezier R) t : (length (cps b) = 3 \/ length (cps b) = 4)%nat ->
  exists d, derivative b t = Ok d /\ is_deriv (curve (cps b)) t d.
Proof.
  intros L. exists (curve (dcLevel (diffStep (length (cps b) - 1)) (cps b)) t).
  split; [|apply curve_deriv; lia]. destruct b as [p u v]; cbn [cps] in *.
  destruct p as [|[x0 y0] [|[x1 y1] [|[x2 y2] [|[x3 y3] [|p4 r]]]]]; try (simpl in L; lia).
  - cbn [length Nat.sub dcLevel]. rewrite curve2. cbn. numRg. apply Ok_pair; simpl; ring.
  - cbn [length Nat.sub dcLevel]. rewrite curve3. cbn. numRg. apply Ok_pair; simpl; ring.
Qed.
Theorem derivative_line (b : bezier R) t : length (cps b) = 2%nat -> derivative b t = Err IndexError.
Proof. destruct b as [p u v]; cbn [cps]. intros L. destruct p as [|a [|c [|e r]]]; try (simpl in L; lia). reflexivity. Qed.

(** ** C47 *)
Lemma bern2_mono a b c s t : a <= b -> b <= c -> 0 <= s -> s <= t -> t <= 1 ->
  (1 - s) ^ 2 * a + 2 * (1 - s) * s * b + s ^ 2 * c <= (1 - t) ^ 2 * a + 2 * (1 - t) * t * b + t ^ 2 * c.
Proof.
  intros. assert (0 <= (t - s) * ((2 - s - t) * (b - a) + (s + t) * (c - b))).
  { apply Rmult_le_pos; [lra|]. apply Rplus_le_le_0_compat; apply Rmult_le_pos; lra. }
  lra.
Qed.
Lemma bern3_mono a b c d s t : a <= b -> b <= c -> c <= d -> 0 <= s -> s <= t -> t <= 1 ->
  (1 - s) ^ 3 * a + 3 * (1 - s) ^ 2 * s * b + 3 * (1 - s) * s ^ 2 * c + s ^ 3 * d <=
  (1 - t) ^ 3 * a + 3 * (1 - t) ^ 2 * t * b + 3 * (1 - t) * t ^ 2 * c + t ^ 3 * d.
Proof.
  intros. assert (0 <= (t - s) * (((1 - s) * (1 - s) + (1 - s) * (1 - t) + (1 - t) * (1 - t)) * (b - a)
    + (2 * (s * (1 - s)) + 2 * (t * (1 - t)) + s * (1 - t) + t * (1 - s)) * (c - b) + (s * s + s * t + t * t) * (d - c))).
  { apply Rmult_le_pos; [lra|].
    assert (0 <= (1 - s) * (1 - s)) by (apply Rmult_le_pos; lra). assert (0 <= (1 - s) * (1 - t)) by (apply Rmult_le_pos; lra).
    assert (0 <= (1 - t) * (1 - t)) by (apply Rmult_le_pos; lra). assert (0 <= s * (1 - s)) by (apply Rmult_le_pos; lra).
    assert (0 <= t * (1 - t)) by (apply Rmult_le_pos; lra). assert (0 <= s * (1 - t)) by (apply Rmult_le_pos; lra).
    assert (0 <= t * (1 - s)) by (apply Rmult_le_pos; lra). assert (0 <= s * s) by (apply Rmult_le_pos; lra).
    assert (0 <= s * t) by (apply Rmult_le_pos; lra). assert (0 <= t * t) by (apply Rmult_le_pos; lra).
    repeat apply Rplus_le_le_0_compat; apply Rmult_le_pos; lra. }
  lra.
Qed.
Theorem direction_ok (p : list pt) d : (2 <= length p <= 4)%nat -> computeDirection p = Ok d ->
  match d with
  | dir_up => forall s t, 0 <= s -> s <= t -> t <= 1 -> snd (curve p s) <= snd (curve p t)
  | dir_down => forall s t, 0 <= s -> s <= t -> t <= 1 -> snd (curve p t) <= snd (curve p s)
  | dir_flat => forall s t, snd (curve p s) = snd (curve p t)
  | dir_mixed => (3 <= length p)%nat
  end.
Proof.
  intros L. destruct p as [|[x0 y0] [|[x1 y1] [|[x2 y2] [|[x3 y3] [|p4 r]]]]]; try (simpl in L; lia); cbn [computeDirection idx nth_error bind length Nat.sub Nat.eqb fst snd]; numRg.
  - rcases; intros E; injection E as <-; intros; rewrite !curve2; cbn [fst snd]; subst; try ring; nra.
  - rcases; intros E; injection E as <-; try lia; intros s t Hs1 Hst Ht1; rewrite !curve3; cbn [fst snd].
    all: try (apply bern2_mono; lra).
    all: pose proof (bern2_mono (- y0) (- y1) (- y2) s t); lra.
  - rcases; intros E; injection E as <-; try lia; intros s t Hs1 Hst Ht1; rewrite !curve4; cbn [fst snd].
    all: try (apply bern3_mono; lra).
    all: pose proof (bern3_mono (- y0) (- y1) (- y2) (- y3) s t); lra.
Qed.
Theorem direction_line (a b : pt) : exists d, computeDirection [a; b] = Ok d /\
  (d = dir_up <-> snd a < snd b) /\ (d = dir_down <-> snd b < snd a) /\ (d = dir_flat <-> snd a = snd b).
Proof.
  destruct a as [x0 y0], b as [x1 y1]. cbn; numRg. rcases; eexists; (split; [reflexivity|]); repeat split; intros; try discriminate; try lra; auto.
Qed.
