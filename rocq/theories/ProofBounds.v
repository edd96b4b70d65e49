(** Proofs about BoundsRectangle. *)
From Coq Require Import List ZArith Bool Lia.
From Verif Require Import Py Inst SpecGeom SpecOrder MBounds SpecBounds.
Import ListNotations.
Local Open Scope num_scope.

Section Ord.
  Context {T : Type} `{NumOps T} (D : T -> Prop) (O : TotalOrder D).

  Local Infix "≤" := le (at level 70).
  Local Notation good_contour := (good_contour D).
  Local Notation inside := (inside D).
  Local Notation disjoint := (disjoint D).

  Lemma le_refl x : D x -> x ≤ x. Proof. apply (to_refl D O). Qed.
  Lemma le_trans x y z : D x -> D y -> D z -> x ≤ y -> y ≤ z -> x ≤ z.
  Proof. apply (to_trans D O). Qed.
  Lemma le_total x y : D x -> D y -> x ≤ y \/ y ≤ x. Proof. apply (to_total D O). Qed.
  Lemma lt_spec x y : D x -> D y -> (x <? y) = true <-> ~ y ≤ x.
  Proof. intros Dx Dy. rewrite (to_lt D O) by auto. unfold le. destruct (y <=? x); simpl; split; congruence. Qed.
  Lemma lt_false x y : D x -> D y -> (x <? y) = false <-> y ≤ x.
  Proof. intros Dx Dy. rewrite (to_lt D O) by auto. unfold le. destruct (y <=? x); simpl; split; congruence. Qed.

  Lemma pmin_D a b : D a -> D b -> D (pmin a b).
  Proof. unfold pmin; destruct (b <? a); auto. Qed.
  Lemma pmax_D a b : D a -> D b -> D (pmax a b).
  Proof. unfold pmax; destruct (a <? b); auto. Qed.
  Lemma not_le x y : D x -> D y -> ~ x ≤ y -> y ≤ x.
  Proof. intros Dx Dy N; destruct (le_total x y); auto; contradiction. Qed.
  Lemma pmin_l a b : D a -> D b -> pmin a b ≤ a.
  Proof.
    intros Da Db; unfold pmin. destruct (b <? a) eqn:E; auto using le_refl.
    apply lt_spec in E; auto. apply not_le; auto.
  Qed.
  Lemma pmin_r a b : D a -> D b -> pmin a b ≤ b.
  Proof.
    intros Da Db; unfold pmin. destruct (b <? a) eqn:E; auto using le_refl.
    apply lt_false in E; auto.
  Qed.
  Lemma pmax_l a b : D a -> D b -> a ≤ pmax a b.
  Proof.
    intros Da Db; unfold pmax. destruct (a <? b) eqn:E; auto using le_refl.
    apply lt_spec in E; auto. apply not_le; auto.
  Qed.
  Lemma pmax_r a b : D a -> D b -> b ≤ pmax a b.
  Proof.
    intros Da Db; unfold pmax. destruct (a <? b) eqn:E; auto using le_refl.
    apply lt_false in E; auto.
  Qed.
  Lemma pmin_glb a b c : c ≤ a -> c ≤ b -> c ≤ pmin a b.
  Proof. unfold pmin; destruct (b <? a); auto. Qed.
  Lemma pmax_lub a b c : a ≤ c -> b ≤ c -> pmax a b ≤ c.
  Proof. unfold pmax; destruct (a <? b); auto. Qed.

  Hint Resolve pmin_D pmax_D : ord.

  Ltac lech :=
    repeat match goal with
    | K : (?a <=? ?b) = true |- _ => change (le a b) in K
    | |- (?a <=? ?b) = true => change (le a b)
    end.
  Ltac letr :=
    solve [ assumption
          | apply le_refl; auto with ord
          | match goal with
            | K : le ?a ?b |- le ?a ?c =>
                apply (le_trans a b c); [auto with ord | auto with ord | auto with ord | exact K |];
                clear K; letr
            end ].
  Ltac letrans := lech; letr.
  Ltac pm :=
    repeat match goal with
    | |- context [pmin ?a ?b] =>
        pose proof (pmin_l a b ltac:(auto with ord) ltac:(auto with ord));
        pose proof (pmin_r a b ltac:(auto with ord) ltac:(auto with ord));
        assert (D (pmin a b)) by auto with ord;
        pose proof (fun c => pmin_glb a b c);
        let x := fresh "m" in set (x := pmin a b) in *; clearbody x
    | |- context [pmax ?a ?b] =>
        pose proof (pmax_l a b ltac:(auto with ord) ltac:(auto with ord));
        pose proof (pmax_r a b ltac:(auto with ord) ltac:(auto with ord));
        assert (D (pmax a b)) by auto with ord;
        pose proof (fun c => pmax_lub a b c);
        let x := fresh "m" in set (x := pmax a b) in *; clearbody x
    end.

  Definition minl (l : list T) (x : T) : T := fold_left pmin l x.
  Definition maxl (l : list T) (x : T) : T := fold_left pmax l x.

  Lemma minl_D l x : D x -> Forall D l -> D (minl l x).
  Proof. intros Dx F; revert x Dx; induction F; simpl; auto with ord. Qed.
  Lemma maxl_D l x : D x -> Forall D l -> D (maxl l x).
  Proof. intros Dx F; revert x Dx; induction F; simpl; auto with ord. Qed.
  Lemma minl_lb l x : D x -> Forall D l -> minl l x ≤ x /\ Forall (fun y => minl l x ≤ y) l.
  Proof.
    intros Dx F; revert x Dx; induction F as [|y l Dy F IH]; simpl; intros x Dx.
    - auto using le_refl.
    - destruct (IH (pmin x y)) as [H1 H2]; auto with ord. fold (minl l (pmin x y)).
      assert (D (minl l (pmin x y))) by (apply minl_D; auto with ord).
      pose proof (pmin_l x y Dx Dy); pose proof (pmin_r x y Dx Dy).
      split; [|constructor; auto]; letrans.
  Qed.
  Lemma maxl_ub l x : D x -> Forall D l -> x ≤ maxl l x /\ Forall (fun y => y ≤ maxl l x) l.
  Proof.
    intros Dx F; revert x Dx; induction F as [|y l Dy F IH]; simpl; intros x Dx.
    - auto using le_refl.
    - destruct (IH (pmax x y)) as [H1 H2]; auto with ord. fold (maxl l (pmax x y)).
      assert (D (maxl l (pmax x y))) by (apply maxl_D; auto with ord).
      pose proof (pmax_l x y Dx Dy); pose proof (pmax_r x y Dx Dy).
      split; [|constructor; auto]; letrans.
  Qed.
  Lemma minl_glb l x c : c ≤ x -> Forall (fun y => c ≤ y) l -> c ≤ minl l x.
  Proof. intros Hx F; revert x Hx; induction F; simpl; auto. intros. apply IHF, pmin_glb; auto. Qed.
  Lemma maxl_lub l x c : x ≤ c -> Forall (fun y => y ≤ c) l -> maxl l x ≤ c.
  Proof. intros Hx F; revert x Hx; induction F; simpl; auto. intros. apply IHF, pmax_lub; auto. Qed.

  (** The constructor as four folds. *)
  Lemma fold_addPoint ps r :
    fold_left addPoint ps r =
    mkRect (minl (map fst ps) (left r)) (maxl (map fst ps) (right r))
           (maxl (map snd ps) (top r)) (minl (map snd ps) (bottom r)).
  Proof.
    revert r; induction ps as [|[x y] ps IH]; intros r; simpl; [destruct r; auto|].
    rewrite IH; auto.
  Qed.
  Lemma BR_fields ps :
    BoundsRectangle ps =
    mkRect (minl (map fst ps) (nofZ 32768)) (maxl (map fst ps) (nofZ (-32768)))
           (maxl (map snd ps) (nofZ (-32768))) (minl (map snd ps) (nofZ 32768)).
  Proof. apply fold_addPoint. Qed.

  Lemma good_fst ps : good_points D ps -> Forall D (map fst ps).
  Proof. induction 1; simpl; constructor; tauto. Qed.
  Lemma good_snd ps : good_points D ps -> Forall D (map snd ps).
  Proof. induction 1; simpl; constructor; tauto. Qed.

  (** All four edges are comparable values. *)
  Definition Drect (r : rect T) : Prop := D (left r) /\ D (right r) /\ D (top r) /\ D (bottom r).
  Lemma BR_D ps : good_points D ps -> Drect (BoundsRectangle ps).
  Proof.
    intros G. pose proof (good_fst ps G). pose proof (good_snd ps G). rewrite BR_fields.
    repeat split; simpl; (apply minl_D || apply maxl_D); auto; apply (to_lit D O).
  Qed.

  Lemma Forall_map_iff {A B} (f : A -> B) (P : B -> Prop) l :
    Forall P (map f l) <-> Forall (fun a => P (f a)) l.
  Proof. induction l; simpl; split; intros F; try constructor; inversion F; subst; auto; apply IHl; auto. Qed.

  (** ** C09 *)
  Definition sentinels (r : rect T) : Prop :=
    left r ≤ nofZ 32768 /\ bottom r ≤ nofZ 32768 /\ nofZ (-32768) ≤ right r /\ nofZ (-32768) ≤ top r.
  Lemma BR_sentinels ps : good_points D ps -> sentinels (BoundsRectangle ps).
  Proof.
    intros G. pose proof (good_fst ps G). pose proof (good_snd ps G). rewrite BR_fields.
    repeat split; simpl; (apply minl_lb || apply maxl_ub); auto; apply (to_lit D O).
  Qed.
  Lemma BR_in ps p : good_points D ps -> In p ps ->
    in_box (left (BoundsRectangle ps)) (right (BoundsRectangle ps))
           (bottom (BoundsRectangle ps)) (top (BoundsRectangle ps)) p.
  Proof.
    intros G Hp. pose proof (good_fst ps G) as F1. pose proof (good_snd ps G) as F2. rewrite BR_fields.
    unfold in_box; simpl.
    destruct (minl_lb (map fst ps) (nofZ 32768)) as [_ A]; auto; [apply (to_lit D O)|].
    destruct (maxl_ub (map fst ps) (nofZ (-32768))) as [_ B]; auto; [apply (to_lit D O)|].
    destruct (minl_lb (map snd ps) (nofZ 32768)) as [_ C]; auto; [apply (to_lit D O)|].
    destruct (maxl_ub (map snd ps) (nofZ (-32768))) as [_ E]; auto; [apply (to_lit D O)|].
    rewrite Forall_map_iff, Forall_forall in A, B, C, E.
    repeat split; [apply A | apply B | apply C | apply E]; auto.
  Qed.
  Lemma enclosesPoint_iff r p :
    enclosesPoint r p = true <-> in_box (left r) (right r) (bottom r) (top r) p.
  Proof. destruct p. unfold enclosesPoint, in_box; simpl. rewrite !andb_true_iff. tauto. Qed.
  Theorem BR_encloses ps p : good_points D ps -> In p ps ->
    enclosesPoint (BoundsRectangle ps) p = true.
  Proof. intros. apply enclosesPoint_iff, BR_in; auto. Qed.

  (** ** C10: tightness *)
  (** [r0] contains [r] edge by edge. *)
  Definition rsub (r r0 : rect T) : Prop :=
    left r0 ≤ left r /\ right r ≤ right r0 /\ top r ≤ top r0 /\ bottom r0 ≤ bottom r.

  Theorem BR_tight ps l r b t : good_points D ps -> D l -> D r -> D b -> D t ->
    in_range ps -> (forall p, In p ps -> in_box l r b t p) ->
    l ≤ left (BoundsRectangle ps) /\ right (BoundsRectangle ps) ≤ r /\
    b ≤ bottom (BoundsRectangle ps) /\ top (BoundsRectangle ps) ≤ t.
  Proof.
    intros G Dl Dr Db Dt ((p1 & I1 & H1) & (p2 & I2 & H2) & (p3 & I3 & H3) & (p4 & I4 & H4)) A.
    rewrite BR_fields; simpl. pose proof (to_lit D O) as L.
    assert (Dp : forall p, In p ps -> D (fst p) /\ D (snd p)) by (apply Forall_forall; auto).
    repeat split.
    - apply minl_glb; [|rewrite Forall_map_iff, Forall_forall; intros p Hp; apply (A p Hp)].
      apply le_trans with (fst p1); auto; [apply Dp; auto | apply (A p1 I1)].
    - apply maxl_lub; [|rewrite Forall_map_iff, Forall_forall; intros p Hp; apply (A p Hp)].
      apply le_trans with (fst p2); auto; [apply Dp; auto | apply (A p2 I2)].
    - apply minl_glb; [|rewrite Forall_map_iff, Forall_forall; intros p Hp; apply (A p Hp)].
      apply le_trans with (snd p3); auto; [apply Dp; auto | apply (A p3 I3)].
    - apply maxl_lub; [|rewrite Forall_map_iff, Forall_forall; intros p Hp; apply (A p Hp)].
      apply le_trans with (snd p4); auto; [apply Dp; auto | apply (A p4 I4)].
  Qed.

  (** The exact value of every edge: the extreme coordinate clipped by the sentinel. *)
  Theorem BR_exact ps x : good_points D ps -> D x ->
    (x ≤ left (BoundsRectangle ps) <-> x ≤ nofZ 32768 /\ forall p, In p ps -> x ≤ fst p) /\
    (right (BoundsRectangle ps) ≤ x <-> nofZ (-32768) ≤ x /\ forall p, In p ps -> fst p ≤ x) /\
    (x ≤ bottom (BoundsRectangle ps) <-> x ≤ nofZ 32768 /\ forall p, In p ps -> x ≤ snd p) /\
    (top (BoundsRectangle ps) ≤ x <-> nofZ (-32768) ≤ x /\ forall p, In p ps -> snd p ≤ x).
  Proof.
    intros G Dx. destruct (BR_sentinels ps G) as (S1&S2&S3&S4). destruct (BR_D ps G) as (D1&D2&D3&D4).
    pose proof (BR_in ps) as I. pose proof (to_lit D O) as L.
    assert (Dp : forall p, In p ps -> D (fst p) /\ D (snd p)) by (apply Forall_forall; auto).
    split; [|split; [|split]]; (split;
      [ intros X; split; [letrans | intros p Hp; destruct (I p G Hp) as (I1&I2&I3&I4), (Dp p Hp); letrans]
      | intros [X Y]; rewrite BR_fields; simpl; first [apply minl_glb | apply maxl_lub]; auto;
        rewrite Forall_map_iff, Forall_forall; auto ]).
  Qed.

  (** ** Valid rectangles *)
  (** Non-empty as a point set, built by the constructor (so within the sentinel invariant). *)
  Definition valid (r : rect T) : Prop := left r ≤ right r /\ bottom r ≤ top r.
  Lemma BR_valid ps : good_points D ps -> ps <> [] -> valid (BoundsRectangle ps).
  Proof.
    intros G N. destruct ps as [|p ps]; [congruence|].
    assert (I : In p (p :: ps)) by (left; auto). destruct (BR_in _ p G I) as (A & B & C & E).
    destruct (BR_D _ G) as (D1 & D2 & D3 & D4).
    assert (Dp : D (fst p) /\ D (snd p)) by (inversion G; auto).
    split; eapply le_trans; [| | |exact A|exact B| | | |exact C|exact E]; tauto.
  Qed.

  (** Two-corner constructor call on ordered corners inside the sentinels is exact. *)
  Lemma BR2 l r b t : D l -> D r -> D b -> D t -> l ≤ r -> b ≤ t ->
    l ≤ nofZ 32768 -> b ≤ nofZ 32768 -> nofZ (-32768) ≤ r -> nofZ (-32768) ≤ t ->
    let x := BoundsRectangle [(l, b); (r, t)] in
    eqv (left x) l /\ eqv (right x) r /\ eqv (bottom x) b /\ eqv (top x) t.
  Proof.
    intros Dl Dr Db Dt Hlr Hbt H1 H2 H3 H4. pose proof (to_lit D O) as L. simpl.
    unfold eqv. fold (le (pmin (pmin (nofZ 32768) l) r) l).
    repeat split; fold (@le).
    - eapply le_trans; [| | |apply pmin_l|apply pmin_r]; auto with ord.
    - apply pmin_glb; auto. apply pmin_glb; auto using le_refl.
    - apply pmax_lub; auto using le_refl. apply pmax_lub; auto.
    - apply pmax_r; auto with ord.
    - eapply le_trans; [| | |apply pmin_l|apply pmin_r]; auto with ord.
    - apply pmin_glb; auto. apply pmin_glb; auto using le_refl.
    - apply pmax_lub; auto using le_refl. apply pmax_lub; auto.
    - apply pmax_r; auto with ord.
  Qed.


  Lemma eqv_refl x : D x -> eqv x x. Proof. intros; split; apply le_refl; auto. Qed.
  Lemma eqv_sym x y : eqv x y -> eqv y x. Proof. unfold eqv; tauto. Qed.
  Lemma eqv_trans x y z : D x -> D y -> D z -> eqv x y -> eqv y z -> eqv x z.
  Proof. intros Dx Dy Dz [A B] [C E]; split; eapply le_trans; [| | |exact A|exact C| | | |exact E|exact B]; auto. Qed.
  Lemma pmin_eqv a b c e : D a -> D b -> D c -> D e -> eqv a c -> eqv b e -> eqv (pmin a b) (pmin c e).
  Proof.
    intros Da Db Dc De [A1 A2] [B1 B2]; split; fold (@le); apply pmin_glb;
      (eapply le_trans; [| | |apply pmin_l|eassumption]) || (eapply le_trans; [| | |apply pmin_r|eassumption]); auto with ord.
  Qed.
  Lemma pmax_eqv a b c e : D a -> D b -> D c -> D e -> eqv a c -> eqv b e -> eqv (pmax a b) (pmax c e).
  Proof.
    intros Da Db Dc De [A1 A2] [B1 B2]; split; fold (@le); apply pmax_lub;
      (eapply le_trans; [| | |eassumption|apply pmax_l]) || (eapply le_trans; [| | |eassumption|apply pmax_r]); auto with ord.
  Qed.

  (** ** union *)
  Definition edges (r : rect T) : T * T * T * T := (left r, right r, bottom r, top r).

  Lemma union_fields a b : Drect a -> Drect b -> sentinels a -> sentinels b ->
    pmin (left a) (left b) ≤ pmax (right a) (right b) ->
    pmin (bottom a) (bottom b) ≤ pmax (top a) (top b) ->
    req (union a b) (mkRect (pmin (left a) (left b)) (pmax (right a) (right b))
                            (pmax (top a) (top b)) (pmin (bottom a) (bottom b))).
  Proof.
    intros (A1&A2&A3&A4) (B1&B2&B3&B4) (S1&S2&S3&S4) (R1&R2&R3&R4) V1 V2.
    pose proof (to_lit D O) as L.
    destruct (BR2 (pmin (left a) (left b)) (pmax (right a) (right b))
                  (pmin (bottom a) (bottom b)) (pmax (top a) (top b))) as (X1&X2&X3&X4); auto with ord.
    - pm; letrans.
    - pm; letrans.
    - pm; letrans.
    - pm; letrans.
    - unfold union, req; cbn [left right top bottom]; auto.
  Qed.

  (** Whatever the rectangles, the union contains both. *)
  Lemma union_contains a b p : Drect a -> Drect b -> D (fst p) -> D (snd p) ->
    in_box (left a) (right a) (bottom a) (top a) p \/ in_box (left b) (right b) (bottom b) (top b) p ->
    in_box (left (union a b)) (right (union a b)) (bottom (union a b)) (top (union a b)) p.
  Proof.
    intros (A1&A2&A3&A4) (B1&B2&B3&B4) Dx Dy I. pose proof (to_lit D O) as L.
    set (l := pmin (left a) (left b)). set (r := pmax (right a) (right b)).
    set (bt := pmin (bottom a) (bottom b)). set (t := pmax (top a) (top b)).
    assert (Dl : D l) by (unfold l; auto with ord). assert (Dr : D r) by (unfold r; auto with ord).
    assert (Db : D bt) by (unfold bt; auto with ord). assert (Dt : D t) by (unfold t; auto with ord).
    assert (G : good_points D [(l, bt); (r, t)]) by (repeat constructor; auto).
    change (union a b) with (BoundsRectangle [(l, bt); (r, t)]).
    destruct (BR_in _ (l, bt) G) as (E1&_&E3&_); [left; auto|].
    destruct (BR_in _ (r, t) G) as (_&F2&_&F4); [right; left; auto|].
    destruct (BR_D _ G) as (D1&D2&D3&D4).
    set (u := BoundsRectangle _) in *.
    change (left u ≤ l) in E1. change (bottom u ≤ bt) in E3. change (r ≤ right u) in F2. change (t ≤ top u) in F4.
    assert (X : l ≤ fst p /\ fst p ≤ r /\ bt ≤ snd p /\ snd p ≤ t).
    { unfold l, r, bt, t. clear - O I A1 A2 A3 A4 B1 B2 B3 B4 Dx Dy.
      destruct I as [(I1&I2&I3&I4) | (I1&I2&I3&I4)];
        fold (le (left a) (fst p)) (le (fst p) (right a)) (le (bottom a) (snd p)) (le (snd p) (top a)) in *;
        fold (le (left b) (fst p)) (le (fst p) (right b)) (le (bottom b) (snd p)) (le (snd p) (top b)) in *;
        repeat split; pm; letrans. }
    destruct X as (X1&X2&X3&X4).
    unfold in_box. repeat split; letrans.
  Qed.

  Theorem union_encloses ps qs p : good_points D ps -> good_points D qs -> D (fst p) -> D (snd p) ->
    let a := BoundsRectangle ps in let b := BoundsRectangle qs in
    enclosesPoint a p = true \/ enclosesPoint b p = true -> enclosesPoint (union a b) p = true.
  Proof.
    intros G1 G2 Dx Dy a b. rewrite !enclosesPoint_iff. apply union_contains; auto; apply BR_D; auto.
  Qed.

  Lemma minl_app_eqv l1 l2 x : D x -> Forall D l1 -> Forall D l2 ->
    eqv (pmin (minl l1 x) (minl l2 x)) (minl (l1 ++ l2) x).
  Proof.
    intros Dx F1 F2. assert (F : Forall D (l1 ++ l2)) by (apply Forall_app; auto).
    pose proof (minl_D l1 x Dx F1). pose proof (minl_D l2 x Dx F2). pose proof (minl_D _ x Dx F).
    destruct (minl_lb l1 x) as [A1 A2]; auto. destruct (minl_lb l2 x) as [B1 B2]; auto.
    destruct (minl_lb (l1 ++ l2) x) as [C1 C2]; auto. apply Forall_app in C2 as [C2 C3].
    split.
    - apply minl_glb; [pm; letrans|]. apply Forall_app; split; rewrite Forall_forall in *; intros y Hy;
        assert (D y) by auto; specialize (A2 y); specialize (B2 y); pm.
      + specialize (A2 Hy); letrans.
      + specialize (B2 Hy); letrans.
    - apply pmin_glb; apply minl_glb; auto.
  Qed.
  Lemma maxl_app_eqv l1 l2 x : D x -> Forall D l1 -> Forall D l2 ->
    eqv (pmax (maxl l1 x) (maxl l2 x)) (maxl (l1 ++ l2) x).
  Proof.
    intros Dx F1 F2. assert (F : Forall D (l1 ++ l2)) by (apply Forall_app; auto).
    pose proof (maxl_D l1 x Dx F1). pose proof (maxl_D l2 x Dx F2). pose proof (maxl_D _ x Dx F).
    destruct (maxl_ub l1 x) as [A1 A2]; auto. destruct (maxl_ub l2 x) as [B1 B2]; auto.
    destruct (maxl_ub (l1 ++ l2) x) as [C1 C2]; auto. apply Forall_app in C2 as [C2 C3].
    split.
    - apply pmax_lub; apply maxl_lub; auto.
    - apply maxl_lub; [pm; letrans|]. apply Forall_app; split; rewrite Forall_forall in *; intros y Hy;
        assert (D y) by auto; specialize (A2 y); specialize (B2 y); pm.
      + specialize (A2 Hy); letrans.
      + specialize (B2 Hy); letrans.
  Qed.

  Lemma good_app ps qs : good_points D ps -> good_points D qs -> good_points D (ps ++ qs).
  Proof. intros; apply Forall_app; auto. Qed.

  Definition rmin (a b : rect T) : rect T :=
    mkRect (pmin (left a) (left b)) (pmax (right a) (right b)) (pmax (top a) (top b))
           (pmin (bottom a) (bottom b)).
  Lemma rmin_app ps qs : good_points D ps -> good_points D qs ->
    req (rmin (BoundsRectangle ps) (BoundsRectangle qs)) (BoundsRectangle (ps ++ qs)).
  Proof.
    intros G1 G2. rewrite !BR_fields, !map_app. unfold req, rmin; simpl.
    pose proof (good_fst _ G1); pose proof (good_fst _ G2); pose proof (good_snd _ G1); pose proof (good_snd _ G2).
    pose proof (to_lit D O).
    repeat split; (apply minl_app_eqv || apply maxl_app_eqv); auto.
  Qed.
  Lemma rmin_D a b : Drect a -> Drect b -> Drect (rmin a b).
  Proof. unfold Drect, rmin; simpl; intuition auto with ord. Qed.
  Lemma req_trans a b c : Drect a -> Drect b -> Drect c -> req a b -> req b c -> req a c.
  Proof.
    intros (A1&A2&A3&A4) (B1&B2&B3&B4) (C1&C2&C3&C4) (X1&X2&X3&X4) (Y1&Y2&Y3&Y4).
    unfold req. split; [|split; [|split]]; (eapply eqv_trans; [| | |eassumption|eassumption]); auto.
  Qed.
  Lemma req_sym a b : req a b -> req b a.
  Proof. unfold req, eqv; tauto. Qed.
  Lemma req_refl a : Drect a -> req a a.
  Proof. intros (A1&A2&A3&A4); unfold req; auto 6 using eqv_refl. Qed.

  Theorem union_app ps qs : good_points D ps -> good_points D qs -> ps ++ qs <> [] ->
    req (union (BoundsRectangle ps) (BoundsRectangle qs)) (BoundsRectangle (ps ++ qs)).
  Proof.
    intros G1 G2 N. pose proof (BR_D _ G1) as D1. pose proof (BR_D _ G2) as D2.
    pose proof (BR_D _ (good_app _ _ G1 G2)) as D3.
    pose proof (rmin_app ps qs G1 G2) as E. pose proof (rmin_D _ _ D1 D2) as Dm.
    destruct (BR_valid _ (good_app _ _ G1 G2) N) as [V1 V2].
    apply req_trans with (rmin (BoundsRectangle ps) (BoundsRectangle qs)); auto.
    - apply BR_D. destruct D1 as (?&?&?&?), D2 as (?&?&?&?). repeat constructor; simpl; auto with ord.
    - destruct E as ((E1&_)&(_&E2)&(_&E3)&(E4&_)). destruct Dm as (Dm1&Dm2&Dm3&Dm4). destruct D3 as (?&?&?&?).
      apply union_fields; auto using BR_sentinels.
      + change (left (rmin (BoundsRectangle ps) (BoundsRectangle qs)) ≤ right (rmin (BoundsRectangle ps) (BoundsRectangle qs))).
        change (left (rmin (BoundsRectangle ps) (BoundsRectangle qs)) ≤ left (BoundsRectangle (ps ++ qs))) in E1.
        change (right (BoundsRectangle (ps ++ qs)) ≤ right (rmin (BoundsRectangle ps) (BoundsRectangle qs))) in E2.
        letrans.
      + change (bottom (rmin (BoundsRectangle ps) (BoundsRectangle qs)) ≤ top (rmin (BoundsRectangle ps) (BoundsRectangle qs))).
        change (bottom (rmin (BoundsRectangle ps) (BoundsRectangle qs)) ≤ bottom (BoundsRectangle (ps ++ qs))) in E4.
        change (top (BoundsRectangle (ps ++ qs)) ≤ top (rmin (BoundsRectangle ps) (BoundsRectangle qs))) in E3.
        letrans.
  Qed.

  (** union respects equality of rectangles. *)
  Lemma rmin_req a b c e : Drect a -> Drect b -> Drect c -> Drect e -> req a c -> req b e ->
    req (rmin a b) (rmin c e).
  Proof.
    intros (A1&A2&A3&A4) (B1&B2&B3&B4) (C1&C2&C3&C4) (E1&E2&E3&E4) (X1&X2&X3&X4) (Y1&Y2&Y3&Y4).
    unfold req, rmin; simpl. split; [|split; [|split]]; (apply pmin_eqv || apply pmax_eqv); auto.
  Qed.
  Definition usum (l r b t : T) := BoundsRectangle [(l, b); (r, t)].
  Lemma BR2_eqv l r b t l' r' b' t' :
    D l -> D r -> D b -> D t -> D l' -> D r' -> D b' -> D t' ->
    eqv l l' -> eqv r r' -> eqv b b' -> eqv t t' ->
    req (BoundsRectangle [(l, b); (r, t)]) (BoundsRectangle [(l', b'); (r', t')]).
  Proof.
    intros. pose proof (to_lit D O) as L. unfold req; simpl.
    pose proof (fun z => eqv_refl (nofZ z) (L z)) as RZ.
    split; [|split; [|split]]; repeat (first [apply pmin_eqv | apply pmax_eqv]; auto with ord).
  Qed.
  Lemma union_req a b c e : Drect a -> Drect b -> Drect c -> Drect e -> req a c -> req b e ->
    req (union a b) (union c e).
  Proof.
    intros (A1&A2&A3&A4) (B1&B2&B3&B4) (C1&C2&C3&C4) (E1&E2&E3&E4) (X1&X2&X3&X4) (Y1&Y2&Y3&Y4).
    unfold union. apply BR2_eqv; auto with ord; (apply pmin_eqv || apply pmax_eqv); auto.
  Qed.
  Lemma union_D a b : Drect a -> Drect b -> Drect (union a b).
  Proof.
    intros (?&?&?&?) (?&?&?&?). apply BR_D. repeat constructor; simpl; auto with ord.
  Qed.

  Theorem union_comm ps qs : good_points D ps -> good_points D qs ->
    req (union (BoundsRectangle ps) (BoundsRectangle qs)) (union (BoundsRectangle qs) (BoundsRectangle ps)).
  Proof.
    intros G1 G2. destruct (BR_D _ G1) as (?&?&?&?), (BR_D _ G2) as (?&?&?&?).
    unfold union. apply BR2_eqv; auto with ord; split; fold (@le);
      first [apply pmin_glb | apply pmax_lub]; pm; letrans.
  Qed.
  Theorem union_assoc ps qs rs : good_points D ps -> good_points D qs -> good_points D rs ->
    ps ++ qs <> [] -> qs ++ rs <> [] ->
    req (union (union (BoundsRectangle ps) (BoundsRectangle qs)) (BoundsRectangle rs))
        (union (BoundsRectangle ps) (union (BoundsRectangle qs) (BoundsRectangle rs))).
  Proof.
    intros G1 G2 G3 N1 N2.
    pose proof (BR_D _ G1); pose proof (BR_D _ G2); pose proof (BR_D _ G3).
    pose proof (good_app _ _ G1 G2) as G12. pose proof (good_app _ _ G2 G3) as G23.
    pose proof (good_app _ _ G12 G3) as G123.
    pose proof (BR_D _ G12); pose proof (BR_D _ G23); pose proof (BR_D _ G123).
    apply req_trans with (BoundsRectangle ((ps ++ qs) ++ rs)); auto using union_D.
    - eapply req_trans; [| | | apply union_req; [..| apply union_app; auto | apply req_refl] |]; auto using union_D.
      apply union_app; auto. destruct ps; [destruct qs|]; simpl in *; congruence.
    - apply req_sym. eapply req_trans; [| | | apply union_req; [..| apply req_refl | apply union_app; auto] |]; auto using union_D.
      rewrite <- app_assoc. apply union_app; auto. destruct ps; simpl; congruence.
  Qed.
  Theorem union_idem ps : good_points D ps -> ps <> [] ->
    req (union (BoundsRectangle ps) (BoundsRectangle ps)) (BoundsRectangle ps).
  Proof.
    intros G N. pose proof (BR_D _ G) as D1. destruct (BR_valid _ G N) as [V1 V2].
    eapply req_trans; [| | | apply union_fields|]; auto using BR_sentinels, union_D; destruct D1 as (?&?&?&?).
    - repeat split; simpl; auto with ord.
    - pm; letrans.
    - pm; letrans.
    - unfold req, eqv; simpl; repeat split; first [apply pmin_glb | apply pmax_lub | idtac]; pm; letrans.
  Qed.
  Theorem union_empty ps : good_points D ps -> ps <> [] ->
    req (union (BoundsRectangle []) (BoundsRectangle ps)) (BoundsRectangle ps) /\
    req (union (BoundsRectangle ps) (BoundsRectangle [])) (BoundsRectangle ps).
  Proof.
    intros G N. assert (G0 : good_points D []) by constructor. split.
    - apply (union_app [] ps); auto.
    - rewrite <- (app_nil_r ps) at 2. apply union_app; auto. now rewrite app_nil_r.
  Qed.
  (** Least: any box holding the corners of both holds the union. *)
  Theorem union_least ps qs l r b t : good_points D ps -> good_points D qs -> ps ++ qs <> [] ->
    D l -> D r -> D b -> D t ->
    let a := BoundsRectangle ps in let c := BoundsRectangle qs in let u := union a c in
    l ≤ left a -> l ≤ left c -> right a ≤ r -> right c ≤ r ->
    b ≤ bottom a -> b ≤ bottom c -> top a ≤ t -> top c ≤ t ->
    l ≤ left u /\ right u ≤ r /\ b ≤ bottom u /\ top u ≤ t.
  Proof.
    intros G1 G2 N Dl Dr Db Dt a c u. intros.
    pose proof (BR_D _ G1) as D1. pose proof (BR_D _ G2) as D2.
    assert (E : req u (rmin a c)).
    { pose proof (good_app _ _ G1 G2) as G. unfold u, a, c.
      eapply req_trans; [| | | apply union_app; auto | apply req_sym, rmin_app; auto];
        auto using BR_D, rmin_D, union_D. }
    pose proof (union_D _ _ D1 D2) as Du. fold a c u in Du, D1, D2.
    destruct E as ((_&E1)&(E2&_)&(E3&_)&(_&E4)). unfold rmin in *; simpl in *.
    destruct D1 as (?&?&?&?), D2 as (?&?&?&?), Du as (?&?&?&?).
    repeat split.
    - eapply le_trans; [| | |apply (pmin_glb (left a) (left c) l)|exact E1]; auto with ord.
    - eapply le_trans; [| | |exact E2|apply pmax_lub]; auto with ord.
    - eapply le_trans; [| | |apply (pmin_glb (bottom a) (bottom c) b)|exact E4]; auto with ord.
    - eapply le_trans; [| | |exact E3|apply pmax_lub]; auto with ord.
  Qed.

  (** ** C12: contours *)
  Lemma good_concat c : good_contour c -> good_points D (concat c).
  Proof. induction 1; simpl; [constructor | apply good_app; auto]. Qed.

  Lemma fold_union_app c ps r : good_points D ps -> good_contour c -> Forall (fun s => s <> []) c ->
    Drect r -> req r (BoundsRectangle ps) ->
    let u := fold_left (fun bounds seg => union bounds (BoundsRectangle seg)) c r in
    Drect u /\ req u (BoundsRectangle (ps ++ concat c)).
  Proof.
    intros G F N. revert ps G r. induction F as [|s c Gs F IH]; intros ps G r Dr E; simpl.
    - rewrite app_nil_r; auto.
    - inversion N; subst. rewrite app_assoc. pose proof (BR_D _ G); pose proof (BR_D _ Gs).
      apply IH; auto using good_app, union_D.
      eapply req_trans; [| | | apply union_req; [..|exact E|apply req_refl] |]; auto using union_D.
      + apply BR_D; auto using good_app.
      + apply union_app; auto. destruct ps, s; simpl; congruence.
  Qed.
  Theorem fromContour_flat c : good_contour c -> Forall (fun s => s <> []) c ->
    req (fromContour c) (BoundsRectangle (concat c)).
  Proof.
    intros G N. assert (G0 : good_points D []) by constructor.
    apply (fold_union_app c [] (BoundsRectangle [])); auto using BR_D, req_refl.
  Qed.
  Lemma fromContour_D c : good_contour c -> Drect (fromContour c).
  Proof.
    unfold fromContour. assert (D0 : Drect (BoundsRectangle [])) by (apply BR_D; constructor).
    generalize (BoundsRectangle (T := T) []) D0. intros r Dr F. revert r Dr.
    induction F; simpl; auto. intros; apply IHF, union_D; auto using BR_D.
  Qed.
  Theorem fromContours_flat cs : Forall good_contour cs -> Forall solid cs ->
    req (fromContours cs) (BoundsRectangle (concat (concat cs))).
  Proof.
    intros G N. unfold fromContours.
    assert (X : forall ps r, good_points D ps -> Drect r -> req r (BoundsRectangle ps) ->
      req (fold_left (fun bounds c => union bounds (fromContour c)) cs r)
          (BoundsRectangle (ps ++ concat (concat cs)))).
    { induction G as [|c cs Gc G IH]; intros ps r Gp Dr E; simpl.
      - now rewrite app_nil_r.
      - inversion N as [|? ? [Nc Fc] N']; subst. pose proof (good_concat c Gc) as Gf.
        rewrite concat_app, app_assoc. pose proof (BR_D _ Gp); pose proof (BR_D _ Gf); pose proof (fromContour_D c Gc).
        apply IH; auto using good_app, union_D.
        eapply req_trans; [| | | apply union_req; [..|exact E|apply fromContour_flat; auto] |]; auto using union_D.
        + apply BR_D; auto using good_app.
        + apply union_app; auto. destruct c as [|s c]; [congruence|]. inversion Fc; subst.
          destruct ps; simpl; [|congruence]. destruct s; simpl; congruence. }
    apply (X [] (BoundsRectangle [])); [constructor | apply BR_D; constructor | apply req_refl, BR_D; constructor].
  Qed.
  Lemma req_encl a b l r bt t : Drect a -> Drect b -> D l -> D r -> D bt -> D t -> req a b ->
    l ≤ left b /\ right b ≤ r /\ bt ≤ bottom b /\ top b ≤ t ->
    l ≤ left a /\ right a ≤ r /\ bt ≤ bottom a /\ top a ≤ t.
  Proof.
    intros (A1&A2&A3&A4) (B1&B2&B3&B4) Dl Dr Db Dt ((X1&X1')&(X2&X2')&(X3&X3')&(X4&X4')) (Y1&Y2&Y3&Y4).
    repeat split; letrans.
  Qed.
  Theorem fromContours_tight cs l r b t : Forall good_contour cs -> Forall solid cs ->
    D l -> D r -> D b -> D t -> in_range (concat (concat cs)) ->
    (forall p, In p (concat (concat cs)) -> in_box l r b t p) ->
    let u := fromContours cs in l ≤ left u /\ right u ≤ r /\ b ≤ bottom u /\ top u ≤ t.
  Proof.
    intros G S Dl Dr Db Dt I A u.
    assert (Gf : good_points D (concat (concat cs))).
    { clear - G. induction G; simpl; [constructor|]. rewrite concat_app. apply good_app; auto. apply good_concat; auto. }
    eapply req_encl; [| | | | | | apply fromContours_flat; auto | apply BR_tight; auto]; auto using BR_D.
    unfold u, fromContours. assert (D0 : Drect (BoundsRectangle [])) by (apply BR_D; constructor).
    generalize (BoundsRectangle (T := T) []) D0. clear - G O. induction G; simpl; auto.
    intros; apply IHG, union_D; auto using fromContour_D.
  Qed.
  Theorem fromContour_tight c l r b t : good_contour c -> Forall (fun s => s <> []) c ->
    D l -> D r -> D b -> D t -> in_range (concat c) ->
    (forall p, In p (concat c) -> in_box l r b t p) ->
    let u := fromContour c in l ≤ left u /\ right u ≤ r /\ b ≤ bottom u /\ top u ≤ t.
  Proof.
    intros G S Dl Dr Db Dt I A u. pose proof (good_concat c G). unfold u.
    eapply req_encl; [| | | | | | apply fromContour_flat; auto | apply BR_tight; auto]; auto using BR_D, fromContour_D.
  Qed.
  (** Enclosure holds without side conditions. *)
  Lemma fold_union_in (A : Type) (f : A -> rect T) (l : list A) r p : Drect r -> Forall (fun a => Drect (f a)) l ->
    D (fst p) -> D (snd p) ->
    (in_box (left r) (right r) (bottom r) (top r) p \/
     exists a, In a l /\ in_box (left (f a)) (right (f a)) (bottom (f a)) (top (f a)) p) ->
    let u := fold_left (fun b a => union b (f a)) l r in
    in_box (left u) (right u) (bottom u) (top u) p.
  Proof.
    intros Dr F Dx Dy. revert r Dr; induction F as [|a l Da F IH]; intros r Dr I; simpl.
    - destruct I as [I | (a & [] & _)]; auto.
    - apply IH; auto using union_D. destruct I as [I | (a' & [-> | I'] & I)].
      + left. apply union_contains; auto.
      + left. apply union_contains; auto.
      + right; eauto.
  Qed.
  Theorem fromContour_encloses c s p : good_contour c -> In s c -> In p s ->
    enclosesPoint (fromContour c) p = true.
  Proof.
    intros G Hs Hp. apply enclosesPoint_iff.
    assert (Dp : D (fst p) /\ D (snd p)).
    { unfold good_contour in G. rewrite Forall_forall in G. specialize (G s Hs).
      unfold good_points in G. rewrite Forall_forall in G; auto. }
    apply (fold_union_in _ BoundsRectangle); try tauto.
    - apply BR_D; constructor.
    - apply Forall_impl with (2 := G). apply BR_D.
    - right; exists s; split; auto. apply BR_in; auto.
      unfold good_contour in G. rewrite Forall_forall in G; auto.
  Qed.
  Theorem fromContours_encloses cs c s p : Forall good_contour cs -> In c cs -> In s c -> In p s ->
    enclosesPoint (fromContours cs) p = true.
  Proof.
    intros G Hc Hs Hp. apply enclosesPoint_iff.
    pose proof G as G'. rewrite Forall_forall in G'. specialize (G' c Hc).
    assert (Dp : D (fst p) /\ D (snd p)).
    { unfold good_contour in G'. rewrite Forall_forall in G'. specialize (G' s Hs).
      unfold good_points in G'. rewrite Forall_forall in G'; auto. }
    apply (fold_union_in _ fromContour); try tauto.
    - apply BR_D; constructor.
    - apply Forall_impl with (2 := G). apply fromContour_D.
    - right; exists c; split; auto. apply enclosesPoint_iff. eapply fromContour_encloses; eauto.
  Qed.

  Theorem fromContours_encloses_both cs c s p : Forall good_contour cs -> In c cs -> In s c -> In p s ->
    enclosesPoint (fromContours cs) p = true /\ enclosesPoint (fromContour c) p = true.
  Proof.
    intros G Hc Hs Hp. split; [eapply fromContours_encloses; eauto|]. eapply fromContour_encloses; eauto.
    rewrite Forall_forall in G; auto.
  Qed.

  (** ** C13: intersection *)
  Theorem intersection_none ps qs : good_points D ps -> good_points D qs ->
    let a := BoundsRectangle ps in let b := BoundsRectangle qs in
    intersection a b = None <->
    (forall p, D (fst p) -> D (snd p) -> ~ (enclosesPoint a p = true /\ enclosesPoint b p = true)).
  Proof.
    intros G1 G2 a b. destruct (BR_D _ G1) as (A1&A2&A3&A4), (BR_D _ G2) as (B1&B2&B3&B4).
    fold a in A1, A2, A3, A4. fold b in B1, B2, B3, B4.
    unfold intersection.
    pose proof (pmax_l (left a) (left b) A1 B1). pose proof (pmax_r (left a) (left b) A1 B1).
    pose proof (pmin_l (right a) (right b) A2 B2). pose proof (pmin_r (right a) (right b) A2 B2).
    pose proof (pmin_l (top a) (top b) A3 B3). pose proof (pmin_r (top a) (top b) A3 B3).
    pose proof (pmax_l (bottom a) (bottom b) A4 B4). pose proof (pmax_r (bottom a) (bottom b) A4 B4).
    pose proof (pmax_lub (left a) (left b)) as ML. pose proof (pmin_glb (right a) (right b)) as MR.
    pose proof (pmin_glb (top a) (top b)) as MT. pose proof (pmax_lub (bottom a) (bottom b)) as MB.
    set (nl := pmax (left a) (left b)) in *. set (nr := pmin (right a) (right b)) in *.
    set (nt := pmin (top a) (top b)) in *. set (nb := pmax (bottom a) (bottom b)) in *.
    assert (Dn : D nl /\ D nr /\ D nt /\ D nb) by (unfold nl, nr, nt, nb; auto with ord).
    destruct Dn as (N1&N2&N3&N4).
    assert (X : forall p, D (fst p) -> D (snd p) ->
      (enclosesPoint a p = true /\ enclosesPoint b p = true) <->
      (nl ≤ fst p /\ fst p ≤ nr /\ nb ≤ snd p /\ snd p ≤ nt)).
    { intros p Dx Dy. rewrite !enclosesPoint_iff. unfold in_box. clearbody nl nr nt nb. lech.
      split.
      - intros [(I1&I2&I3&I4) (J1&J2&J3&J4)].
        repeat split; [apply ML | apply MR | apply MB | apply MT]; auto.
      - intros (I1&I2&I3&I4). revert I1 I2 I3 I4.
        intros. repeat split; letrans. }
    split.
    - intros E p Dx Dy I. apply X in I as (I1&I2&I3&I4); auto.
      destruct (nr <? nl) eqn:E1.
      { apply lt_spec in E1; auto. apply E1; letrans. }
      destruct (nt <? nb) eqn:E2.
      { apply lt_spec in E2; auto. apply E2; letrans. }
      discriminate.
    - intros F. destruct (nr <? nl) eqn:E1; auto. destruct (nt <? nb) eqn:E2; auto.
      exfalso. apply lt_false in E1; auto. apply lt_false in E2; auto.
      apply (F (nl, nb)); auto. apply X; simpl; auto using le_refl.
  Qed.

  Theorem intersection_some ps qs i p : good_points D ps -> good_points D qs ->
    D (fst p) -> D (snd p) ->
    let a := BoundsRectangle ps in let b := BoundsRectangle qs in
    intersection a b = Some i ->
    enclosesPoint i p = true <-> (enclosesPoint a p = true /\ enclosesPoint b p = true).
  Proof.
    intros G1 G2 Dx Dy a b. destruct (BR_D _ G1) as (A1&A2&A3&A4), (BR_D _ G2) as (B1&B2&B3&B4).
    destruct (BR_sentinels _ G1) as (S1&S2&S3&S4), (BR_sentinels _ G2) as (R1&R2&R3&R4).
    fold a in A1, A2, A3, A4, S1, S2, S3, S4. fold b in B1, B2, B3, B4, R1, R2, R3, R4.
    unfold intersection.
    pose proof (pmax_l (left a) (left b) A1 B1). pose proof (pmax_r (left a) (left b) A1 B1).
    pose proof (pmin_l (right a) (right b) A2 B2). pose proof (pmin_r (right a) (right b) A2 B2).
    pose proof (pmin_l (top a) (top b) A3 B3). pose proof (pmin_r (top a) (top b) A3 B3).
    pose proof (pmax_l (bottom a) (bottom b) A4 B4). pose proof (pmax_r (bottom a) (bottom b) A4 B4).
    pose proof (pmax_lub (left a) (left b)) as ML. pose proof (pmin_glb (right a) (right b)) as MR.
    pose proof (pmin_glb (top a) (top b)) as MT. pose proof (pmax_lub (bottom a) (bottom b)) as MB.
    set (nl := pmax (left a) (left b)) in *. set (nr := pmin (right a) (right b)) in *.
    set (nt := pmin (top a) (top b)) in *. set (nb := pmax (bottom a) (bottom b)) in *.
    assert (Dn : D nl /\ D nr /\ D nt /\ D nb) by (unfold nl, nr, nt, nb; auto with ord).
    destruct Dn as (N1&N2&N3&N4). pose proof (to_lit D O) as L.
    destruct (nr <? nl) eqn:E1; [discriminate|]. destruct (nt <? nb) eqn:E2; [discriminate|].
    apply lt_false in E1; auto. apply lt_false in E2; auto. simpl orb; cbv iota.
    intros E; injection E as <-.
    destruct (BR2 nl nr nb nt) as (X1&X2&X3&X4); auto.
    assert (GI : good_points D [(nl, nb); (nr, nt)]) by (repeat constructor; auto).
    destruct (BR_D _ GI) as (I1&I2&I3&I4). set (i := BoundsRectangle _) in *.
    rewrite !enclosesPoint_iff. unfold in_box.
    destruct X1 as [X1 X1'], X2 as [X2 X2'], X3 as [X3 X3'], X4 as [X4 X4'].
    lech.
    split.
    - intros (J1&J2&J3&J4). repeat split; letrans.
    - intros ((J1&J2&J3&J4)&(K1&K2&K3&K4)).
      assert (Z1 : nl ≤ fst p) by auto.
      assert (Z2 : fst p ≤ nr) by auto.
      assert (Z3 : nb ≤ snd p) by auto.
      assert (Z4 : snd p ≤ nt) by auto.
      repeat split; letrans.
  Qed.

  (** ** C14: relationTo *)

  Lemma encloses_iff a b : Drect a -> Drect b -> valid b -> encloses a b = true <-> inside b a.
  Proof.
    intros (A1&A2&A3&A4) (B1&B2&B3&B4) (V1&V2). unfold encloses. rewrite andb_true_iff, !enclosesPoint_iff.
    unfold inside, in_box; simpl. split.
    - intros ((I1&I2&I3&I4)&(J1&J2&J3&J4)) p Dx Dy. rewrite !enclosesPoint_iff.
      intros (K1&K2&K3&K4). repeat split; letrans.
    - intros F. split.
      + apply (enclosesPoint_iff a (left b, bottom b)), F; auto. apply enclosesPoint_iff. repeat split; cbn [fst snd]; letrans.
      + apply (enclosesPoint_iff a (right b, top b)), F; auto. apply enclosesPoint_iff. repeat split; cbn [fst snd]; letrans.
  Qed.
  Lemma valid_meets a : Drect a -> valid a ->
    enclosesPoint a (left a, bottom a) = true.
  Proof. intros (A1&A2&A3&A4) (V1&V2). apply enclosesPoint_iff. repeat split; simpl; letrans. Qed.

  Theorem relationTo_spec ps qs : good_points D ps -> good_points D qs -> ps <> [] -> qs <> [] ->
    let a := BoundsRectangle ps in let b := BoundsRectangle qs in
    (relationTo a b = relationEncloses <-> inside b a) /\
    (relationTo a b = relationEnclosed <-> inside a b /\ ~ inside b a) /\
    (relationTo a b = relationIntersects <-> ~ disjoint a b /\ ~ inside a b /\ ~ inside b a) /\
    (relationTo a b = relationSeparate <-> disjoint a b).
  Proof.
    intros G1 G2 N1 N2 a b. pose proof (BR_D _ G1) as D1. pose proof (BR_D _ G2) as D2.
    pose proof (BR_valid _ G1 N1) as V1. pose proof (BR_valid _ G2 N2) as V2.
    fold a in D1, V1. fold b in D2, V2.
    pose proof (encloses_iff a b D1 D2 V2) as E1. pose proof (encloses_iff b a D2 D1 V1) as E2.
    pose proof (intersection_none ps qs G1 G2) as E3. cbv zeta in E3. fold a b in E3. fold (disjoint a b) in E3.
    assert (X1 : inside b a -> ~ disjoint a b).
    { intros I F. pose proof (valid_meets b D2 V2) as M. destruct D2 as (?&?&?&?).
      apply (F (left b, bottom b)); auto 6. }
    assert (X2 : inside a b -> ~ disjoint a b).
    { intros I F. pose proof (valid_meets a D1 V1) as M. destruct D1 as (?&?&?&?).
      apply (F (left a, bottom a)); auto 6. }
    unfold relationTo.
    destruct (encloses a b), (encloses b a), (intersection a b);
      repeat match goal with
      | E : true = true <-> _ |- _ => apply proj1 in E; specialize (E eq_refl)
      | E : false = true <-> ?Q |- _ => assert (~ Q) by (intros Q1; apply E in Q1; discriminate); clear E
      | E : None = None <-> _ |- _ => apply proj1 in E; specialize (E eq_refl)
      | E : Some _ = None <-> ?Q |- _ => assert (~ Q) by (intros Q1; apply E in Q1; discriminate); clear E
      end; repeat split; intros; try discriminate; try tauto; auto.
  Qed.

  Theorem relationTo_sym ps qs : good_points D ps -> good_points D qs -> ps <> [] -> qs <> [] ->
    let a := BoundsRectangle ps in let b := BoundsRectangle qs in
    (relationTo a b = relationSeparate <-> relationTo b a = relationSeparate) /\
    (relationTo a b = relationIntersects <-> relationTo b a = relationIntersects) /\
    (relationTo a b = relationEnclosed -> relationTo b a = relationEncloses) /\
    (relationTo a b = relationEncloses -> relationTo b a = relationEnclosed \/ req a b).
  Proof.
    intros G1 G2 N1 N2 a b.
    destruct (relationTo_spec ps qs G1 G2 N1 N2) as (A1&A2&A3&A4).
    destruct (relationTo_spec qs ps G2 G1 N2 N1) as (B1&B2&B3&B4).
    cbv zeta in A1, A2, A3, A4, B1, B2, B3, B4. fold a b in A1, A2, A3, A4, B1, B2, B3, B4.
    assert (S : disjoint a b <-> disjoint b a) by (unfold disjoint; split; intros F p Dx Dy [P Q]; apply (F p); auto).
    rewrite A1, A2, A3, A4, B1, B2, B3, B4.
    split; [tauto|]. split; [tauto|]. split; [tauto|].
    intros I. pose proof (BR_D _ G1) as D1. pose proof (BR_D _ G2) as D2.
    pose proof (BR_valid _ G1 N1) as V1. pose proof (BR_valid _ G2 N2) as V2. fold a in D1, V1. fold b in D2, V2.
    rewrite <- (encloses_iff b a) by auto. destruct (encloses b a) eqn:E.
    - right. apply encloses_iff in I; auto. unfold encloses in *. rewrite andb_true_iff, !enclosesPoint_iff in *.
      unfold in_box, req, eqv in *; simpl in *. tauto.
    - left; split; auto.
  Qed.

  (** ** C15, order part *)
  Theorem fromContour_rcontour ps : good_points D ps -> ps <> [] ->
    let r := BoundsRectangle ps in req (fromContour (rcontour r)) r.
  Proof.
    intros G N r. pose proof (BR_D _ G) as (R1&R2&R3&R4). pose proof (BR_valid _ G N) as (V1&V2).
    pose proof (BR_sentinels _ G) as (S1&S2&S3&S4). fold r in R1, R2, R3, R4, V1, V2, S1, S2, S3, S4.
    assert (Gc : good_contour (rcontour r)) by (repeat constructor; auto).
    assert (Ns : Forall (fun s => s <> []) (rcontour r)) by (repeat constructor; congruence).
    apply req_trans with (BoundsRectangle (concat (rcontour r)));
      [apply fromContour_D; auto | apply BR_D, good_concat; auto | repeat split; auto | apply fromContour_flat; auto |].
    pose proof (good_concat _ Gc) as Gp. set (qs := concat (rcontour r)) in *.
    assert (I1 : In (left r, bottom r) qs) by (simpl; auto).
    assert (I2 : In (right r, top r) qs) by (simpl; auto).
    destruct (BR_in qs _ Gp I1) as (A1&_&A3&_). destruct (BR_in qs _ Gp I2) as (_&B2&_&B4).
    destruct (BR_tight qs (left r) (right r) (bottom r) (top r)) as (C1&C2&C3&C4); auto.
    - repeat split; [exists (left r, bottom r) | exists (right r, top r) | exists (left r, bottom r) | exists (right r, top r)]; auto.
    - intros p Hp. simpl in Hp. unfold in_box.
      repeat match goal with K : _ \/ _ |- _ => destruct K as [K|K] end; try contradiction; subst p; cbn [fst snd];
        repeat split; letrans.
    - unfold req, eqv. cbn [fst snd] in *. unfold le in *. auto 10.
  Qed.
End Ord.

(** ** C15: geometry over the reals *)
From Coq Require Import Reals Lra.
From Verif Require Import MPathUtil.
Section Geo.
  Local Open Scope R_scope.
  Lemma R_order : TotalOrder (fun _ : R => True).
  Proof.
    constructor; intros; auto.
    - apply Rleb_true; lra.
    - rewrite Rleb_true in *; lra.
    - rewrite !Rleb_true; lra.
    - numRg. destruct (Rltb_spec x y), (Rleb_spec y x); simpl; auto; lra.
    - numRg. destruct (Reqb_spec x y), (Rleb_spec y x), (Rleb_spec x y); simpl; auto; lra.
    - apply Rleb_true. numRg. apply IZR_le; auto.
  Qed.
  Lemma Rgood (ps : list (R * R)) : good_points (fun _ => True) ps.
  Proof. apply Forall_forall; auto. Qed.
  Lemma Req_req (a b : rect R) : req a b -> a = b.
  Proof.
    destruct a, b; unfold req, eqv; simpl. rewrite !Rleb_true. intros ((?&?)&(?&?)&(?&?)&(?&?)).
    f_equal; lra.
  Qed.

  Lemma valid_R ps : ps <> [] -> let r := BoundsRectangle (T := R) ps in left r <= right r /\ bottom r <= top r.
  Proof.
    intros N r. destruct (BR_valid _ R_order ps (Rgood ps) N) as [A B].
    unfold le in *. rewrite Rleb_true in *. auto.
  Qed.
  Lemma enclosesPoint_R (r : rect R) p :
    enclosesPoint r p = true <-> left r <= fst p <= right r /\ bottom r <= snd p <= top r.
  Proof.
    destruct p. unfold enclosesPoint; simpl. rewrite !andb_true_iff, !Rleb_true; simpl. tauto.
  Qed.
  Lemma rcontour_shape (r : rect R) :
    length (rcontour r) = 4%nat /\ Forall (fun s => length s = 2%nat) (rcontour r) /\
    connected (rcontour r) /\ closed_contour (rcontour r).
  Proof.
    unfold connected, closed_contour; simpl.
    repeat match goal with |- _ /\ _ => split end; eauto; try discriminate.
    repeat constructor.
  Qed.
  Lemma centerPoint_enclosed ps : ps <> [] -> let r := BoundsRectangle (T := R) ps in
    exists c, centerPoint r = Ok c /\ enclosesPoint r c = true /\
              fst c - left r = right r - fst c /\ snd c - bottom r = top r - snd c.
  Proof.
    intros N r. destruct (valid_R ps N) as [A B]. fold r in A, B.
    eexists; split; [reflexivity|]. rewrite enclosesPoint_R. numRg; simpl. lra.
  Qed.
  Lemma fromEdge ps pc : ps <> [] -> 0 <= pc <= 1 -> let r := BoundsRectangle (T := R) ps in
    left r <= xFromLeft r pc <= right r /\ bottom r <= yFromBottom r pc <= top r /\
    xFromLeft r 0 = left r /\ xFromLeft r 1 = right r /\ yFromBottom r 0 = bottom r /\ yFromBottom r 1 = top r.
  Proof.
    intros N P r. destruct (valid_R ps N) as [A B]. fold r in A, B.
    unfold xFromLeft, yFromBottom, width, height. numRg.
    repeat split; try lra; nra.
  Qed.
  Lemma area_nonneg ps : ps <> [] -> let r := BoundsRectangle (T := R) ps in
    area r = width r * height r /\ width r = right r - left r /\ height r = top r - bottom r /\ 0 <= width r /\ 0 <= height r /\ 0 <= area r.
  Proof.
    intros N r. destruct (valid_R ps N) as [A B]. fold r in A, B.
    unfold area, width, height. numRg. repeat split; try lra; nra.
  Qed.
End Geo.

Lemma Q_order : TotalOrder (fun _ : QArith_base.Q => True).
Proof.
  constructor; intros; auto; unfold nleb, nltb, neqb, QNum in *.
  - apply QArith_base.Qle_bool_iff, QArith_base.Qle_refl.
  - rewrite QArith_base.Qle_bool_iff in *. eapply QArith_base.Qle_trans; eauto.
  - rewrite !QArith_base.Qle_bool_iff. destruct (QArith_base.Qlt_le_dec x y); auto. left; apply QArith_base.Qlt_le_weak; auto.
  - apply eq_true_iff_eq. rewrite andb_true_iff, QArith_base.Qeq_bool_iff, !QArith_base.Qle_bool_iff.
    split; [intros ->; split; apply QArith_base.Qle_refl | intros [A B]; apply QArith_base.Qle_antisym; auto].
  - apply QArith_base.Qle_bool_iff. unfold nofZ. rewrite <- QArith_base.Zle_Qle. exact H.
Qed.

Lemma empty_union_refuted : exists ps : list (point QArith_base.Q),
  let a := BoundsRectangle ps in
  let seven := (QArith_base.Qmake 7 1, QArith_base.Qmake 7 1) in
  ~ req (union a a) a /\ enclosesPoint (union a a) seven = true /\ enclosesPoint a seven = false.
Proof.
  exists []. cbv zeta. split; [|split; reflexivity]. intros ((_ & E) & _). vm_compute in E. discriminate.
Qed.

Lemma BR_tight_refuted : exists (ps : list (point QArith_base.Q)) (l r b t : QArith_base.Q),
  ps <> [] /\ (forall p, In p ps -> in_box l r b t p) /\ ~ (le l (left (BoundsRectangle ps))).
Proof.
  set (k := QArith_base.inject_Z 40000). exists [(k, k)], k, k, k, k.
  split; [discriminate|]. split; [|vm_compute; discriminate].
  intros p [<- | []]. vm_compute; auto.
Qed.
