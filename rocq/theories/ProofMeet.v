(** Proofs for C152: bounds rectangles as a lattice, from the least upper and greatest lower bounds alone. *)
From Coq Require Import List ZArith Bool Lia.
From Verif Require Import Py SpecOrder SpecBounds SpecLattice SpecMeet MBounds ProofBounds ProofLattice.
Import ListNotations.
Local Open Scope num_scope.

Section Meet.
  Local Infix "≤" := le (at level 70).
  Context {T : Type} `{NumOps T} (D : T -> Prop) (O : TotalOrder D).
  Notation rect := (rect T).
  Notation around := (around D).
  Definition sub (x a : rect) : Prop := left a ≤ left x /\ right x ≤ right a /\ bottom a ≤ bottom x /\ top x ≤ top a.
  Definition fit (r : rect) : Prop := (D (left r) /\ D (right r) /\ D (bottom r) /\ D (top r)) /\ (left r ≤ right r /\ bottom r ≤ top r) /\
    (left r ≤ nofZ 32768 /\ bottom r ≤ nofZ 32768 /\ nofZ (-32768) ≤ right r /\ nofZ (-32768) ≤ top r).
  Lemma around_fit r : around r -> fit r.
  Proof.
    intros (ps & N & G & ->). pose proof (BR_D D O ps G) as (D1 & D2 & D3 & D4). pose proof (BR_valid D O ps G N) as [V1 V2]. pose proof (BR_sentinels D O ps G) as (S1 & S2 & S3 & S4).
    unfold fit. repeat split; assumption.
  Qed.
  Lemma two_good l r b t : D l -> D r -> D b -> D t -> good_points D [(l, b); (r, t)].
  Proof. intros. repeat constructor; assumption. Qed.
  Lemma tr x y z : D x -> D y -> D z -> x ≤ y -> y ≤ z -> x ≤ z.
  Proof. apply (le_trans D O). Qed.
  Lemma sub_refl a : fit a -> sub a a.
  Proof. intros ((D1 & D2 & D3 & D4) & _). repeat split; apply (le_refl D O); assumption. Qed.
  Lemma sub_trans a b c : fit a -> fit b -> fit c -> sub a b -> sub b c -> sub a c.
  Proof.
    intros ((A1 & A2 & A3 & A4) & _) ((B1 & B2 & B3 & B4) & _) ((C1 & C2 & C3 & C4) & _) (P1 & P2 & P3 & P4) (Q1 & Q2 & Q3 & Q4).
    split; [exact (tr _ _ _ C1 B1 A1 Q1 P1)|]. split; [exact (tr _ _ _ A2 B2 C2 P2 Q2)|]. split; [exact (tr _ _ _ C3 B3 A3 Q3 P3)|exact (tr _ _ _ A4 B4 C4 P4 Q4)].
  Qed.
  Lemma sub_anti a b : (sub a b /\ sub b a) <-> req a b.
  Proof. unfold sub, req, eqv, le. tauto. Qed.
  Lemma encloses_sub a b : fit a -> fit b -> encloses a b = true <-> sub b a.
  Proof.
    intros ((A1 & A2 & A3 & A4) & _) ((B1 & B2 & B3 & B4) & (V1 & V2) & _). unfold encloses, sub. rewrite andb_true_iff, !enclosesPoint_iff. unfold in_box. cbn [fst snd]. fold (left a ≤ left b) (left b ≤ right a).
    split; [unfold le; tauto|]. intros (P1 & P2 & P3 & P4). split; (split; [|split; [|split]]); try assumption.
    - exact (tr _ _ _ B1 B2 A2 V1 P2).
    - exact (tr _ _ _ B3 B4 A4 V2 P4).
    - exact (tr _ _ _ A1 B1 B2 P1 V1).
    - exact (tr _ _ _ A3 B3 B4 P3 V2).
  Qed.
  Lemma union_around a b : fit a -> fit b -> around (union a b).
  Proof.
    intros ((A1 & A2 & A3 & A4) & _) ((B1 & B2 & B3 & B4) & _). eexists. split; [|split; [|reflexivity]]; [discriminate|]. apply two_good; (apply (pmin_D D) || apply (pmax_D D)); assumption.
  Qed.
  Lemma inter_around a b i : fit a -> fit b -> intersection a b = Some i -> around i.
  Proof.
    intros ((A1 & A2 & A3 & A4) & _) ((B1 & B2 & B3 & B4) & _). unfold intersection. destruct (_ || _); [discriminate|]. intros [= <-].
    eexists. split; [|split; [|reflexivity]]; [discriminate|]. apply two_good; (apply (pmin_D D) || apply (pmax_D D)); assumption.
  Qed.
  (** The rectangle around two corners: below everything that holds both, above both. *)
  Lemma corner_sub l r b t x : D l -> D r -> D b -> D t -> fit x -> l ≤ r -> b ≤ t -> left x ≤ l -> r ≤ right x -> bottom x ≤ b -> t ≤ top x -> sub (BoundsRectangle [(l, b); (r, t)]) x.
  Proof.
    intros Dl Dr Db Dt ((X1 & X2 & X3 & X4) & _ & (S1 & S2 & S3 & S4)) L B P1 P2 P3 P4. pose proof (two_good l r b t Dl Dr Db Dt) as G.
    split; [|split; [|split]].
    - apply (proj1 (BR_exact D O _ _ G X1)). split; [assumption|]. intros p [<-|[<-|[]]]; [assumption|exact (tr _ _ _ X1 Dl Dr P1 L)].
    - apply (proj1 (proj2 (BR_exact D O _ _ G X2))). split; [assumption|]. intros p [<-|[<-|[]]]; [exact (tr _ _ _ Dl Dr X2 L P2)|assumption].
    - apply (proj1 (proj2 (proj2 (BR_exact D O _ _ G X3)))). split; [assumption|]. intros p [<-|[<-|[]]]; [assumption|exact (tr _ _ _ X3 Db Dt P3 B)].
    - apply (proj2 (proj2 (proj2 (BR_exact D O _ _ G X4)))). split; [assumption|]. intros p [<-|[<-|[]]]; [exact (tr _ _ _ Db Dt X4 B P4)|assumption].
  Qed.
  Lemma sub_corner l r b t x : D l -> D r -> D b -> D t -> fit x -> l ≤ left x -> right x ≤ r -> b ≤ bottom x -> top x ≤ t -> sub x (BoundsRectangle [(l, b); (r, t)]).
  Proof.
    intros Dl Dr Db Dt ((X1 & X2 & X3 & X4) & _) P1 P2 P3 P4. pose proof (two_good l r b t Dl Dr Db Dt) as G. pose proof (BR_D D O _ G) as (E1 & E2 & E3 & E4).
    destruct (BR_in D O _ (l, b) G (or_introl eq_refl)) as (I1 & I2 & I3 & I4). destruct (BR_in D O _ (r, t) G (or_intror (or_introl eq_refl))) as (J1 & J2 & J3 & J4). cbn [fst snd] in *.
    split; [|split; [|split]]; (eapply tr; [| | |eassumption|]; assumption) || (eapply tr; [| | | |eassumption]; assumption).
  Qed.
  Lemma union_ub a b : fit a -> fit b -> sub a (union a b) /\ sub b (union a b).
  Proof.
    intros Fa Fb. pose proof Fa as ((A1 & A2 & A3 & A4) & _). pose proof Fb as ((B1 & B2 & B3 & B4) & _).
    split; unfold union; apply sub_corner; try assumption; try (apply (pmin_D D); assumption); try (apply (pmax_D D); assumption);
    try (apply (pmin_l D O); assumption); try (apply (pmin_r D O); assumption); try (apply (pmax_l D O); assumption); try (apply (pmax_r D O); assumption).
  Qed.
  Lemma union_lub a b x : fit a -> fit b -> fit x -> sub a x -> sub b x -> sub (union a b) x.
  Proof.
    intros Fa Fb Fx (P1 & P2 & P3 & P4) (Q1 & Q2 & Q3 & Q4). pose proof Fa as ((A1 & A2 & A3 & A4) & (V1 & V2) & _). pose proof Fb as ((B1 & B2 & B3 & B4) & _).
    unfold union. apply corner_sub; try assumption; try (apply (pmin_D D); assumption); try (apply (pmax_D D); assumption); try (apply pmin_glb; assumption); try (apply pmax_lub; assumption).
    - apply (tr _ (left a)); try assumption; [apply (pmin_D D); assumption|apply (pmax_D D); assumption|apply (pmin_l D O); assumption|]. apply (tr _ (right a)); try assumption; [apply (pmax_D D); assumption|apply (pmax_l D O); assumption].
    - apply (tr _ (bottom a)); try assumption; [apply (pmin_D D); assumption|apply (pmax_D D); assumption|apply (pmin_l D O); assumption|]. apply (tr _ (top a)); try assumption; [apply (pmax_D D); assumption|apply (pmax_l D O); assumption].
  Qed.
  Lemma inter_lb a b i : fit a -> fit b -> intersection a b = Some i -> (sub i a /\ sub i b) /\ forall x, fit x -> sub x a -> sub x b -> sub x i.
  Proof.
    intros Fa Fb. pose proof Fa as ((A1 & A2 & A3 & A4) & _). pose proof Fb as ((B1 & B2 & B3 & B4) & _).
    pose proof (pmax_D D (left a) (left b) A1 B1) as D1. pose proof (pmin_D D (right a) (right b) A2 B2) as D2. pose proof (pmax_D D (bottom a) (bottom b) A3 B3) as D3. pose proof (pmin_D D (top a) (top b) A4 B4) as D4.
    unfold intersection. destruct (_ || _) eqn:E; [discriminate|]. intros [= <-]. apply orb_false_iff in E as [E1 E2]. apply (lt_false D O) in E1; [|assumption..]. apply (lt_false D O) in E2; [|assumption..].
    split; [split; apply corner_sub; try assumption; try (apply (pmin_l D O); assumption); try (apply (pmin_r D O); assumption); try (apply (pmax_l D O); assumption); try (apply (pmax_r D O); assumption)|].
    intros x Fx (P1 & P2 & P3 & P4) (Q1 & Q2 & Q3 & Q4). apply sub_corner; try assumption; try (apply pmin_glb; assumption); try (apply pmax_lub; assumption).
  Qed.
  Lemma inter_no a b x : fit a -> fit b -> fit x -> intersection a b = None -> sub x a -> sub x b -> False.
  Proof.
    intros Fa Fb ((X1 & X2 & X3 & X4) & (V1 & V2) & _). pose proof Fa as ((A1 & A2 & A3 & A4) & _). pose proof Fb as ((B1 & B2 & B3 & B4) & _).
    pose proof (pmax_D D (left a) (left b) A1 B1) as D1. pose proof (pmin_D D (right a) (right b) A2 B2) as D2. pose proof (pmax_D D (bottom a) (bottom b) A3 B3) as D3. pose proof (pmin_D D (top a) (top b) A4 B4) as D4.
    unfold intersection. destruct (_ || _) eqn:E; [|discriminate]. intros _ (P1 & P2 & P3 & P4) (Q1 & Q2 & Q3 & Q4).
    apply orb_true_iff in E as [E|E]; apply (lt_spec D O) in E; try assumption; apply E.
    - apply (tr _ (left x)); try assumption; [apply pmax_lub; assumption|]. apply (tr _ (right x)); try assumption. apply pmin_glb; assumption.
    - apply (tr _ (bottom x)); try assumption; [apply pmax_lub; assumption|]. apply (tr _ (top x)); try assumption. apply pmin_glb; assumption.
  Qed.
  (** From here on only the order is used. *)
  Variables a b c : rect.
  Hypotheses (Aa : around a) (Ab : around b) (Ac : around c).
  Let Fa := around_fit a Aa.
  Let Fb := around_fit b Ab.
  Let Fc := around_fit c Ac.
  Lemma inter_fit x y i : fit x -> fit y -> intersection x y = Some i -> fit i.
  Proof. intros X Y E. apply around_fit. exact (inter_around x y i X Y E). Qed.
  Theorem closed_any : around (union a b) /\ forall i, intersection a b = Some i -> around i.
  Proof. split; [apply union_around; assumption|]. intros i. apply inter_around; assumption. Qed.
  Theorem inter_comm_any : same (intersection a b) (intersection b a).
  Proof.
    destruct (intersection a b) as [i|] eqn:E, (intersection b a) as [j|] eqn:E'; cbn [same]; [| | |exact I].
    - destruct (inter_lb a b i Fa Fb E) as [[L1 L2] G]. destruct (inter_lb b a j Fb Fa E') as [[L1' L2'] G']. pose proof (inter_fit _ _ _ Fa Fb E). pose proof (inter_fit _ _ _ Fb Fa E').
      apply sub_anti. split; [apply G'; assumption|apply G; assumption].
    - destruct (inter_lb a b i Fa Fb E) as [[L1 L2] G]. exact (inter_no b a i Fb Fa (inter_fit _ _ _ Fa Fb E) E' L2 L1).
    - destruct (inter_lb b a j Fb Fa E') as [[L1 L2] G]. exact (inter_no a b j Fa Fb (inter_fit _ _ _ Fb Fa E') E L2 L1).
  Qed.
  (** What is in all three. *)
  Definition all3 (o : option rect) : Prop :=
    match o with
    | Some x => fit x /\ (sub x a /\ sub x b /\ sub x c) /\ forall y, fit y -> sub y a -> sub y b -> sub y c -> sub y x
    | None => forall y, fit y -> sub y a -> sub y b -> sub y c -> False
    end.
  Lemma all3_same o o' : all3 o -> all3 o' -> same o o'.
  Proof.
    destruct o as [x|], o' as [y|]; cbn [all3 same]; [| | |intros; exact I].
    - intros (X & (P1 & P2 & P3) & P) (Y & (Q1 & Q2 & Q3) & Q). apply sub_anti. split; [apply Q|apply P]; assumption.
    - intros (X & (P1 & P2 & P3) & P) Q. exact (Q x X P1 P2 P3).
    - intros Q (X & (P1 & P2 & P3) & P). exact (Q y X P1 P2 P3).
  Qed.
  Theorem inter_assoc_any : same (and_then (intersection a b) (fun i => intersection i c)) (and_then (intersection b c) (fun i => intersection a i)).
  Proof.
    apply all3_same.
    - destruct (intersection a b) as [i|] eqn:E; cbn [and_then].
      + destruct (inter_lb a b i Fa Fb E) as [[L1 L2] G]. pose proof (inter_fit _ _ _ Fa Fb E) as Fi. destruct (intersection i c) as [j|] eqn:E'; cbn [all3].
        * destruct (inter_lb i c j Fi Fc E') as [[M1 M2] G']. pose proof (inter_fit _ _ _ Fi Fc E') as Fj. split; [exact Fj|]. split; [split; [exact (sub_trans j i a Fj Fi Fa M1 L1)|split; [exact (sub_trans j i b Fj Fi Fb M1 L2)|exact M2]]|].
          intros y Y Y1 Y2 Y3. apply G'; try assumption. apply G; assumption.
        * intros y Y Y1 Y2 Y3. refine (inter_no i c y Fi Fc Y E' _ Y3). apply G; assumption.
      + cbn [all3]. intros y Y Y1 Y2 _. exact (inter_no a b y Fa Fb Y E Y1 Y2).
    - destruct (intersection b c) as [i|] eqn:E; cbn [and_then].
      + destruct (inter_lb b c i Fb Fc E) as [[L1 L2] G]. pose proof (inter_fit _ _ _ Fb Fc E) as Fi. destruct (intersection a i) as [j|] eqn:E'; cbn [all3].
        * destruct (inter_lb a i j Fa Fi E') as [[M1 M2] G']. pose proof (inter_fit _ _ _ Fa Fi E') as Fj. split; [exact Fj|]. split; [split; [exact M1|split; [exact (sub_trans j i b Fj Fi Fb M2 L1)|exact (sub_trans j i c Fj Fi Fc M2 L2)]]|].
          intros y Y Y1 Y2 Y3. apply G'; try assumption. apply G; assumption.
        * intros y Y Y1 Y2 Y3. refine (inter_no a i y Fa Fi Y E' Y1 _). apply G; assumption.
      + cbn [all3]. intros y Y _ Y2 Y3. exact (inter_no b c y Fb Fc Y E Y2 Y3).
  Qed.
  Lemma meet_below x y : fit x -> fit y -> sub y x -> same (intersection x y) (Some y).
  Proof.
    intros X Y S. destruct (intersection x y) as [i|] eqn:E; cbn [same].
    - destruct (inter_lb x y i X Y E) as [[L1 L2] G]. apply sub_anti. split; [exact L2|]. apply G; try assumption. apply sub_refl; assumption.
    - exact (inter_no x y y X Y Y E S (sub_refl y Y)).
  Qed.
  Lemma join_above x y : fit x -> fit y -> sub y x -> req (union x y) x.
  Proof. intros X Y S. apply sub_anti. split; [apply union_lub; try assumption; apply sub_refl; assumption|apply union_ub; assumption]. Qed.
  Theorem absorb_any : same (intersection (union a b) a) (Some a) /\ forall i, intersection a b = Some i -> req (union a i) a.
  Proof.
    split; [apply meet_below; [apply around_fit, union_around; assumption|assumption|apply union_ub; assumption]|].
    intros i E. apply join_above; [assumption|exact (inter_fit _ _ _ Fa Fb E)|]. apply (inter_lb a b i Fa Fb E).
  Qed.
  Theorem encloses_any : (encloses a b = true <-> req (union a b) a) /\ (encloses a b = true <-> same (intersection a b) (Some b)).
  Proof.
    rewrite (encloses_sub a b Fa Fb). split; split.
    - intros S. apply join_above; assumption.
    - intros E. apply sub_anti in E as [E _]. refine (sub_trans b (union a b) a Fb _ Fa _ E); [apply around_fit, union_around; assumption|apply union_ub; assumption].
    - intros S. apply meet_below; assumption.
    - destruct (intersection a b) as [i|] eqn:E; cbn [same]; [|tauto]. intros Q. apply sub_anti in Q as [_ Q]. destruct (inter_lb a b i Fa Fb E) as [[L1 L2] G]. exact (sub_trans b i a Fb (inter_fit _ _ _ Fa Fb E) Fa Q L1).
  Qed.
  Theorem order_any : encloses a a = true /\ (encloses a b = true -> encloses b a = true -> req a b) /\ (encloses a b = true -> encloses b c = true -> encloses a c = true).
  Proof.
    rewrite (encloses_sub a a Fa Fa), (encloses_sub a b Fa Fb), (encloses_sub b a Fb Fa), (encloses_sub b c Fb Fc), (encloses_sub a c Fa Fc).
    split; [apply sub_refl; assumption|]. split; [intros P Q; apply sub_anti; tauto|]. intros P Q. exact (sub_trans c b a Fc Fb Fa Q P).
  Qed.
  Theorem bounds_any : (encloses (union a b) a = true /\ encloses (union a b) b = true /\ (encloses c a = true -> encloses c b = true -> encloses c (union a b) = true)) /\
    match intersection a b with
    | Some i => encloses a i = true /\ encloses b i = true /\ (encloses a c = true -> encloses b c = true -> encloses i c = true)
    | None => ~ (encloses a c = true /\ encloses b c = true)
    end.
  Proof.
    pose proof (around_fit _ (union_around a b Fa Fb)) as Fu. split.
    - rewrite !encloses_sub by assumption. split; [apply union_ub; assumption|]. split; [apply union_ub; assumption|]. apply union_lub; assumption.
    - destruct (intersection a b) as [i|] eqn:E.
      + pose proof (inter_fit _ _ _ Fa Fb E) as Fi. rewrite !encloses_sub by assumption. destruct (inter_lb a b i Fa Fb E) as [[L1 L2] G]. split; [exact L1|]. split; [exact L2|]. intros P Q. apply G; assumption.
      + rewrite !encloses_sub by assumption. intros [P Q]. exact (inter_no a b c Fa Fb Fc E P Q).
  Qed.
End Meet.
(** Outlines: the order of contours, segments and points does not matter, and outlines put together have the union of the bounds. *)
Section Outline.
  Context {T : Type} `{NumOps T} (D : T -> Prop) (O : TotalOrder D).
  Lemma good_all (cs : list (contour T)) : List.Forall (good_contour D) cs -> good_points D (concat (concat cs)).
  Proof.
    intros F. apply Forall_forall. intros p Hp. apply in_concat in Hp as (s & Hs & Hp). apply in_concat in Hs as (c & Hc & Hs).
    rewrite Forall_forall in F. specialize (F c Hc). unfold good_contour in F. rewrite Forall_forall in F. specialize (F s Hs). unfold good_points in F. rewrite Forall_forall in F. exact (F p Hp).
  Qed.
  Lemma outline_D (cs : list (contour T)) : List.Forall (good_contour D) cs -> Drect D (fromContours cs).
  Proof.
    intros G. unfold fromContours. assert (D0 : Drect D (BoundsRectangle (T := T) [])) by (apply (BR_D D O); constructor). revert D0.
    generalize (BoundsRectangle (T := T) []). induction G as [|c cs Gc _ IH]; cbn [fold_left]; intros r Dr; [exact Dr|]. apply IH. apply (union_D D O); [exact Dr|]. apply (fromContour_D D O); exact Gc.
  Qed.
  Theorem outline_points (cs ds : list (contour T)) : List.Forall (good_contour D) cs -> List.Forall (good_contour D) ds -> List.Forall solid cs -> List.Forall solid ds ->
    (forall p, In p (concat (concat cs)) <-> In p (concat (concat ds))) -> req (fromContours cs) (fromContours ds).
  Proof.
    intros Gc Gd Sc Sd E. pose proof (good_all cs Gc) as Pc. pose proof (good_all ds Gd) as Pd.
    apply (req_trans D O) with (BoundsRectangle (concat (concat cs))); [apply outline_D; exact Gc|apply (BR_D D O); exact Pc|apply outline_D; exact Gd|exact (fromContours_flat D O cs Gc Sc)|].
    apply (req_trans D O) with (BoundsRectangle (concat (concat ds))); [apply (BR_D D O); exact Pc|apply (BR_D D O); exact Pd|apply outline_D; exact Gd|exact (same_points D O _ _ Pc Pd E)|]. apply req_sym. exact (fromContours_flat D O ds Gd Sd).
  Qed.
  Theorem outline_join (cs ds : list (contour T)) : List.Forall (good_contour D) cs -> List.Forall (good_contour D) ds -> List.Forall solid cs -> List.Forall solid ds -> cs ++ ds <> [] ->
    req (fromContours (cs ++ ds)) (union (fromContours cs) (fromContours ds)).
  Proof.
    intros Gc Gd Sc Sd N. pose proof (good_all cs Gc) as Pc. pose proof (good_all ds Gd) as Pd. assert (G : List.Forall (good_contour D) (cs ++ ds)) by (apply Forall_app; auto). assert (S : List.Forall solid (cs ++ ds)) by (apply Forall_app; auto).
    assert (M : concat (concat cs) ++ concat (concat ds) <> []).
    { rewrite <- concat_app, <- concat_app. clear - S N. destruct (cs ++ ds) as [|c l]; [congruence|]. inversion S as [|? ? [Nc Fc] _]; subst. destruct c as [|s c]; [congruence|]. inversion Fc; subst. cbn. destruct s; [congruence|discriminate]. }
    assert (U : req (BoundsRectangle (concat (concat (cs ++ ds)))) (union (BoundsRectangle (concat (concat cs))) (BoundsRectangle (concat (concat ds))))) by (rewrite !concat_app; apply req_sym; exact (union_app D O _ _ Pc Pd M)).
    pose proof (BR_D D O _ Pc) as Bc. pose proof (BR_D D O _ Pd) as Bd. pose proof (outline_D cs Gc) as Oc. pose proof (outline_D ds Gd) as Od.
    apply (req_trans D O) with (BoundsRectangle (concat (concat (cs ++ ds)))); [apply outline_D; exact G|apply (BR_D D O); apply good_all; exact G|apply (union_D D O); assumption|exact (fromContours_flat D O _ G S)|].
    apply (req_trans D O) with (union (BoundsRectangle (concat (concat cs))) (BoundsRectangle (concat (concat ds)))); [apply (BR_D D O); apply good_all; exact G|apply (union_D D O); assumption|apply (union_D D O); assumption|exact U|].
    apply (union_req D O); try assumption; apply req_sym; [exact (fromContours_flat D O cs Gc Sc)|exact (fromContours_flat D O ds Gd Sd)].
  Qed.
End Outline.
