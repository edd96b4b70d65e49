(** The memo fields of a curve object never change an answer, except that of extrema. *)
From Coq Require Import List ZArith Bool Lia.
From Verif Require Import Py Inst SpecOrder SpecObj MTransform MBounds MBezUtil MBezier MBezierObj.
Import ListNotations.
Local Open Scope num_scope.

Section Obj.
  Context {T : Type} `{NumOps T} `{TrigOps T} (D : T -> Prop) (O : TotalOrder D).

  Lemma lit_eq z : (@nofZ T _ z =? nofZ z) = true.
  Proof. rewrite (to_eq D O) by apply (to_lit D O). rewrite (to_refl D O) by apply (to_lit D O). reflexivity. Qed.
  Lemma addEnds_twice (l : list T) : addEnds (addEnds l) = addEnds l.
  Proof.
    assert (M0 : nmem (nofZ 0) (addEnds l) = true).
    { unfold addEnds. destruct (nmem (nofZ 0) l) eqn:A.
      - destruct (nmem (nofZ 1) l); [exact A|]. unfold nmem in *. rewrite existsb_app, A. reflexivity.
      - destruct (nmem (nofZ 1) (nofZ 0 :: l)); unfold nmem; cbn [existsb app]; rewrite lit_eq; reflexivity. }
    assert (M1 : nmem (nofZ 1) (addEnds l) = true).
    { unfold addEnds. set (m := if nmem (nofZ 0) l then l else nofZ 0 :: l). destruct (nmem (nofZ 1) m) eqn:A; [exact A|].
      unfold nmem. rewrite existsb_app. cbn [existsb]. rewrite lit_eq, !orb_true_r. reflexivity. }
    unfold addEnds at 1. rewrite M0, M1. reflexivity.
  Qed.
  Lemma addEnds_same (l : list T) : same_but_ends l (addEnds l).
  Proof.
    unfold addEnds. destruct (nmem (nofZ 0) l).
    - destruct (nmem (nofZ 1) l); [exists [], []; rewrite app_nil_r; auto|exists [], [nofZ 1]; auto].
    - destruct (nmem (nofZ 1) (nofZ 0 :: l)); [exists [nofZ 0], []; rewrite app_nil_r; auto|exists [nofZ 0], [nofZ 1]; auto].
  Qed.
  Lemma refl_same (l : list T) : same_but_ends l l.
  Proof. exists [], []. rewrite app_nil_r. auto. Qed.

  Definition stretched (l l' : list T) : Prop := l' = l \/ l' = addEnds l.
  Lemma stretch_ends l l' : stretched l l' -> addEnds l' = addEnds l.
  Proof. intros [->| ->]; [reflexivity|apply addEnds_twice]. Qed.
  Lemma stretch_same l l' : stretched l l' -> same_but_ends l l'.
  Proof. intros [->| ->]; [apply refl_same|apply addEnds_same]. Qed.

  Definition ext_ok (b : bezier T) (e : extremaT T) : Prop :=
    exists e0, extrema b = Ok e0 /\ stretched (ex0 e0) (ex0 e) /\ stretched (ex1 e0) (ex1 e) /\ stretched (ex2 e0) (ex2 e).
  Definition inv (b : bezier T) (o : bobj T) : Prop :=
    o_bez o = b /\ (o_dc o = [] \/ o_dc o = dcPoints b) /\ (forall e, o_ext o = Some e -> ext_ok b e) /\
    (forall l, o_len o = Some l -> quadrature b = Ok l) /\ (forall x, o_bbox o = Some x -> bbox b = Ok x) /\
    (forall r, o_rect o = Some r -> boundsRectangle b = Ok r) /\ (o_lut o = [] \/ exists s, sampleLUT b s = Ok (o_lut o)).
  (** The extrema memo is untouched or as computed. *)
  Definition plain (b : bezier T) (o : bobj T) : Prop := forall e, o_ext o = Some e -> extrema b = Ok e.

  Lemma inv_fresh b : inv b (fresh b).
  Proof. repeat split; cbn; auto; discriminate. Qed.
  Lemma dc_ok b o : inv b o -> inv b (fst (q_dcPoints o)) /\ snd (q_dcPoints o) = dcPoints b /\
    o_ext (fst (q_dcPoints o)) = o_ext o.
  Proof.
    intros I. pose proof I as (Eb & Ed & Ee & El & Ex & Er & Eu). unfold q_dcPoints. destruct (o_dc o) as [|x d] eqn:E.
    - cbn. split; [|rewrite Eb; auto]. repeat split; cbn; auto. right. now rewrite Eb.
    - cbn. split; [exact I|]. destruct Ed as [K|K]; [discriminate|auto].
  Qed.
  Lemma extrema_from b : extrema b = (let* e0 := extremaDimFrom (dcPoints b) (order b) 0 in
                  let* e1 := extremaDimFrom (dcPoints b) (order b) 1 in
                  Ok (mkExt e0 e1 (removeDuplicates neqb (sorted (sorted e0 ++ sorted e1))))).
  Proof. reflexivity. Qed.
  Lemma inv_setExt b o e : inv b o -> ext_ok b e -> inv b (setExt o (Some e)).
  Proof. intros (Eb & Ed & Ee & El & Ex & Er & Eu) K. repeat split; cbn; auto. intros e' E'. injection E' as <-. exact K. Qed.
  Lemma extrema_ok b o : inv b o -> inv b (fst (q_extrema o)) /\
    (forall e, snd (q_extrema o) = Ok e -> ext_ok b e /\ o_ext (fst (q_extrema o)) = Some e) /\
    (forall x, snd (q_extrema o) = Err x -> extrema b = Err x) /\
    (plain b o -> plain b (fst (q_extrema o)) /\ snd (q_extrema o) = extrema b).
  Proof.
    intros I. unfold q_extrema. destruct (o_ext o) as [e|] eqn:E.
    - cbn. split; [exact I|]. destruct I as (_ & _ & Ee & _). split; [intros e' K; injection K as <-; auto|]. split; [discriminate|].
      intros P. split; [exact P|]. symmetry. exact (P _ E).
    - destruct (dc_ok b o I) as (I' & Ev & Ex). destruct (q_dcPoints o) as [o' dc] eqn:Q. cbn [fst snd] in *. subst dc.
      pose proof I' as (Eb & _). rewrite Eb. cbv zeta. rewrite <- extrema_from. destruct (extrema b) as [e|x] eqn:X; cbn [fst snd].
      + assert (K : ext_ok b e) by (exists e; repeat split; auto; left; reflexivity).
        split; [now apply inv_setExt|]. split; [intros e' J; injection J as <-; auto|]. split; [discriminate|].
        intros _. split; [|reflexivity]. intros e' J. cbn in J. injection J as <-. exact X.
      + split; [exact I'|]. split; [discriminate|]. split; [intros y J; injection J as <-; reflexivity|].
        intros _. split; [|reflexivity]. intros e' J. congruence.
  Qed.
  Lemma bbox_ok b o : inv b o -> inv b (fst (q_bbox o)) /\ snd (q_bbox o) = bbox b.
  Proof.
    intros I. unfold q_bbox. destruct (o_bbox o) as [x|] eqn:E.
    - cbn. split; [exact I|]. destruct I as (_ & _ & _ & _ & Ex & _). symmetry. auto.
    - destruct (extrema_ok b o I) as (I' & Ke & Kx & _). destruct (q_extrema o) as [o' [e|x]]; cbn [fst snd] in *.
      + destruct (Ke e eq_refl) as ((e0 & X & S0 & S1 & S2) & _).
        pose proof I' as (Eb & _).
        assert (I1 : inv b (setExt o' (Some (mkExt (addEnds (ex0 e)) (ex1 e) (ex2 e))))).
        { apply inv_setExt; auto. exists e0. cbn. repeat split; auto. right. now apply stretch_ends. }
        assert (I2 : inv b (setExt o' (Some (mkExt (addEnds (ex0 e)) (addEnds (ex1 e)) (ex2 e))))).
        { apply inv_setExt; auto. exists e0. cbn. repeat split; auto; right; now apply stretch_ends. }
        cbn [o_bez setExt]. rewrite Eb.
        assert (X0 : minmaxOver b 0 (addEnds (ex0 e)) = getminmax b 0 (ex0 e0)) by (rewrite (stretch_ends _ _ S0); reflexivity).
        assert (X1 : minmaxOver b 1 (addEnds (ex1 e)) = getminmax b 1 (ex1 e0)) by (rewrite (stretch_ends _ _ S1); reflexivity).
        assert (B : bbox b = (let* x := getminmax b 0 (ex0 e0) in let* y := getminmax b 1 (ex1 e0) in Ok (x, y))) by (unfold bbox; rewrite X; reflexivity).
        rewrite X0, X1, B. destruct (getminmax b 0 (ex0 e0)) as [m0|x0]; cbn [bind fst snd]; [|auto].
        cbn [o_bez setExt]. destruct (getminmax b 1 (ex1 e0)) as [m1|x1]; cbn [bind fst snd]; [|auto].
        split; [|reflexivity]. destruct I2 as (A1 & A2 & A3 & A4 & A5 & A6 & A7). repeat split; cbn; auto.
        intros x J. injection J as <-. exact B.
      + split; [exact I'|]. unfold bbox. now rewrite (Kx x eq_refl).
  Qed.
  Lemma bounds_ok b o : inv b o -> inv b (fst (q_bounds o)) /\ snd (q_bounds o) = boundsRectangle b.
  Proof.
    intros I. unfold q_bounds. destruct (o_rect o) as [x|] eqn:E.
    - cbn. split; [exact I|]. destruct I as (_ & _ & _ & _ & _ & Ex & _). symmetry. auto.
    - destruct (bbox_ok b o I) as (I' & K). destruct (q_bbox o) as [o' [[[a c] [d f]]|x]]; cbn [fst snd] in *.
      + assert (B : boundsRectangle b = Ok (BoundsRectangle [(a, d); (c, f)])) by (unfold boundsRectangle; rewrite <- K; reflexivity).
        split; [|now rewrite B]. destruct I' as (A1 & A2 & A3 & A4 & A5 & A6 & A7). repeat split; cbn; auto.
        intros r J. injection J as <-. exact B.
      + split; [exact I'|]. unfold boundsRectangle. now rewrite <- K.
  Qed.
  Lemma sample_length (b : bezier T) s l : sampleLUT b s = Ok l -> length l = Z.to_nat s.
  Proof. intros E. apply mapM_length in E. now rewrite E, seq_length. Qed.
  Lemma lut_ok b o s : inv b o -> inv b (fst (q_getLUT o s)) /\ snd (q_getLUT o s) = sampleLUT b s /\
    o_ext (fst (q_getLUT o s)) = o_ext o.
  Proof.
    intros I. pose proof I as (A1 & A2 & A3 & A4 & A5 & A6 & A7). unfold q_getLUT.
    destruct (Z.eqb_spec (Z.of_nat (length (o_lut o))) s) as [L|L].
    - cbn [fst snd]. split; [exact I|]. split; [|reflexivity]. destruct A7 as [K|(s' & K)].
      + rewrite K in *. cbn in L. subst s. reflexivity.
      + destruct (Z.le_gt_cases 0 s') as [P|P].
        * apply sample_length in K as K'. rewrite K' in L. rewrite Z2Nat.id in L by assumption. now subst s'.
        * apply sample_length in K as K'. replace (Z.to_nat s') with 0%nat in K' by lia.
          destruct (o_lut o); [|discriminate]. cbn in L. subst s. reflexivity.
    - rewrite A1. destruct (sampleLUT b s) as [l|x] eqn:E; cbn [fst snd]; (split; [|auto]); repeat split; cbn; eauto.
  Qed.
  Lemma reduce_ok b o f : inv b o -> inv b (fst (q_reduce f o)) /\ snd (q_reduce f o) = reduce f b.
  Proof.
    intros I. unfold q_reduce. destruct (extrema_ok b o I) as (I' & Ke & Kx & _). destruct (q_extrema o) as [o' [e|x]]; cbn [fst snd] in *.
    - destruct (Ke e eq_refl) as ((e0 & X & S0 & S1 & S2) & _). pose proof I' as (Eb & _). cbn [o_bez setExt]. rewrite Eb. split.
      + apply inv_setExt; auto. exists e0. cbn. repeat split; auto. right. now apply stretch_ends.
      + unfold reduce. rewrite X. cbn [bind]. rewrite (stretch_ends _ _ S2). reflexivity.
    - split; [exact I'|]. unfold reduce. now rewrite (Kx x eq_refl).
  Qed.
  Lemma length_ok b o p : inv b o -> inv b (snd (fst (q_length p o))) /\ snd (q_length p o) = quadrature b /\
    o_ext (snd (fst (q_length p o))) = o_ext o.
  Proof.
    intros I. pose proof I as (A1 & A2 & A3 & A4 & A5 & A6 & A7). unfold q_length. rewrite A1.
    assert (C : let w := match quadrature b with Ok l => (p, setLen o (Some l), Ok l) | Err x => ((p + 2)%Z, o, Err x) end in
      inv b (snd (fst w)) /\ snd w = quadrature b /\ o_ext (snd (fst w)) = o_ext o).
    { destruct (quadrature b) as [l|x] eqn:E; cbn; (split; [|auto]); [|exact I]. repeat split; cbn; auto. intros l' J. injection J as <-. exact E. }
    destruct (o_len o) as [l|] eqn:E; [|exact C]. destruct (l =? nofZ 0); [exact C|]. cbn. split; [exact I|]. split; [|reflexivity]. symmetry. auto.
  Qed.
  Lemma derivative_ok b o t : inv b o -> inv b (fst (q_derivative o t)) /\ snd (q_derivative o t) = derivative b t /\
    o_ext (fst (q_derivative o t)) = o_ext o.
  Proof.
    intros I. unfold q_derivative. destruct (dc_ok b o I) as (I' & Ev & Ex). destruct (q_dcPoints o) as [o' dc]. cbn [fst snd] in *. subst dc.
    pose proof I' as (Eb & _). rewrite Eb. auto.
  Qed.

  Theorem step_ok b w q : inv b (snd w) -> inv b (snd (fst (bstep w q))) /\
    (forall a, pure_answer b q = Some a -> snd (bstep w q) = a).
  Proof.
    destruct w as [p o]. cbn [snd]. intros I. destruct q as [| | | |s|f|t| |t|t|t]; cbn [bstep pure_answer].
    - destruct (dc_ok b o I) as (I' & E & _). destruct (q_dcPoints o); cbn [fst snd] in *. subst. split; [exact I'|]. congruence.
    - destruct (extrema_ok b o I) as (I' & _). destruct (q_extrema o); cbn [fst snd] in *. split; [exact I'|discriminate].
    - destruct (bbox_ok b o I) as (I' & E). destruct (q_bbox o); cbn [fst snd] in *. subst. split; [exact I'|]. congruence.
    - destruct (bounds_ok b o I) as (I' & E). destruct (q_bounds o); cbn [fst snd] in *. subst. split; [exact I'|]. congruence.
    - destruct (lut_ok b o s I) as (I' & E & _). destruct (q_getLUT o s); cbn [fst snd] in *. subst. split; [exact I'|]. congruence.
    - destruct (reduce_ok b o f I) as (I' & E). destruct (q_reduce f o); cbn [fst snd] in *. subst. split; [exact I'|]. congruence.
    - destruct (derivative_ok b o t I) as (I' & E & _). destruct (q_derivative o t); cbn [fst snd] in *. subst. split; [exact I'|]. congruence.
    - destruct (length_ok b o p I) as (I' & E & _). destruct (q_length p o) as [[p' o'] r]; cbn [fst snd] in *. subst. split; [exact I'|]. congruence.
    - pose proof I as (<- & _). split; [exact I|]. cbn [snd]. congruence.
    - pose proof I as (<- & _). split; [exact I|]. cbn [snd]. congruence.
    - pose proof I as (<- & _). split; [exact I|]. cbn [snd]. congruence.
  Qed.
  Theorem history_inv b qs : forall w, inv b (snd w) -> inv b (snd (bhistory w qs)).
  Proof. unfold bhistory. induction qs as [|q qs IH]; intros w I; cbn [fold_left]; [exact I|]. apply IH. now apply step_ok. Qed.
  Theorem answers_pure b p qs q a : pure_answer b q = Some a -> snd (bstep (bhistory (p, fresh b) qs) q) = a.
  Proof. apply step_ok. apply history_inv. apply inv_fresh. Qed.

  Lemma step_plain b w q : reads_only q -> inv b (snd w) -> plain b (snd w) -> plain b (snd (fst (bstep w q))).
  Proof.
    destruct w as [p o]. cbn [snd]. intros R I P. destruct q as [| | | |s|f|t| |t|t|t]; cbn [bstep reads_only] in *; try destruct R; auto.
    - destruct (dc_ok b o I) as (_ & _ & E). destruct (q_dcPoints o); cbn [fst snd] in *. unfold plain. now rewrite E.
    - destruct (extrema_ok b o I) as (_ & _ & _ & E). destruct (q_extrema o); cbn [fst snd] in *. now apply E.
    - destruct (lut_ok b o s I) as (_ & _ & E). destruct (q_getLUT o s); cbn [fst snd] in *. unfold plain. now rewrite E.
    - destruct (derivative_ok b o t I) as (_ & _ & E). destruct (q_derivative o t); cbn [fst snd] in *. unfold plain. now rewrite E.
    - destruct (length_ok b o p I) as (_ & _ & E). destruct (q_length p o) as [[p' o'] r]; cbn [fst snd] in *. unfold plain. now rewrite E.
  Qed.
  Theorem extrema_plain b p qs : (forall q, In q qs -> reads_only q) ->
    snd (bstep (bhistory (p, fresh b) qs) QExtrema) = AExtrema (extrema b).
  Proof.
    intros A. assert (K : forall w, inv b (snd w) -> plain b (snd w) -> inv b (snd (bhistory w qs)) /\ plain b (snd (bhistory w qs))).
    { unfold bhistory. induction qs as [|q r IH]; intros w I P; cbn [fold_left]; auto.
      apply IH; [intros; apply A; now right|now apply step_ok|]. apply step_plain; auto. apply A. now left. }
    destruct (K (p, fresh b)) as (I & P); [apply inv_fresh|intros e E; discriminate|].
    destruct (bhistory (p, fresh b) qs) as [p' o]. cbn [snd bstep] in *.
    destruct (extrema_ok b o I) as (_ & _ & _ & E). destruct (q_extrema o); cbn [fst snd] in *. now rewrite (proj2 (E P)).
  Qed.
  Theorem extrema_up_to_ends b p qs : match snd (bstep (bhistory (p, fresh b) qs) QExtrema) with
    | AExtrema (Ok e) => exists e0, extrema b = Ok e0 /\ same_but_ends (ex0 e0) (ex0 e) /\ same_but_ends (ex1 e0) (ex1 e) /\ same_but_ends (ex2 e0) (ex2 e)
    | AExtrema (Err x) => extrema b = Err x
    | _ => False
    end.
  Proof.
    pose proof (history_inv b qs (p, fresh b) (inv_fresh b)) as I. destruct (bhistory (p, fresh b) qs) as [p' o]. cbn [snd bstep] in *.
    destruct (extrema_ok b o I) as (_ & Ke & Kx & _). destruct (q_extrema o) as [o' [e|x]]; cbn [fst snd] in *; [|auto].
    destruct (Ke e eq_refl) as ((e0 & X & S0 & S1 & S2) & _). exists e0. repeat split; auto using stretch_same.
  Qed.
  (** Precision: raised by two exactly when the length query raises. *)
  Theorem length_prec b p o : inv b o -> fst (fst (q_length p o)) = match quadrature b with Ok _ => p | Err _ => (p + 2)%Z end.
  Proof.
    intros I. pose proof I as (A1 & A2 & A3 & A4 & A5 & A6 & A7). unfold q_length. rewrite A1.
    destruct (o_len o) as [l|] eqn:E; [rewrite (A4 l eq_refl); destruct (l =? nofZ 0); reflexivity|]. destruct (quadrature b); reflexivity.
  Qed.
  Theorem history_prec b qs : forall p o, inv b o -> (forall x, quadrature b <> Err x) -> fst (bhistory (p, o) qs) = p.
  Proof.
    unfold bhistory. induction qs as [|q qs IH]; intros p o I Q; cbn [fold_left]; [reflexivity|].
    assert (K : fst (fst (bstep (p, o) q)) = p).
    { destruct q as [| | | |s|f|t| |t|t|t]; cbn [bstep]; try reflexivity.
      - destruct (q_dcPoints o); reflexivity. - destruct (q_extrema o); reflexivity. - destruct (q_bbox o); reflexivity.
      - destruct (q_bounds o); reflexivity. - destruct (q_getLUT o s); reflexivity. - destruct (q_reduce f o); reflexivity.
      - destruct (q_derivative o t); reflexivity.
      - pose proof (length_prec b p o I) as L. destruct (q_length p o) as [[p' o'] r]. cbn in *. rewrite L. destruct (quadrature b) as [|x]; [reflexivity|]. now destruct (Q x). }
    destruct (step_ok b (p, o) q I) as (I' & _). destruct (fst (bstep (p, o) q)) as [p' o'] eqn:E. cbn in K. subst p'. apply IH; auto.
  Qed.
End Obj.
