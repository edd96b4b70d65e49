(** Glyphs with nested components, SegmentPen.py. *)
From Coq Require Import List ZArith Bool Reals Lra Lia String.
From Verif Require Import Py Inst SpecGeom SpecPen MTransform MSegmentPen ProofTransform ProofPen.
Import ListNotations.
Local Open Scope list_scope.

Definition calls_of_part (p : part) : list (pencall R) :=
  match p with Sub sp => calls_of_subpath sp | Ref n tr => [AddComponent n tr] end.
Definition glyphs (f : font) : glyphset R := fun n => option_map (flat_map calls_of_part) (f n).

Lemma runs_more {T} {N : NumOps T} (step step' : pen T -> pencall T -> outcome) a s s' :
  (forall s c s', step s c = (s', None) -> step' s c = (s', None)) -> runCalls step a s = (s', None) -> runCalls step' a s = (s', None).
Proof.
  intros H. revert s. induction a as [|c a IH]; intros s; simpl; auto.
  destruct (step s c) as [s1 [e|]] eqn:E; [discriminate|]. rewrite (H _ _ _ E). apply IH.
Qed.
Lemma step_more {T} {N : NumOps T} gs (draw draw' : glyph T -> outcome) s c s' : (forall g s', draw g = (s', None) -> draw' g = (s', None)) ->
  penStep gs draw s c = (s', None) -> penStep gs draw' s c = (s', None).
Proof.
  intros H. destruct c as [| | | | |n tr| | |]; auto. cbn [penStep]. unfold addComponent. destruct (gs n) as [g|]; auto.
  destruct (draw g) as [cp [e|]] eqn:E; [discriminate|]. now rewrite (H _ _ E).
Qed.
Lemma draw_more {T} {N : NumOps T} (gs : glyphset T) fuel fuel' g s' : (fuel <= fuel')%nat -> drawGlyph gs fuel g = (s', None) -> drawGlyph gs fuel' g = (s', None).
Proof.
  revert fuel' g s'. induction fuel as [|fuel IH]; intros fuel' g s' L; [discriminate|]. destruct fuel' as [|fuel']; [lia|]. cbn [drawGlyph].
  apply runs_more. intros s c s2. apply step_more. intros h s3. apply IH. lia.
Qed.

Section F.
  Variable f : font.
  Lemma runs_pictured draw ps : forall s s', (forall q s', draw (flat_map calls_of_part q) = (s', None) -> pictured f q (p_contours s')) ->
    runCalls (penStep (glyphs f) draw) (flat_map calls_of_part ps) s = (s', None) ->
    exists cs, pictured f ps cs /\ p_contours s' = p_contours s ++ cs.
  Proof.
    induction ps as [|p ps IH]; intros s s' H E.
    - cbn in E. injection E as <-. exists []. split; [constructor | now rewrite app_nil_r].
    - cbn [flat_map] in E. destruct p as [sp|n tr]; cbn [calls_of_part] in E.
      + destruct (drawing_recorded (glyphs f) draw [sp] s) as (s1 & E1 & P1). cbn [flat_map] in E1. rewrite app_nil_r in E1.
        rewrite (runCalls_app _ _ _ _ _ E1) in E. destruct (IH s1 s' H E) as (cs & Pc & Q).
        exists (outline [sp] ++ cs). split; [now constructor | rewrite Q, P1, app_assoc; reflexivity].
      + cbn [app runCalls penStep] in E. destruct (addComponent_spec (glyphs f) draw s n tr) as (A1 & A2 & A3).
        destruct (f n) as [q|] eqn:En; [|rewrite A1 in E; [discriminate | unfold glyphs; now rewrite En]].
        assert (G : glyphs f n = Some (flat_map calls_of_part q)) by (unfold glyphs; now rewrite En).
        destruct (draw (flat_map calls_of_part q)) as [cp [e|]] eqn:D; [rewrite (A2 _ _ _ G D) in E; discriminate|].
        rewrite (A3 _ _ G D) in E. destruct (IH _ s' H E) as (cs & Pc & Q). cbn [p_contours] in Q.
        exists (map (map (map (aff tr))) (p_contours cp) ++ cs). split; [econstructor; eauto | rewrite Q, app_assoc; reflexivity].
  Qed.
  Theorem drawn_pictured fuel ps s' : drawGlyph (glyphs f) fuel (flat_map calls_of_part ps) = (s', None) -> pictured f ps (p_contours s').
  Proof.
    revert ps s'. induction fuel as [|fuel IH]; intros ps s'; [discriminate|]. cbn [drawGlyph]. intros E.
    destruct (runs_pictured _ ps _ _ IH E) as (cs & P & Q). cbn [p_contours newPen app] in Q. now rewrite Q.
  Qed.
  Lemma pictured_runs ps cs : pictured f ps cs -> exists n0, forall fuel s, (n0 <= fuel)%nat ->
    exists s', runCalls (penStep (glyphs f) (drawGlyph (glyphs f) fuel)) (flat_map calls_of_part ps) s = (s', None) /\ p_contours s' = p_contours s ++ cs.
  Proof.
    induction 1 as [|sp ps cs P (n0 & IH)|n tr q cq ps cs En P1 (n1 & IH1) P2 (n2 & IH2)].
    - exists 0%nat. intros fuel s _. exists s. split; [reflexivity | now rewrite app_nil_r].
    - exists n0. intros fuel s L. cbn [flat_map calls_of_part].
      destruct (drawing_recorded (glyphs f) (drawGlyph (glyphs f) fuel) [sp] s) as (s1 & E1 & Q1). cbn [flat_map] in E1. rewrite app_nil_r in E1.
      rewrite (runCalls_app _ _ _ _ _ E1). destruct (IH fuel s1 L) as (s' & E & Q). exists s'. split; [exact E|]. rewrite Q, Q1, app_assoc. reflexivity.
    - exists (S (n1 + n2)). intros fuel s L. destruct fuel as [|fuel]; [lia|]. cbn [flat_map calls_of_part app runCalls penStep].
      destruct (addComponent_spec (glyphs f) (drawGlyph (glyphs f) (S fuel)) s n tr) as (_ & _ & A3).
      destruct (IH1 fuel newPen ltac:(lia)) as (cp & D & Q). cbn [newPen p_contours app] in Q.
      rewrite (A3 (flat_map calls_of_part q) cp); [|unfold glyphs; now rewrite En | exact D].
      destruct (IH2 (S fuel) (mkPen (p_contours s ++ map (map (map (aff tr))) (p_contours cp)) (p_last s) (p_contour s)) ltac:(lia)) as (s' & E & Q').
      exists s'. split; [exact E|]. rewrite Q'. cbn [p_contours]. rewrite Q, app_assoc. reflexivity.
  Qed.
  Theorem pictured_drawn ps cs : pictured f ps cs -> exists n0, forall fuel, (n0 <= fuel)%nat ->
    exists s', drawGlyph (glyphs f) fuel (flat_map calls_of_part ps) = (s', None) /\ p_contours s' = cs.
  Proof.
    intros P. destruct (pictured_runs ps cs P) as (n0 & H). exists (S n0). intros fuel L. destruct fuel as [|fuel]; [lia|]. cbn [drawGlyph].
    apply (H fuel newPen). lia.
  Qed.
  (** What goes wrong otherwise. *)
  Definition present (ps : list part) : Prop := forall n tr, In (Ref n tr) ps -> f n <> None.
  Lemma runs_error draw ps : forall s s' e, (forall q s' e, draw (flat_map calls_of_part q) = (s', Some e) -> e = KeyError \/ e = RecursionError) ->
    runCalls (penStep (glyphs f) draw) (flat_map calls_of_part ps) s = (s', Some e) -> e = KeyError \/ e = RecursionError.
  Proof.
    induction ps as [|p ps IH]; intros s s' e H E; [discriminate|]. cbn [flat_map] in E. destruct p as [sp|n tr]; cbn [calls_of_part] in E.
    - destruct (drawing_recorded (glyphs f) draw [sp] s) as (s1 & E1 & P1). cbn [flat_map] in E1. rewrite app_nil_r in E1.
      rewrite (runCalls_app _ _ _ _ _ E1) in E. eapply IH; eauto.
    - cbn [app runCalls penStep] in E. destruct (addComponent_spec (glyphs f) draw s n tr) as (A1 & A2 & A3).
      destruct (f n) as [q|] eqn:En; [|rewrite A1 in E; [injection E as _ <-; auto | unfold glyphs; now rewrite En]].
      assert (G : glyphs f n = Some (flat_map calls_of_part q)) by (unfold glyphs; now rewrite En).
      destruct (draw (flat_map calls_of_part q)) as [cp [e'|]] eqn:D.
      + rewrite (A2 _ _ _ G D) in E. injection E as _ <-. eauto.
      + rewrite (A3 _ _ G D) in E. eapply IH; eauto.
  Qed.
  Theorem only_errors fuel ps s' e : drawGlyph (glyphs f) fuel (flat_map calls_of_part ps) = (s', Some e) -> e = KeyError \/ e = RecursionError.
  Proof.
    revert ps s' e. induction fuel as [|fuel IH]; intros ps s' e; cbn [drawGlyph]; [intros E; injection E as _ <-; auto|]. apply runs_error. exact IH.
  Qed.
  Lemma runs_noKey draw ps : forall s s', present ps -> (forall n q s', f n = Some q -> draw (flat_map calls_of_part q) <> (s', Some KeyError)) ->
    runCalls (penStep (glyphs f) draw) (flat_map calls_of_part ps) s <> (s', Some KeyError).
  Proof.
    induction ps as [|p ps IH]; intros s s' Pr H E; [discriminate|]. cbn [flat_map] in E.
    assert (Pr' : present ps) by (intros n tr I; apply (Pr n tr); now right). destruct p as [sp|n tr]; cbn [calls_of_part] in E.
    - destruct (drawing_recorded (glyphs f) draw [sp] s) as (s1 & E1 & P1). cbn [flat_map] in E1. rewrite app_nil_r in E1.
      rewrite (runCalls_app _ _ _ _ _ E1) in E. eapply IH; eauto.
    - cbn [app runCalls penStep] in E. destruct (addComponent_spec (glyphs f) draw s n tr) as (A1 & A2 & A3).
      destruct (f n) as [q|] eqn:En; [|exfalso; apply (Pr n tr); [now left | exact En]].
      assert (G : glyphs f n = Some (flat_map calls_of_part q)) by (unfold glyphs; now rewrite En).
      destruct (draw (flat_map calls_of_part q)) as [cp [e'|]] eqn:D.
      + rewrite (A2 _ _ _ G D) in E. injection E as _ ->. exact (H n q cp En D).
      + rewrite (A3 _ _ G D) in E. eapply IH; eauto.
  Qed.
  Theorem no_KeyError fuel ps s' : (forall n q, f n = Some q -> present q) -> present ps -> drawGlyph (glyphs f) fuel (flat_map calls_of_part ps) <> (s', Some KeyError).
  Proof.
    intros Pf. revert ps s'. induction fuel as [|fuel IH]; intros ps s' Pp; cbn [drawGlyph]; [discriminate|].
    apply runs_noKey; auto. intros n q s'' En. apply IH. eapply Pf; eauto.
  Qed.
  (** Names that keep referring to each other. *)
  Theorem cyclic (C : string -> Prop) : (forall n, C n -> forall q, f n = Some q -> exists m tr, In (Ref m tr) q /\ C m) ->
    forall ps m tr, In (Ref m tr) ps -> C m -> forall cs, ~ pictured f ps cs.
  Proof.
    intros HC ps m tr I Cm cs P. revert m tr I Cm. induction P as [|sp ps cs P IH|n tr q cq ps cs En P1 IH1 P2 IH2]; intros m tr' I Cm.
    - destruct I.
    - destruct I as [I|I]; [discriminate|]. eapply IH; eauto.
    - destruct I as [I|I]; [|eapply IH2; eauto]. injection I as -> ->. destruct (HC m Cm q En) as (m' & tr2 & I' & C'). eapply IH1; eauto.
  Qed.
  Theorem cyclic_fails (C : string -> Prop) : (forall n, C n -> forall q, f n = Some q -> exists m tr, In (Ref m tr) q /\ C m) ->
    (forall n q, f n = Some q -> present q) -> forall ps m tr, present ps -> In (Ref m tr) ps -> C m ->
    forall fuel, snd (drawGlyph (glyphs f) fuel (flat_map calls_of_part ps)) = Some RecursionError.
  Proof.
    intros HC Pf ps m tr Pp I Cm fuel. destruct (drawGlyph (glyphs f) fuel (flat_map calls_of_part ps)) as [s' [e|]] eqn:E; cbn [snd].
    - destruct (only_errors _ _ _ _ E) as [->| ->]; auto. exfalso. exact (no_KeyError fuel ps s' Pf Pp E).
    - exfalso. exact (cyclic C HC ps m tr I Cm _ (drawn_pictured _ _ _ E)).
  Qed.
End F.
