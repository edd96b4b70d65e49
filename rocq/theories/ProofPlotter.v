(** The plotter. *)
From Coq Require Import List ZArith Bool String Ascii Lia.
From Verif Require Import Py Inst SpecGeom SpecSvg SpecPlot MTransform MBounds MBezUtil MPathUtil MBezier MContour MPlotter ProofSvg.
Import ListNotations.
Local Open Scope string_scope.

Lemma Ok_string (x y : string) : Ok x = Ok y -> x = y.
Proof. congruence. Qed.

Section PlotterProof.
  Context {T : Type} {N : NumOps T} {V : Type} (truthy : V -> bool) (show : T -> string).
  Notation plotter := (@plotter T V).

  (** ** The graphics state *)
  Definition keeps (s s' : plotter) : Prop :=
    pl_poly s' = pl_poly s /\ pl_stroke s' = pl_stroke s /\ pl_fill s' = pl_fill s /\ pl_strokeStack s' = pl_strokeStack s /\ pl_fillStack s' = pl_fillStack s.
  Definition same_content (s s' : plotter) : Prop := pl_content s' = pl_content s.
  Lemma keeps_refl s : keeps s s.
  Proof. unfold keeps. auto 10. Qed.
  Lemma keeps_trans a b c : keeps a b -> keeps b c -> keeps a c.
  Proof. unfold keeps. intuition congruence. Qed.
  Lemma plCommand_keeps (s : plotter) c : keeps s (fst (plCommand s c)) /\ same_content s (fst (plCommand s c)) /\ pl_pen (fst (plCommand s c)) = pl_pen s.
  Proof. unfold plCommand. destruct (pl_poly s) eqn:E; [destruct (negb _)|]; cbn [fst]; unfold keeps, same_content; cbn; auto 10. Qed.
  (** The command text and the state after it. *)
  Definition cmd_of (lit : bool) (s : plotter) (c : ascii) : plotter * string :=
    let (s', w) := plCommand s (String c "") in (s', if (lit && Ascii.eqb c "L")%bool then "L" else w).
  Lemma drawSegment_form lit (s : plotter) seg : (2 <= List.length seg <= 4)%nat -> drawSegment show lit s seg =
    match seg_cmd (pl_pen s) seg, seg_last seg with
    | Some c, Some q => let (s', w) := cmd_of lit s c in (setPen s' q, w ++ seg_args show (pl_pen s) seg)
    | _, _ => (s, "")
    end.
  Proof.
    intros L. destruct seg as [|a [|b [|d [|f [|g r]]]]]; try (simpl in L; lia); unfold drawSegment, seg_cmd, seg_args, cmd_of; cbn [seg_last].
    - destruct (neqb (fst (pl_pen s)) (fst b)) eqn:E1, (neqb (snd (pl_pen s)) (snd b)) eqn:E2; cbn [andb]; try reflexivity.
      + destruct (plCommand s "V") as [s' w]. cbn [Ascii.eqb Bool.eqb]. rewrite andb_false_r. reflexivity.
      + destruct (plCommand s "H") as [s' w]. cbn [Ascii.eqb Bool.eqb]. rewrite andb_false_r. reflexivity.
      + destruct (plCommand s "L") as [s' w]. cbn [Ascii.eqb Bool.eqb]. rewrite andb_true_r. reflexivity.
    - destruct (plCommand s "Q") as [s' w]. cbn [Ascii.eqb Bool.eqb]. rewrite andb_false_r. reflexivity.
    - destruct (plCommand s "C") as [s' w]. cbn [Ascii.eqb Bool.eqb]. rewrite andb_false_r. reflexivity.
  Qed.
  Lemma drawSegment_keeps lit (s : plotter) seg : keeps s (fst (drawSegment show lit s seg)) /\ same_content s (fst (drawSegment show lit s seg)).
  Proof.
    assert (P : forall c q, keeps s (setPen (fst (plCommand s c)) q) /\ same_content s (setPen (fst (plCommand s c)) q)).
    { intros c q. destruct (plCommand_keeps s c) as (A & B & _). split; [destruct A as (A1 & A2 & A3 & A4 & A5); unfold keeps; cbn; auto 10|exact B]. }
    unfold drawSegment. destruct seg as [|a [|b [|d [|f [|g r]]]]]; try (cbn [fst]; split; [apply keeps_refl|reflexivity]).
    - destruct (neqb (fst (pl_pen s)) (fst b)), (neqb (snd (pl_pen s)) (snd b)); cbn [andb]; try (cbn [fst]; split; [apply keeps_refl|reflexivity]).
      + specialize (P "V" b). destruct (plCommand s "V"). exact P.
      + specialize (P "H" b). destruct (plCommand s "H"). exact P.
      + specialize (P "L" b). destruct (plCommand s "L"). exact P.
    - specialize (P "Q" d). destruct (plCommand s "Q"). exact P.
    - specialize (P "C" f). destruct (plCommand s "C"). exact P.
  Qed.
  Lemma drawSegments_keeps lit segs : forall s : plotter, keeps s (fst (drawSegments show lit s segs)) /\ same_content s (fst (drawSegments show lit s segs)).
  Proof.
    induction segs as [|g segs IH]; intros s; [split; [apply keeps_refl|reflexivity]|]. cbn [drawSegments]. pose proof (drawSegment_keeps lit s g) as [A B]. destruct (drawSegment show lit s g) as [s1 a].
    specialize (IH s1). destruct (drawSegments show lit s1 segs) as [s2 b]. cbn [fst] in *. destruct IH as [C E]. split; [eapply keeps_trans; eassumption|unfold same_content in *; congruence].
  Qed.
  Lemma drawContourList_keeps close cs : forall s : plotter, keeps s (fst (drawContourList show s cs close)) /\ same_content s (fst (drawContourList show s cs close)).
  Proof.
    induction cs as [|c cs IH]; intros s; [split; [apply keeps_refl|reflexivity]|]. cbn [drawContourList]. destruct c as [|[|p seg] c]; try (split; [apply keeps_refl|reflexivity]).
    pose proof (drawSegments_keeps true ((p :: seg) :: c) (setPen s p)) as [A B]. destruct (drawSegments show true (setPen s p) ((p :: seg) :: c)) as [s1 txt].
    specialize (IH s1). destruct (drawContourList show s1 cs close) as [s2 [rest|x]]; cbn [fst] in *; destruct IH as [C E]; (split; [eapply keeps_trans; [exact A|exact C]|unfold same_content in *; cbn in *; congruence]).
  Qed.
  Lemma drawPathList_keeps a ps : forall s : plotter, keeps s (drawPathList show s a ps).
  Proof.
    induction ps as [|[st segs] ps IH]; intros s; [apply keeps_refl|]. cbn [drawPathList]. pose proof (drawSegments_keeps false segs (setPen s st)) as [A _].
    destruct (drawSegments show false (setPen s st) segs) as [s1 txt]. cbn [fst] in *. eapply keeps_trans; [exact A|]. eapply keeps_trans; [|apply IH]. unfold keeps. cbn. auto 10.
  Qed.
  Lemma polyline_keeps ps : forall (s : plotter) w, keeps s (fst (polyline show s w ps)) /\ same_content s (fst (polyline show s w ps)).
  Proof.
    induction ps as [|p ps IH]; intros s w; [split; [apply keeps_refl|reflexivity]|]. cbn [polyline]. destruct (_ && _)%bool; [apply IH|].
    specialize (IH (setPen s p) " "). destruct (polyline show (setPen s p) " " ps). exact IH.
  Qed.
  Lemma push_pop_stroke (s : plotter) w c o d : popStroke (pushStroke truthy s w c o d) = (s, None).
  Proof. destruct s. reflexivity. Qed.
  Lemma push_pop_fill (s : plotter) c o : popFill (pushFill truthy s c o) = (s, None).
  Proof. destruct s. reflexivity. Qed.
  Definition with_color (s : plotter) (color : option V) : strokeA :=
    let a := pl_stroke s in mkStroke (s_width a) (given truthy color (s_color a)) (s_opacity a) (s_dash a).
  (** The optional push of the colour, and its undoing. *)
  Definition begin (s : plotter) (color : option V) : plotter := if isGiven truthy color then pushStroke truthy s None color None None else s.
  Lemma begin_stroke s color : pl_stroke (begin s color) = with_color s color.
  Proof.
    unfold begin, with_color, isGiven. destruct color as [v|]; [destruct (truthy v) eqn:E|]; cbn; rewrite ?E; try reflexivity; now destruct (pl_stroke s).
  Qed.
  Lemma begin_end s color s1 : keeps (begin s color) s1 -> exists s2, (if isGiven truthy color then popStroke s1 else (s1, None)) = (s2, None) /\ keeps s s2 /\ same_content s1 s2.
  Proof.
    unfold begin. destruct (isGiven truthy color); intros K.
    - destruct K as (A & B & C & E & F). cbn in A, B, C, E, F. unfold popStroke. rewrite E. eexists. split; [reflexivity|]. split; [|reflexivity]. unfold keeps. cbn. auto 10.
    - exists s1. split; [reflexivity|]. split; [exact K|reflexivity].
  Qed.
  Theorem drawContours_ok s cs color close d : snd (drawContourList show (begin s color) cs close) = Ok d -> exists s',
    drawContours truthy show s cs color false close = (s', None) /\ keeps s s' /\ pl_content s' = (pl_content s ++ [IStrokePath d (with_color s color)])%list.
  Proof.
    intros E. unfold drawContours. fold (begin s color). pose proof (drawContourList_keeps close cs (begin s color)) as [A B]. destruct (drawContourList show (begin s color) cs close) as [s1 r]. cbn [fst snd] in *. subst r.
    destruct (begin_end s color s1 A) as (s2 & E2 & K & C). rewrite E2. eexists. split; [reflexivity|]. split; [exact K|]. cbn. rewrite C, B.
    replace (pl_stroke s1) with (with_color s color) by (rewrite <- begin_stroke; symmetry; apply A). f_equal. unfold begin. destruct (isGiven truthy color); reflexivity.
  Qed.
  Lemma drawContourList_ok close cs : forall s : plotter, (forall c, In c cs -> exists p seg r, c = (p :: seg) :: r) -> exists d, snd (drawContourList show s cs close) = Ok d.
  Proof.
    induction cs as [|c cs IH]; intros s H; [eexists; reflexivity|]. destruct (H c (or_introl eq_refl)) as (p & seg & r & ->). cbn [drawContourList]. destruct (drawSegments show true (setPen s p) ((p :: seg) :: r)) as [s1 txt].
    destruct (IH s1) as [d E]; [intros; apply H; now right|]. destruct (drawContourList show s1 cs close) as [s2 res]. cbn [snd] in *. subst res. eexists. reflexivity.
  Qed.
  Lemma drawContourList_err close cs : forall s : plotter, (exists c, In c cs /\ (c = [] \/ exists r, c = [] :: r)) -> snd (drawContourList show s cs close) = Err IndexError.
  Proof.
    induction cs as [|c cs IH]; intros s (c' & I & H); [destruct I|]. destruct I as [I|I].
    - subst c'. cbn [drawContourList]. destruct H as [->|[r ->]]; reflexivity.
    - cbn [drawContourList]. destruct c as [|[|p seg] c]; try reflexivity. destruct (drawSegments show true (setPen s p) ((p :: seg) :: c)) as [s1 txt].
      specialize (IH s1 (ex_intro _ c' (conj I H))). destruct (drawContourList show s1 cs close) as [s2 res]. cbn [snd] in *. now subst res.
  Qed.
  (** A colour and an empty contour: the exception leaves the colour pushed. *)
  Theorem drawContours_leaks s cs v close : truthy v = true -> (exists c, In c cs /\ (c = [] \/ exists r, c = [] :: r)) -> exists s',
    drawContours truthy show s cs (Some v) false close = (s', Some IndexError) /\ pl_strokeStack s' = pl_stroke s :: pl_strokeStack s /\ s_color (pl_stroke s') = v.
  Proof.
    intros Tv H. unfold drawContours, isGiven. rewrite Tv. set (s0 := pushStroke truthy s None (Some v) None None). pose proof (drawContourList_err close cs s0 H) as E. pose proof (drawContourList_keeps close cs s0) as [A _].
    destruct (drawContourList show s0 cs close) as [s1 r]. cbn [fst snd] in *. subst r. exists s1. split; [reflexivity|]. destruct A as (_ & A & _ & B & _). rewrite A, B. unfold s0. cbn. rewrite Tv. auto.
  Qed.
  Theorem drawPaths_ok s ps color : exists s', drawPaths truthy show s ps color false = (s', None) /\ keeps s s'.
  Proof.
    unfold drawPaths. fold (begin s color). pose proof (drawPathList_keeps (pl_stroke (begin s color)) ps (begin s color)) as A.
    destruct (begin_end s color _ A) as (s2 & E2 & K & C). exists s2. auto.
  Qed.
  Theorem drawPoints_ok s ps color : ps <> [] -> exists s', drawPointsAsSegments truthy show s ps color = (s', None) /\ keeps s s'.
  Proof.
    intros Ne. unfold drawPointsAsSegments. fold (begin s color). destruct ps as [|p ps]; [congruence|].
    pose proof (polyline_keeps ps (setPen (begin s color) p) "L") as [A _]. destruct (polyline show (setPen (begin s color) p) "L" ps) as [s1 txt]. cbn [fst] in A.
    destruct (begin_end s color (emit s1 (IStrokePath ("M" ++ pointToString show p ++ txt) (pl_stroke s1)))) as (s2 & E2 & K & _); [|exists s2; auto]. exact A.
  Qed.
  Theorem drawPoints_leaks s v : truthy v = true -> exists s', drawPointsAsSegments truthy show s [] (Some v) = (s', Some IndexError) /\ pl_strokeStack s' = pl_stroke s :: pl_strokeStack s.
  Proof. intros Tv. unfold drawPointsAsSegments, isGiven. rewrite Tv. eexists. split; reflexivity. Qed.

  (** No call changes [poly]. *)
  Lemma circles_poly r colors fill ps : forall i (s : plotter), pl_poly (circles truthy s i ps r colors fill) = pl_poly s.
  Proof.
    induction ps as [|p ps IH]; intros i s; [reflexivity|]. cbn [circles]. rewrite IH. cbn [emit pl_poly]. destruct (nth_error colors _); [|reflexivity]. destruct (truthy v); [|reflexivity]. destruct fill; reflexivity.
  Qed.
  Lemma pop_poly (s : plotter) : pl_poly (fst (popStroke s)) = pl_poly s.
  Proof. unfold popStroke. destruct (pl_strokeStack s); reflexivity. Qed.
  Lemma begin_poly s color : pl_poly (begin s color) = pl_poly s.
  Proof. unfold begin. destruct (isGiven truthy color); reflexivity. Qed.
  Lemma contours_poly s cs color fill close : pl_poly (fst (drawContours truthy show s cs color fill close)) = pl_poly s.
  Proof.
    unfold drawContours. destruct fill; [reflexivity|]. fold (begin s color). pose proof (drawContourList_keeps close cs (begin s color)) as [(A & _) _]. rewrite begin_poly in A.
    destruct (drawContourList show (begin s color) cs close) as [s1 [d|x]]; cbn [fst] in *; [|exact A]. destruct (isGiven truthy color); [|exact A].
    pose proof (pop_poly s1) as B. destruct (popStroke s1) as [s2 [x|]]; cbn [fst emit pl_poly] in *; congruence.
  Qed.
  Lemma pstep_poly (s : plotter) c : pl_poly (fst (pstep truthy show s c)) = pl_poly s.
  Proof.
    destruct c; cbn [pstep]; try reflexivity.
    - unfold popFill. destruct (pl_fillStack s); reflexivity.
    - apply pop_poly.
    - apply contours_poly.
    - destruct fill; [reflexivity|]. destruct (drawPaths_ok s ps color) as (s' & E & K). rewrite E. apply K.
    - unfold drawPointsAsSegments. fold (begin s color). destruct ps as [|p ps]; [apply begin_poly|]. destruct (drawPoints_ok s (p :: ps) color ltac:(discriminate)) as (s' & E & K). unfold drawPointsAsSegments in E. fold (begin s color) in E. rewrite E. apply K.
    - unfold drawPointsAsCircles. destruct ps as [|p ps]; [reflexivity|]. destruct colors as [|c colors]; [apply circles_poly|]. destruct fill; [cbn [fst]; rewrite circles_poly; reflexivity|]. rewrite pop_poly, circles_poly. reflexivity.
    - apply contours_poly.
  Qed.
  Lemma phistory_poly hs : forall s : plotter, pl_poly (phistory truthy show s hs) = pl_poly s.
  Proof. induction hs as [|h hs IH]; intros s; [reflexivity|]. cbn [phistory fold_left]. unfold phistory in IH. rewrite IH. apply pstep_poly. Qed.

  (** ** Path data *)
  Context (parse : string -> option T) (D : T -> Prop) (P : printer parse D show).
  Notation drawS := (@drawS T).
  Notation tok := (tok parse).
  Notation Dp := (Dp D).
  Notation good_seg := (good_seg D).
  Definition follows (s : plotter) (c0 : ascii) : Prop := pl_poly s = false \/ tied (pl_last s) c0.
  Lemma cmd_of_ok lit (s : plotter) c c0 : follows s c0 -> announces c c0 (snd (cmd_of lit s c)) /\ follows (fst (cmd_of lit s c)) c.
  Proof.
    intros F. unfold cmd_of, plCommand. destruct (pl_poly s) eqn:E.
    - destruct F as [F|F]; [congruence|]. destruct (String.eqb_spec (pl_last s) (String c "")) as [Q|Q]; cbn [negb fst snd].
      + split; [|right; right; exact Q]. destruct lit, (Ascii.eqb_spec c "L"); cbn [andb]; try (subst c; left; reflexivity); right; (split; [reflexivity|]); rewrite Q in F; destruct F as [F|F]; try discriminate; now injection F as ->.
      + split; [|right; right; reflexivity]. destruct lit, (Ascii.eqb_spec c "L"); cbn [andb]; try (subst c); left; reflexivity.
    - cbn [fst snd]. split; [|left; exact E]. destruct lit, (Ascii.eqb_spec c "L"); cbn [andb]; try (subst c); left; reflexivity.
  Qed.
  Lemma announces_begins c c0 w s : letter c -> announces c c0 w -> begins (w ++ s).
  Proof. intros L. apply letter_command in L as [L _]. intros [->|[-> _]]; right; do 2 eexists; cbn [append]; eauto. Qed.
  Lemma drawSegments_begins lit segs : Forall good_seg segs -> forall s : plotter, begins (snd (drawSegments show lit s segs)).
  Proof.
    intros F. induction F as [|g segs G F IH]; intros s; [now left|]. cbn [drawSegments]. rewrite drawSegment_form by apply G.
    destruct (seg_cmd (pl_pen s) g) as [c|] eqn:C; [destruct (seg_last g) as [q|]|].
    - destruct (cmd_of lit s c) as [s1 w] eqn:W. specialize (IH (setPen s1 q)). destruct (drawSegments show lit (setPen s1 q) segs) as [s2 b]. cbn [snd] in *. rewrite app_asc.
      assert (Ww : w = String c "" \/ w = " ").
      { unfold cmd_of, plCommand in W. destruct (pl_poly s); [destruct (negb _)|]; injection W as <- <-; destruct lit, (Ascii.eqb_spec c "L"); cbn [andb]; subst; auto. }
      apply seg_letter in C. apply letter_command in C as [C _]. destruct Ww as [->| ->]; right; do 2 eexists; cbn [append]; eauto.
    - specialize (IH s). destruct (drawSegments show lit s segs). exact IH.
    - specialize (IH s). destruct (drawSegments show lit s segs). exact IH.
  Qed.
  Lemma plot_sim lit segs : Forall good_seg segs -> connected segs -> forall (s : plotter) c0 start prev rest,
    (match segs with g :: _ => hd_error g = Some (pl_pen s) | [] => True end) -> follows s c0 -> stops rest -> exists c1 prev' pen',
    follows (fst (drawSegments show lit s segs)) c1 /\
    drawS (Repeat c0) (pl_pen s) start (tok prev (snd (drawSegments show lit s segs) ++ rest)) =
      option_map (app (map Curve (filter (fun s => negb (zero_length s)) segs))) (drawS (Repeat c1) pen' start (tok prev' rest)).
  Proof.
    intros F. induction F as [|g segs G F IH]; intros C s c0 start prev rest Hd Fo S.
    - exists c0, prev, (pl_pen s). split; [exact Fo|]. cbn [drawSegments append map filter snd]. destruct (drawS _ _ _ _); reflexivity.
    - cbn [drawSegments]. rewrite drawSegment_form by apply G. destruct (seg_last_some g) as [q Q]; [intros ->; destruct G as [G _]; simpl in G; lia|].
      assert (Next : match segs with s' :: _ => hd_error s' = Some q | [] => True end).
      { destruct segs as [|s' segs]; [exact Logic.I|]. destruct C as [(p & E1 & E2) _]. rewrite Q in E1. injection E1 as <-. destruct s'; [discriminate|exact E2]. }
      assert (C' : connected segs) by (destruct segs; [exact Logic.I|apply C]).
      assert (S' : forall s', stops (snd (drawSegments show lit s' segs) ++ rest)) by (intros; apply begins_stops; [now apply drawSegments_begins|exact S]).
      cbn [filter]. destruct (seg_cmd (pl_pen s) g) as [c|] eqn:E.
      + rewrite Q. pose proof (cmd_of_ok lit s c c0 Fo) as [An Fo']. destruct (cmd_of lit s c) as [s1 w]. cbn [fst snd] in An, Fo'.
        destruct (IH C' (setPen s1 q) c start true rest Next Fo' S) as (c1 & p1 & pen' & Fo1 & _). specialize (S' (setPen s1 q)).
        pose proof (fun pv => IH C' (setPen s1 q) c start pv rest Next Fo' S) as IH'. clear c1 p1 pen' Fo1.
        destruct (drawSegments show lit (setPen s1 q) segs) as [s2 b]. cbn [fst snd] in *. rewrite !app_asc.
        destruct (drawn parse D show P (pl_pen s) g c c0 w prev (b ++ rest) start q) as (prev' & ->); auto.
        rewrite (not_skipped (pl_pen s) g c Hd E). cbn [negb map app]. destruct (IH' prev') as (c1 & p1 & pen' & Fo1 & E1). cbn [pl_pen setPen] in E1. rewrite E1.
        exists c1, p1, pen'. split; [exact Fo1|]. destruct (drawS (Repeat c1) pen' start (tok p1 rest)); reflexivity.
      + destruct (skipped parse D show P (pl_pen s) g G Hd E) as [Z Q']. rewrite Z. cbn [negb]. rewrite Q in Q'. injection Q' as ->.
        destruct (IH C' s c0 start prev rest Next Fo S) as (c1 & p1 & pen' & Fo1 & E1). destruct (drawSegments show lit s segs) as [s2 b]. cbn [fst snd append] in *. exists c1, p1, pen'. auto.
  Qed.
  Notation good := (good D).
  Lemma good_first c : good c -> exists p seg r, c = (p :: seg) :: r /\ Dp p.
  Proof.
    intros (F & _ & Ne). destruct c as [|[|p seg] c]; [congruence| |].
    - inversion F as [|? ? [L _] _]. simpl in L. lia.
    - exists p, seg, c. split; [reflexivity|]. inversion F as [|? ? [_ G] _]. apply G. now left.
  Qed.
  (** One contour of a drawing: [rest] is what follows. *)
  Lemma contour_sim (close : bool) c p seg r (s : plotter) e cur start prev rest : good c -> c = (p :: seg) :: r -> follows s "L"%char -> (forall x, e <> Pending x) -> stops rest ->
    exists e' cur' start' prev', (forall x, e' <> Pending x) /\
    drawS e cur start (tok prev (("M" ++ pointToString show p ++ snd (drawSegments show true (setPen s p) c) ++ (if close then "Z" else "")) ++ rest)) =
      option_map (app (marks close c)) (drawS e' cur' start' (tok prev' rest)).
  Proof.
    intros (F & C & Ne) Ec Fo NP S. assert (Dpp : Dp p) by (subst c; inversion F as [|? ? [_ G] _]; apply G; now left).
    change ("M" ++ ?s)%string with (String "M" s). cbn [append]. rewrite !app_asc.
    assert (S2 : stops ((if close then "Z" else "") ++ rest)) by (destruct close; [reflexivity|exact S]).
    rewrite (moved parse D show P); [|apply NP|exact NP|exact Dpp|apply begins_stops; [now apply drawSegments_begins|exact S2]].
    destruct (plot_sim true c F C (setPen s p) "L"%char p true ((if close then "Z" else "") ++ rest)) as (c1 & pr & pen' & _ & E); [subst c; reflexivity|exact Fo|exact S2|].
    cbn [pl_pen setPen] in E. rewrite E. subst c. unfold marks. destruct close.
    - exists Closed, p, p, false. split; [discriminate|]. cbn [append]. rewrite tok_cmd by reflexivity.
      destruct (tok false rest) as [l|]; [|reflexivity]. cbn [option_map drawS ProofSvg.drawS draw]. cbn [Ascii.eqb Bool.eqb]. destruct (draw Closed p p l); [|reflexivity]. cbn [option_map app]. rewrite <- app_assoc. reflexivity.
    - exists (Repeat c1), pen', p, pr. split; [discriminate|]. cbn [append]. rewrite app_nil_r. clear E. destruct (drawS (Repeat c1) pen' p (tok pr rest)); reflexivity.
  Qed.
  Lemma list_begins close cs : forall (s : plotter) d, snd (drawContourList show s cs close) = Ok d -> begins d.
  Proof.
    intros s d E. destruct cs as [|c cs]; [injection E as <-; now left|]. cbn [drawContourList] in E. destruct c as [|[|p seg] c]; try discriminate. destruct (drawSegments show true (setPen s p) ((p :: seg) :: c)) as [s1 txt].
    destruct (drawContourList show s1 cs close) as [s2 [rest|x]]; [|discriminate]. injection E as <-. right. do 2 eexists. split; [reflexivity|]. now right.
  Qed.
  Theorem list_draws close cs : (forall c, In c cs -> good c) -> forall (s : plotter) d e cur start prev, pl_poly s = false -> (forall x, e <> Pending x) ->
    snd (drawContourList show s cs close) = Ok d -> drawS e cur start (tok prev d) = Some (List.concat (map (marks close) cs)).
  Proof.
    induction cs as [|c cs IH]; intros G s d e cur start prev Po NP E.
    - injection E as <-. cbn. destruct e; try reflexivity. now destruct (NP c).
    - pose proof (G c (or_introl eq_refl)) as Gc. destruct (good_first c Gc) as (p & seg & r & Ec & _). cbn [drawContourList] in E. rewrite Ec in E.
      pose proof (drawSegments_keeps true c (setPen s p)) as [(K & _) _]. rewrite Ec in K. pose proof (fun rest S => contour_sim close c p seg r s e cur start prev rest Gc Ec (or_introl Po) NP S) as Sim. rewrite Ec in Sim.
      destruct (drawSegments show true (setPen s p) ((p :: seg) :: r)) as [s1 txt]. cbn [fst snd] in *.
      pose proof (list_begins close cs s1) as B. specialize (IH (fun c H => G c (or_intror H)) s1). destruct (drawContourList show s1 cs close) as [s2 [rest|x]]; [|discriminate]. cbn [snd] in *. injection E as <-.
      assert (St : stops rest) by (rewrite <- (app_nil rest); apply begins_stops; [now apply B|exact Logic.I]).
      destruct (Sim rest St) as (e' & cur' & start' & prev' & NP' & E'). rewrite !app_asc in E'. etransitivity; [exact E'|]. rewrite (IH rest e' cur' start' prev'); auto; [|cbn in K; congruence]. cbn [option_map map List.concat]. rewrite Ec. reflexivity.
  Qed.
  (** One contour, for both values of [poly]. *)
  Theorem single_draws close c (s : plotter) d origin : good c -> follows s "L"%char -> snd (drawContourList show s [c] close) = Ok d -> svg_draw parse origin d = Some (marks close c).
  Proof.
    intros G Fo E. destruct (good_first c G) as (p & seg & r & Ec & _). cbn [drawContourList] in E. rewrite Ec in E.
    destruct (contour_sim close c p seg r s Begin origin origin false "" G Ec Fo ltac:(discriminate) Logic.I) as (e' & cur' & start' & prev' & NP' & E'). rewrite Ec in E'.
    destruct (drawSegments show true (setPen s p) ((p :: seg) :: r)) as [s1 txt]. cbn [snd] in *. rewrite app_nil in E'. rewrite app_nil in E. apply Ok_string in E. subst d.
    rewrite svg_tok. etransitivity; [exact E'|]. rewrite Ec. change (tok prev' "") with (Some (@nil (token T))). cbn [ProofSvg.drawS draw]. destruct e'; try (now destruct (NP' c0)); cbn [option_map]; now rewrite app_nil_r.
  Qed.
  (** Paths. *)
  Definition good_p (pa : point T * list (segment T)) : Prop :=
    Dp (fst pa) /\ Forall good_seg (snd pa) /\ connected (snd pa) /\ match snd pa with s :: _ => hd_error s = Some (fst pa) | [] => True end.
  Lemma path_draws (pa : point T * list (segment T)) (s : plotter) origin : good_p pa -> follows s "L"%char ->
    svg_draw parse origin ("M" ++ pointToString show (fst pa) ++ snd (drawSegments show false (setPen s (fst pa)) (snd pa))) = Some (path_marks pa).
  Proof.
    destruct pa as [st segs]. unfold good_p, path_marks. cbn [fst snd]. intros (Dst & F & C & Hd) Fo. rewrite svg_tok.
    change ("M" ++ ?x)%string with (String "M" x). rewrite (moved parse D show P); [|discriminate|discriminate|exact Dst|rewrite <- (app_nil (snd _)); apply begins_stops; [now apply drawSegments_begins|exact Logic.I]].
    destruct (plot_sim false segs F C (setPen s st) "L"%char st true "" Hd Fo Logic.I) as (c1 & pr & pen' & _ & E). rewrite app_nil in E. cbn [pl_pen setPen] in E. rewrite E.
    change (tok pr "") with (Some (@nil (token T))). cbn [ProofSvg.drawS draw option_map]. now rewrite app_nil_r.
  Qed.
  Theorem paths_draw a ps origin : Forall good_p ps -> forall s : plotter, pl_poly s = false -> exists ds,
    pl_content (drawPathList show s a ps) = (pl_content s ++ map (fun d => IStrokePath d a) ds)%list /\ Forall2 (fun d pa => svg_draw parse origin d = Some (path_marks pa)) ds ps.
  Proof.
    intros F. induction F as [|[st segs] ps G F IH]; intros s Po; [exists []; split; [cbn; now rewrite app_nil_r|constructor]|]. cbn [drawPathList].
    pose proof (path_draws (st, segs) s origin G (or_introl Po)) as E. cbn [fst snd] in E. pose proof (drawSegments_keeps false segs (setPen s st)) as [(K & _) K2].
    destruct (drawSegments show false (setPen s st) segs) as [s1 txt]. cbn [fst snd] in *. destruct (IH (emit s1 (IStrokePath ("M" ++ pointToString show st ++ txt) a))) as (ds & C & F2); [cbn in *; congruence|].
    exists (("M" ++ pointToString show st ++ txt) :: ds). split; [|constructor; assumption]. rewrite C. cbn [emit pl_content map]. unfold same_content in K2. cbn in K2. rewrite K2, <- app_assoc. reflexivity.
  Qed.
  Theorem drawPaths_draw s ps color origin : Forall good_p ps -> pl_poly s = false -> exists s' ds,
    drawPaths truthy show s ps color false = (s', None) /\ pl_content s' = (pl_content s ++ map (fun d => IStrokePath d (with_color s color)) ds)%list /\
    Forall2 (fun d pa => svg_draw parse origin d = Some (path_marks pa)) ds ps.
  Proof.
    intros F Po. unfold drawPaths. fold (begin s color). pose proof (drawPathList_keeps (pl_stroke (begin s color)) ps (begin s color)) as A.
    destruct (paths_draw (pl_stroke (begin s color)) ps origin F (begin s color)) as (ds & C & F2); [now rewrite begin_poly|].
    destruct (begin_end s color _ A) as (s2 & E2 & K & Sc). exists s2, ds. split; [exact E2|]. split; [|exact F2]. rewrite Sc, C, begin_stroke. f_equal. unfold begin. destruct (isGiven truthy color); reflexivity.
  Qed.
  (** Polylines. *)
  Lemma hop_sim ps : (forall q, In q ps -> Dp q) -> forall (s : plotter) e cmd start prev, Dp (pl_pen s) -> ((cmd = "L" /\ exists c, e = Repeat c) \/ (cmd = " " /\ e = Repeat "L"%char)) ->
    drawS e (pl_pen s) start (tok prev (snd (polyline show s cmd ps))) = Some (map Curve (filter (fun s => negb (zero_length s)) (hops (pl_pen s) ps))).
  Proof.
    induction ps as [|q ps IH]; intros Dps s e cmd start prev Dpen H.
    - cbn. destruct H as [[_ [c ->]]|[_ ->]]; reflexivity.
    - cbn [polyline hops filter zero_length]. assert (Dq : Dp q) by (apply Dps; now left). assert (IH' := IH (fun x X => Dps x (or_intror X))).
      destruct (neqb (fst (pl_pen s)) (fst q) && neqb (snd (pl_pen s)) (snd q))%bool eqn:E; cbn [negb].
      + apply andb_true_iff in E as [E1 E2]. apply (pr_eq _ _ _ P) in E1; [|apply Dpen|apply Dq]. apply (pr_eq _ _ _ P) in E2; [|apply Dpen|apply Dq].
        replace q with (pl_pen s) by (destruct (pl_pen s), q; cbn in *; congruence). now apply IH'.
      + specialize (IH' (setPen s q) (Repeat "L"%char) " " start true). cbn [pl_pen setPen] in IH'. specialize (IH' Dq (or_intror (conj eq_refl eq_refl))).
        assert (B : stops (snd (polyline show (setPen s q) " " ps))).
        { clear. generalize (setPen s q). induction ps as [|p ps IH]; intros s0; [exact Logic.I|]. cbn [polyline]. destruct (_ && _)%bool; [apply IH|]. destruct (polyline show (setPen s0 p) " " ps). reflexivity. }
        destruct (polyline show (setPen s q) " " ps) as [s' rest]. cbn [snd] in *. rewrite <- app_asc.
        destruct (announced parse "L"%char (match e with Repeat c => c | _ => "L"%char end) cmd prev (pointToString show q ++ rest) (pl_pen s) start) as (e' & pr' & R & Ea);
          [cbn; auto|destruct H as [[-> _]|[-> ->]]; [now left|right; auto]|].
        rewrite app_asc. replace e with (Repeat (match e with Repeat c => c | _ => "L"%char end)) by (destruct H as [[_ [c ->]]|[_ ->]]; reflexivity). rewrite Ea. rewrite (tok_pt parse D show P) by assumption.
        destruct (tok true rest) as [l|]; [|discriminate]. destruct q as [x y]. apply (f_equal (option_map (cons (Curve [pl_pen s; (x, y)])))) in IH'. etransitivity; [|exact IH']. destruct R as [->| ->]; reflexivity.
  Qed.
  Theorem polyline_draws (s : plotter) p ps color origin : (forall q, In q (p :: ps) -> Dp q) -> exists s' d,
    drawPointsAsSegments truthy show s (p :: ps) color = (s', None) /\ pl_content s' = (pl_content s ++ [IStrokePath d (with_color s color)])%list /\
    svg_draw parse origin d = Some (MoveTo p :: map Curve (filter (fun s => negb (zero_length s)) (hops p ps))).
  Proof.
    intros Dps. unfold drawPointsAsSegments. fold (begin s color). pose proof (polyline_keeps ps (setPen (begin s color) p) "L") as [A B].
    pose proof (hop_sim ps (fun q Q => Dps q (or_intror Q)) (setPen (begin s color) p) (Repeat "L"%char) "L" p true (Dps p (or_introl eq_refl)) (or_introl (conj eq_refl (ex_intro _ _ eq_refl)))) as E.
    assert (Bg : stops (snd (polyline show (setPen (begin s color) p) "L" ps))).
    { clear. generalize (setPen (begin s color) p). induction ps as [|q ps IH]; intros s0; [exact Logic.I|]. cbn [polyline]. destruct (_ && _)%bool; [apply IH|]. destruct (polyline show (setPen s0 q) " " ps). reflexivity. }
    destruct (polyline show (setPen (begin s color) p) "L" ps) as [s1 txt]. cbn [fst snd] in *.
    destruct (begin_end s color (emit s1 (IStrokePath ("M" ++ pointToString show p ++ txt) (pl_stroke s1))) A) as (s2 & E2 & K & Sc). exists s2, ("M" ++ pointToString show p ++ txt). split; [exact E2|].
    split.
    - rewrite Sc. cbn [emit pl_content]. rewrite B. replace (pl_stroke s1) with (with_color s color) by (rewrite <- begin_stroke; symmetry; apply A). f_equal. unfold begin. destruct (isGiven truthy color); reflexivity.
    - rewrite svg_tok. change ("M" ++ ?x)%string with (String "M" x). rewrite (moved parse D show P); [|discriminate|discriminate|apply Dps; now left|exact Bg]. cbn [pl_pen setPen] in E. rewrite E. reflexivity.
  Qed.
  (** Balanced call sequences. *)
  Lemma keeps_same (s s' : plotter) : keeps s s' -> same_graphics s s'.
  Proof. unfold keeps, same_graphics. intuition. Qed.
  Lemma same_refl (s : plotter) : same_graphics s s.
  Proof. unfold same_graphics. auto. Qed.
  Lemma circles_stack r colors fill ps : forall i (s : plotter), let s' := circles truthy s i ps r colors fill in
    pl_strokeStack s' = pl_strokeStack s /\ pl_fillStack s' = pl_fillStack s /\ (fill = false \/ colors = [] -> pl_fill s' = pl_fill s) /\ (colors = [] -> pl_stroke s' = pl_stroke s).
  Proof.
    induction ps as [|p ps IH]; intros i s; [cbn; auto|]. cbn [circles]. set (s1 := match nth_error colors _ with Some c => _ | None => s end).
    specialize (IH (Datatypes.S i) (emit s1 (ICircle p r fill (pl_stroke s1) (pl_fill s1)))). cbv zeta in *. destruct IH as (A & B & C & E). rewrite A, B. cbn [emit pl_strokeStack pl_fillStack pl_fill pl_stroke] in *.
    assert (S1 : pl_strokeStack s1 = pl_strokeStack s /\ pl_fillStack s1 = pl_fillStack s /\ (fill = false \/ colors = [] -> pl_fill s1 = pl_fill s) /\ (colors = [] -> pl_stroke s1 = pl_stroke s)).
    { unfold s1. destruct colors as [|c0 cl]; [rewrite (proj2 (nth_error_None _ _)) by (cbn; lia); auto|]. destruct (nth_error (c0 :: cl) _) as [v|]; [|auto]. destruct (truthy v); [|auto]. destruct fill; cbn; intuition discriminate. }
    destruct S1 as (S1 & S2 & S3 & S4). split; [exact S1|]. split; [exact S2|]. split; [intros X; rewrite C, S3 by exact X; reflexivity|intros X; rewrite E, S4 by exact X; reflexivity].
  Qed.
  Lemma plain_begin color (s : plotter) : plain truthy color -> begin s color = s.
  Proof. unfold plain, begin, isGiven. destruct color; [intros ->; reflexivity|reflexivity]. Qed.
  Lemma plain_given color : plain truthy color -> isGiven truthy color = false.
  Proof. unfold plain, isGiven. destruct color; auto. Qed.
  Lemma quiet_contours (s : plotter) cs color fill close : fill = true \/ plain truthy color \/ (forall c, In c cs -> exists p s r, c = (p :: s) :: r) -> same_graphics s (fst (drawContours truthy show s cs color fill close)).
  Proof.
    intros H. destruct fill; [apply same_refl|]. destruct H as [H|[H|H]]; [discriminate| |].
    - pose proof (drawContourList_keeps close cs s) as [A _]. unfold drawContours. rewrite (plain_given color H). destruct (drawContourList show s cs close) as [s1 [d|x]]; cbn [fst] in *; apply keeps_same in A; exact A.
    - destruct (drawContourList_ok close cs (begin s color) H) as [d E]. destruct (drawContours_ok s cs color close d E) as (s' & -> & K & _). now apply keeps_same.
  Qed.
  Lemma quiet_ok (s : plotter) c : quiet truthy c -> same_graphics s (fst (pstep truthy show s c)).
  Proof.
    destruct c; cbn [quiet pstep]; intros H; try contradiction.
    - now apply quiet_contours.
    - destruct fill; [apply same_refl|]. destruct (drawPaths_ok s ps color) as (s' & -> & K). now apply keeps_same.
    - destruct ps as [|p ps].
      + destruct H as [H|H]; [|congruence]. unfold drawPointsAsSegments. rewrite (plain_given color H). apply same_refl.
      + destruct (drawPoints_ok s (p :: ps) color ltac:(discriminate)) as (s' & -> & K). now apply keeps_same.
    - unfold drawPointsAsCircles. destruct ps as [|p ps]; [apply same_refl|]. destruct colors as [|c colors].
      + destruct (circles_stack radius [] fill (p :: ps) 0 s) as (A & B & C & E). unfold same_graphics. cbn [fst]. rewrite A, B, C, E by auto. auto.
      + destruct H as [H|H]; [discriminate|]. subst fill. set (s0 := pushStroke truthy s None (Some c) None None). destruct (circles_stack radius (c :: colors) false (p :: ps) 0 s0) as (A & B & C & _).
        unfold popStroke. rewrite A. unfold s0 at 1. cbn [pushStroke setStroke setStrokeStack pl_strokeStack fst]. unfold same_graphics. cbn. cbn in B, C. rewrite B, C by auto. auto.
    - unfold drawCurve. apply quiet_contours. destruct H as [H|H]; [auto|]. right. right. intros c [<-|[]]. destruct seg as [|p seg]; [congruence|]. eauto.
  Qed.
  Lemma phistory_app (s : plotter) l r : phistory truthy show s (l ++ r) = phistory truthy show (phistory truthy show s l) r.
  Proof. unfold phistory. apply fold_left_app. Qed.
  Theorem balanced_ok hs : balanced truthy hs -> forall s : plotter, same_graphics s (phistory truthy show s hs).
  Proof.
    induction 1 as [|c Q|l r L IL R IR|w c o d l L IL|c o l L IL]; intros s.
    - apply same_refl.
    - exact (quiet_ok s c Q).
    - rewrite phistory_app. specialize (IL s). specialize (IR (phistory truthy show s l)). unfold same_graphics in *. intuition congruence.
    - change (PPushStroke w c o d :: l ++ [PPopStroke]) with ([PPushStroke w c o d] ++ l ++ [PPopStroke])%list. rewrite !phistory_app. set (s0 := phistory truthy show s [PPushStroke w c o d]). specialize (IL s0). set (s1 := phistory truthy show s0 l) in *.
      destruct IL as (A & B & C & E). change (phistory truthy show s1 [PPopStroke]) with (fst (popStroke s1)). unfold popStroke. rewrite C. unfold s0, same_graphics in *. cbn in *. auto.
    - change (PPushFill c o :: l ++ [PPopFill]) with ([PPushFill c o] ++ l ++ [PPopFill])%list. rewrite !phistory_app. set (s0 := phistory truthy show s [PPushFill c o]). specialize (IL s0). set (s1 := phistory truthy show s0 l) in *.
      destruct IL as (A & B & C & E). change (phistory truthy show s1 [PPopFill]) with (fst (popFill s1)). unfold popFill. rewrite E. unfold s0, same_graphics in *. cbn in *. auto.
  Qed.
  (** Filled circles leave their last colour behind. *)
  Theorem circles_leak (s : plotter) p r v : truthy v = true -> exists s', drawPointsAsCircles truthy s [p] r [v] true = (s', None) /\ f_color (pl_fill s') = v.
  Proof. intros Tv. unfold drawPointsAsCircles. cbn. rewrite Tv. eexists. split; reflexivity. Qed.
  (** Good contours. *)
  Lemma good_of c : good_contour D c -> good c.
  Proof. intros (Co & L & C & Ne). split; [|auto]. apply Forall_forall. intros s S. split; [now apply L|]. intros p Pp. exact (Co s p S Pp). Qed.
  Lemma good_p_of pa : good_path D pa -> good_p pa.
  Proof.
    intros (Co & D1 & D2 & L & C & Hd). split; [split; assumption|]. split; [|split; [exact C|]].
    - apply Forall_forall. intros s S. split; [now apply L|]. intros p Pp. exact (Co s p S Pp).
    - destruct (snd pa) as [|s segs]; [exact Logic.I|]. destruct s; exact Hd.
  Qed.
End PlotterProof.
