(** Path data written with poly=True: exactly when it draws the contours. *)
From Coq Require Import List ZArith Bool String Ascii Lia.
From Verif Require Import Py Inst SpecGeom SpecSvg SpecPlot MTransform MBounds MBezUtil MPathUtil MBezier MContour MPlotter ProofSvg ProofPlotter.
Import ListNotations.
Local Open Scope string_scope.

Lemma last_shift {A : Type} (l : list A) : forall a d, List.last (a :: l) d = List.last l a.
Proof. induction l as [|b l IH]; intros a d; [reflexivity|]. change (List.last (a :: b :: l) d) with (List.last (b :: l) d). rewrite (IH b d), (IH b a). reflexivity. Qed.

Section Poly.
  Context {T : Type} {N : NumOps T} {V : Type} (truthy : V -> bool) (show : T -> string).
  Context (parse : string -> option T) (D : T -> Prop) (P : printer parse D show).
  Notation plotter := (@plotter T V).
  Notation drawS := (@drawS T).
  Notation tok := (tok parse).
  Notation Dp := (Dp D).
  Notation good_seg := (good_seg D).
  Notation good := (good D).
  Notation starts_at segs pen := (match segs with g :: _ => hd_error g = Some pen | [] => True end).
  Notation shown segs := (filter (fun g => negb (zero_length g)) segs).

  Lemma cmd_letter pen g : good_seg g -> hd_error g = Some pen -> seg_cmd pen g = letter_of g.
  Proof.
    intros [L _] Hd. destruct g as [|a [|b [|d [|f [|h r]]]]]; try (simpl in L; lia); cbn [hd_error] in Hd; injection Hd as ->; unfold seg_cmd, letter_of; [|reflexivity|reflexivity].
    cbn [zero_length]. reflexivity.
  Qed.
  Lemma next_of (g : segment T) (segs : list (segment T)) q : seg_last g = Some q -> connected (g :: segs) -> starts_at segs q /\ connected segs.
  Proof.
    intros Q C. destruct segs as [|s' segs]; [split; exact Logic.I|]. destruct C as [(p & E1 & E2) C]. split; [|exact C]. rewrite Q in E1. injection E1 as <-. destruct s'; [discriminate|exact E2].
  Qed.
  (** What is written first: nothing, or the command and the numbers of the first drawn segment. *)
  Definition word (lit : bool) (last : string) (k : ascii) : string := if (lit && Ascii.eqb k "L")%bool then "L" else if String.eqb last (String k "") then " " else String k "".
  Lemma view lit (segs : list (segment T)) : Forall good_seg segs -> connected segs -> forall s : plotter, pl_poly s = true -> starts_at segs (pl_pen s) ->
    (shown segs = [] /\ letters segs = [] /\ drawSegments show lit s segs = (s, "")) \/
    (exists g k q s' segs', good_seg g /\ hd_error g = Some (pl_pen s) /\ seg_last g = Some q /\ letter_of g = Some k /\ zero_length g = false /\
      Forall good_seg segs' /\ connected segs' /\ starts_at segs' q /\ shown segs = g :: shown segs' /\ letters segs = k :: letters segs' /\
      pl_poly s' = true /\ pl_pen s' = q /\ pl_last s' = String k "" /\
      drawSegments show lit s segs = (fst (drawSegments show lit s' segs'), word lit (pl_last s) k ++ seg_args show (pl_pen s) g ++ snd (drawSegments show lit s' segs'))).
  Proof.
    intros F. induction F as [|g segs G F IH]; intros C s Po Hd; [left; auto|].
    destruct (seg_last_some g) as [q Q]; [intros ->; destruct G as [G _]; simpl in G; lia|]. destruct (next_of g segs q Q C) as [Nx C'].
    cbn [drawSegments]. rewrite drawSegment_form by apply G. rewrite (cmd_letter _ _ G Hd). cbn [filter]. unfold letters. cbn [flat_map]. fold (letters segs).
    destruct (letter_of g) as [k|] eqn:E.
    - right. rewrite Q. assert (Z : zero_length g = false) by (apply (not_skipped (pl_pen s) g k Hd); rewrite (cmd_letter _ _ G Hd); exact E). rewrite Z. cbn [negb].
      destruct (cmd_of lit s k) as [s1 w] eqn:W. exists g, k, q, (setPen s1 q), segs.
      assert (W' : pl_poly s1 = true /\ pl_last s1 = String k "" /\ w = word lit (pl_last s) k).
      { unfold cmd_of, plCommand in W. unfold word. rewrite Po in W. destruct (String.eqb_spec (pl_last s) (String k "")) as [e|e]; cbn [negb] in W; injection W as <- <-; cbn; destruct (lit && Ascii.eqb k "L")%bool; auto. }
      destruct W' as (W1 & W2 & ->). repeat (split; [first [assumption|reflexivity]|]). destruct (drawSegments show lit (setPen s1 q) segs) as [s2 b]. cbn [fst snd]. rewrite app_asc. reflexivity.
    - destruct (skipped parse D show P (pl_pen s) g G Hd) as [Z Q']; [rewrite (cmd_letter _ _ G Hd); exact E|]. rewrite Q in Q'. injection Q' as ->. rewrite Z. cbn [negb app].
      destruct (IH C' s Po Nx) as [(A & B & ->)|(g1 & k & q1 & s' & segs' & R)]; [left; auto|]. right. exists g1, k, q1, s', segs'.
      destruct R as (R1 & R2 & R3 & R4 & R5 & R6 & R7 & R8 & R9 & R10 & R11 & R12 & R13 & ->). repeat (split; [assumption|]). reflexivity.
  Qed.
  Lemma last_after lit (segs : list (segment T)) : Forall good_seg segs -> connected segs -> forall s : plotter, pl_poly s = true -> starts_at segs (pl_pen s) ->
    pl_last (fst (drawSegments show lit s segs)) = match letters segs with [] => pl_last s | k :: l => String (List.last l k) "" end.
  Proof.
    intros F C. remember (List.length (letters segs)) as n eqn:Hn. revert segs Hn F C. induction n as [n IH] using lt_wf_ind. intros segs Hn F C s Po Hd.
    destruct (view lit segs F C s Po Hd) as [(_ & -> & ->)|(g & k & q & s' & segs' & _ & _ & _ & _ & _ & F' & C' & H' & _ & L & Po' & Pen' & La' & ->)]; [reflexivity|].
    rewrite L in *. cbn [fst List.length] in *. rewrite (IH (List.length (letters segs'))) by (lia || auto || now rewrite Pen'). rewrite La'. destruct (letters segs') as [|k' l]; [reflexivity|]. now rewrite last_shift.
  Qed.

  (** ** The reader *)
  Definition okstart (last : string) (c0 : ascii) (ls : list ascii) : Prop := match ls with [] => True | k :: _ => k = c0 \/ last <> String k "" end.
  Lemma word_announces lit last k c0 : k = c0 \/ last <> String k "" -> announces k c0 (word lit last k).
  Proof.
    intros O. unfold word. destruct lit, (Ascii.eqb_spec k "L"); cbn [andb]; try (subst k; now left); (destruct (String.eqb_spec last (String k "")) as [W|W]; [|now left]; right; split; [reflexivity|]; destruct O as [O|O]; [now symmetry|contradiction]).
  Qed.
  Lemma segs_stop lit segs (s : plotter) rest : Forall good_seg segs -> stops rest -> stops (snd (drawSegments show lit s segs) ++ rest).
  Proof. intros F S. apply begins_stops; [eapply drawSegments_begins; eassumption|exact S]. Qed.
  Lemma poly_sim lit (segs : list (segment T)) : Forall good_seg segs -> connected segs -> forall (s : plotter) c0 start prev rest, pl_poly s = true ->
    starts_at segs (pl_pen s) -> okstart (pl_last s) c0 (letters segs) -> stops rest -> exists c1 prev' pen',
    drawS (Repeat c0) (pl_pen s) start (tok prev (snd (drawSegments show lit s segs) ++ rest)) = option_map (app (map Curve (shown segs))) (drawS (Repeat c1) pen' start (tok prev' rest)).
  Proof.
    intros F C. remember (List.length (letters segs)) as n eqn:Hn. revert segs Hn F C. induction n as [n IH] using lt_wf_ind. intros segs Hn F C s c0 start prev rest Po Hd O S.
    destruct (view lit segs F C s Po Hd) as [(-> & _ & ->)|(g & k & q & s' & segs' & G & Hg & Q & K & Z & F' & C' & H' & -> & L & Po' & Pen' & La' & ->)].
    - exists c0, prev, (pl_pen s). cbn [snd append map]. destruct (drawS _ _ _ _); reflexivity.
    - rewrite L in *. cbn [snd List.length okstart] in *. rewrite !app_asc.
      destruct (drawn parse D show P (pl_pen s) g k c0 (word lit (pl_last s) k) prev (snd (drawSegments show lit s' segs') ++ rest) start q) as (prev' & ->); auto.
      { now apply segs_stop. } { now rewrite (cmd_letter _ _ G Hg). } { now apply word_announces. }
      destruct (IH (List.length (letters segs'))) with (segs := segs') (s := s') (c0 := k) (start := start) (prev := prev') (rest := rest) as (c1 & p1 & pen' & E); auto; [lia|now rewrite Pen'| |].
      { rewrite La'. unfold okstart. destruct (letters segs') as [|k' l]; [exact Logic.I|]. destruct (Ascii.ascii_dec k' k) as [->|Ne]; [now left|]. right. intros X. injection X as ->. congruence. }
      rewrite Pen' in E. rewrite E. exists c1, p1, pen'. destruct (drawS (Repeat c1) pen' start (tok p1 rest)); reflexivity.
  Qed.

  (** A first command that is left out is read as a line. *)
  Definition after_contour (rest : string) : Prop := rest = "" \/ exists r, rest = String "Z" r \/ rest = String "M" r.
  Lemma after_stops rest : after_contour rest -> stops rest.
  Proof. intros [->|(r & [->| ->])]; cbn; auto. Qed.
  Lemma D_eq (a b : T) : D a -> D b -> neqb a b = true <-> a = b.
  Proof. exact (pr_eq _ _ _ P a b). Qed.
  Definition heads (m : mark T) (o : option (list (mark T))) : Prop := exists r, o = Some (m :: r).
  (** After a line has been read, [rest] does not begin with the line from [p] to [q]. *)
  Lemma rest_no_line rest p q c start prev : after_contour rest -> ~ heads (Curve [p; q]) (drawS (Repeat c) p start (tok prev rest)).
  Proof.
    intros A [r E]. destruct A as [->|(r' & [->| ->])].
    - discriminate.
    - rewrite tok_cmd in E by reflexivity. destruct (tok false r') as [l|]; [|discriminate]. cbn [option_map ProofSvg.drawS draw Ascii.eqb Bool.eqb] in E. destruct (draw Closed start start l); discriminate.
    - rewrite tok_cmd in E by reflexivity. destruct (tok false r') as [l|]; [|discriminate]. cbn [option_map ProofSvg.drawS] in E.
      destruct l as [|[d|x|] l]; try discriminate. destruct l as [|[d|y|] l]; try discriminate. cbn in E. destruct (draw (Repeat "L") (x, y) (x, y) l); discriminate.
  Qed.
  Lemma word_other lit (last : string) k : last <> String k "" -> word lit last k = String k "".
  Proof. intros Ne. unfold word. destruct lit, (Ascii.eqb_spec k "L"); cbn [andb]; try (subst k; reflexivity); now destruct (String.eqb_spec last (String k "")). Qed.
  Lemma word_same lit k : k <> "L"%char -> word lit (String k "") k = " ".
  Proof. intros Ne. unfold word. destruct (Ascii.eqb_spec k "L"); [contradiction|]. rewrite andb_false_r, String.eqb_refl. reflexivity. Qed.
  Lemma line_V a b : Dp a -> Dp b -> letter_of [a; b] = Some "V"%char -> fst a = fst b /\ snd a <> snd b.
  Proof.
    intros [A1 A2] [B1 B2]. unfold letter_of. cbn [zero_length]. destruct (neqb (fst a) (fst b)) eqn:E1, (neqb (snd a) (snd b)) eqn:E2; cbn [andb]; try discriminate. intros _.
    split; [now apply D_eq|]. intros X. apply D_eq in X; auto. congruence.
  Qed.
  Lemma line_H a b : Dp a -> Dp b -> letter_of [a; b] = Some "H"%char -> fst a <> fst b /\ snd a = snd b.
  Proof.
    intros [A1 A2] [B1 B2]. unfold letter_of. cbn [zero_length]. destruct (neqb (fst a) (fst b)) eqn:E1, (neqb (snd a) (snd b)) eqn:E2; cbn [andb]; try discriminate. intros _.
    split; [|now apply D_eq]. intros X. apply D_eq in X; auto. congruence.
  Qed.
  Lemma line_L a b : Dp a -> Dp b -> letter_of [a; b] = Some "L"%char -> fst a <> fst b /\ snd a <> snd b.
  Proof.
    intros [A1 A2] [B1 B2]. unfold letter_of. cbn [zero_length]. destruct (neqb (fst a) (fst b)) eqn:E1, (neqb (snd a) (snd b)) eqn:E2; cbn [andb]; try discriminate. intros _.
    split; intros X; apply D_eq in X; auto; congruence.
  Qed.
  (** The numbers written for a drawn segment. *)
  Lemma args_tok pen g k rest prev : good_seg g -> hd_error g = Some pen -> letter_of g = Some k -> stops rest ->
    (exists b, g = [pen; b] /\ k = "V"%char /\ fst pen = fst b /\ snd pen <> snd b /\ tok prev (seg_args show pen g ++ rest) = option_map (cons (TNum (snd b))) (tok true rest)) \/
    (exists b, g = [pen; b] /\ k = "H"%char /\ fst pen <> fst b /\ snd pen = snd b /\ tok prev (seg_args show pen g ++ rest) = option_map (cons (TNum (fst b))) (tok true rest)) \/
    (exists b, g = [pen; b] /\ k = "L"%char /\ fst pen <> fst b /\ snd pen <> snd b /\ tok prev (seg_args show pen g ++ rest) = option_map (fun l => TNum (fst b) :: TNum (snd b) :: l)%list (tok true rest)) \/
    (exists b c, g = [pen; b; c] /\ k = "Q"%char /\ tok prev (seg_args show pen g ++ rest) = option_map (fun l => TNum (fst b) :: TNum (snd b) :: TNum (fst c) :: TNum (snd c) :: l)%list (tok true rest)) \/
    (exists b c d, g = [pen; b; c; d] /\ k = "C"%char /\ tok prev (seg_args show pen g ++ rest) =
       option_map (fun l => TNum (fst b) :: TNum (snd b) :: TNum (fst c) :: TNum (snd c) :: TNum (fst d) :: TNum (snd d) :: l)%list (tok true rest)).
  Proof.
    intros [Len G] Hd K S. destruct g as [|a [|b [|d [|f [|h r]]]]]; try (simpl in Len; lia); cbn [hd_error] in Hd; injection Hd as ->.
    - assert (Da : Dp pen) by (apply G; cbn; auto). assert (Db : Dp b) by (apply G; cbn; auto).
      assert (K' := K). unfold letter_of in K'. cbn [zero_length] in K'. unfold seg_args.
      destruct (neqb (fst pen) (fst b)) eqn:E1; cbn [andb] in K'; [destruct (neqb (snd pen) (snd b)) eqn:E2; [discriminate|]|destruct (neqb (snd pen) (snd b)) eqn:E2]; injection K' as <-.
      + left. exists b. destruct (line_V pen b Da Db K). repeat (split; [first [assumption|reflexivity]|]). rewrite (tok_num parse D show P) by (apply Db || exact S). reflexivity.
      + right. left. exists b. destruct (line_H pen b Da Db K). repeat (split; [first [assumption|reflexivity]|]). rewrite (tok_num parse D show P) by (apply Db || exact S). reflexivity.
      + right. right. left. exists b. destruct (line_L pen b Da Db K). repeat (split; [first [assumption|reflexivity]|]). rewrite (tok_pt parse D show P) by assumption. destruct (tok true rest); reflexivity.
    - right. right. right. left. exists b, d. assert (Db : Dp b) by (apply G; cbn; auto). assert (Dd : Dp d) by (apply G; cbn; auto). injection K as <-. split; [reflexivity|]. split; [reflexivity|]. unfold seg_args.
      rewrite !app_asc. rewrite (tok_pt parse D show P) by (exact Db || reflexivity). cbn [append]. rewrite tok_space, (tok_pt parse D show P) by assumption. destruct (tok true rest); reflexivity.
    - right. right. right. right. exists b, d, f. assert (Db : Dp b) by (apply G; cbn; auto). assert (Dd : Dp d) by (apply G; cbn; auto). assert (Df : Dp f) by (apply G; cbn; auto). injection K as <-. split; [reflexivity|]. split; [reflexivity|]. unfold seg_args.
      rewrite !app_asc. rewrite (tok_pt parse D show P) by (exact Db || reflexivity). cbn [append]. rewrite tok_space, (tok_pt parse D show P) by (exact Dd || reflexivity). cbn [append]. rewrite tok_space, (tok_pt parse D show P) by assumption.
      destruct (tok true rest); reflexivity.
  Qed.
  (** After the first of two horizontal lines has swallowed the number of the second. *)
  Lemma no_second lit (segs : list (segment T)) (s : plotter) rest p start prev : Forall good_seg segs -> connected segs -> pl_poly s = true -> starts_at segs (pl_pen s) -> pl_last s = "H" -> after_contour rest ->
    fst p <> fst (pl_pen s) -> ~ heads (Curve [p; pl_pen s]) (drawS (Repeat "L") p start (tok prev (snd (drawSegments show lit s segs) ++ rest))).
  Proof.
    intros F C Po Hd La A Ne [r E]. pose proof (after_stops rest A) as S.
    destruct (view lit segs F C s Po Hd) as [(_ & _ & V1)|(g & k & q & s' & segs' & G & Hg & Q & K & Z & F' & C' & H' & _ & L & Po' & Pen' & La' & V1)]; rewrite V1 in E; cbn [snd append] in E.
    - apply (rest_no_line rest p (pl_pen s) "L"%char start prev A). exists r. exact E.
    - rewrite !app_asc in E. pose proof (segs_stop lit segs' s' rest F' S) as S'. set (rest' := (snd (drawSegments show lit s' segs') ++ rest)%string) in *.
      destruct (args_tok (pl_pen s) g k rest' (negb (Ascii.eqb k "H") && prev) G Hg K S') as [(b & -> & -> & E1 & E2 & Tk)|[(b & -> & -> & E1 & E2 & Tk)|[(b & -> & -> & E1 & E2 & Tk)|[(b & c & -> & -> & Tk)|(b & c & d & -> & -> & Tk)]]]].
      + rewrite word_other in E by (rewrite La; discriminate). cbn [append] in E. rewrite tok_cmd in E by reflexivity.
        destruct (args_tok (pl_pen s) [pl_pen s; b] "V"%char rest' false G Hg K S') as [(b' & X & _ & _ & _ & Tk')|[(b' & X & Y & _)|[(b' & X & Y & _)|[(b' & c & X & _)|(b' & c & d & X & _)]]]]; try discriminate. injection X as <-. rewrite Tk' in E.
        destruct (tok true rest') as [l|]; [|discriminate]. cbn in E. destruct (draw (Repeat "V") _ _ l); [|discriminate]. cbn in E. injection E as E. apply Ne. now rewrite <- E.
      + rewrite La, word_same in E by discriminate. cbn [append] in E. rewrite tok_space in E.
        destruct (args_tok (pl_pen s) [pl_pen s; b] "H"%char rest' prev G Hg K S') as [(b' & X & Y & _)|[(b' & X & _ & _ & _ & Tk')|[(b' & X & Y & _)|[(b' & c & X & _)|(b' & c & d & X & _)]]]]; try discriminate. injection X as <-. rewrite Tk' in E.
        destruct (tok true rest') as [l|]; [|discriminate]. destruct l as [|[d|y|] l]; try discriminate. cbn in E. destruct (draw (Repeat "L") _ _ l); [|discriminate]. cbn in E. injection E as E. apply E1. now rewrite <- E.
      + rewrite word_other in E by (rewrite La; discriminate). cbn [append] in E. rewrite tok_cmd in E by reflexivity.
        destruct (args_tok (pl_pen s) [pl_pen s; b] "L"%char rest' false G Hg K S') as [(b' & X & Y & _)|[(b' & X & Y & _)|[(b' & X & _ & _ & _ & Tk')|[(b' & c & X & _)|(b' & c & d & X & _)]]]]; try discriminate. injection X as <-. rewrite Tk' in E.
        destruct (tok true rest') as [l|]; [|discriminate]. cbn in E. destruct (draw (Repeat "L") _ _ l); [|discriminate]. cbn in E. injection E as E. apply E1. now rewrite <- E.
      + rewrite word_other in E by (rewrite La; discriminate). cbn [append] in E. rewrite tok_cmd in E by reflexivity.
        destruct (args_tok (pl_pen s) [pl_pen s; b; c] "Q"%char rest' false G Hg K S') as [(b' & X & _)|[(b' & X & _)|[(b' & X & _)|[(b' & c' & X & _ & Tk')|(b' & c' & d & X & _)]]]]; try discriminate. injection X as <- <-. rewrite Tk' in E.
        destruct (tok true rest') as [l|]; [|discriminate]. cbn in E. destruct (draw (Repeat "Q") _ _ l); discriminate.
      + rewrite word_other in E by (rewrite La; discriminate). cbn [append] in E. rewrite tok_cmd in E by reflexivity.
        destruct (args_tok (pl_pen s) [pl_pen s; b; c; d] "C"%char rest' false G Hg K S') as [(b' & X & _)|[(b' & X & _)|[(b' & X & _)|[(b' & c' & X & _)|(b' & c' & d' & X & _ & Tk')]]]]; try discriminate. injection X as <- <- <-. rewrite Tk' in E.
        destruct (tok true rest') as [l|]; [|discriminate]. cbn in E. destruct (draw (Repeat "C") _ _ l); discriminate.
  Qed.
  (** A number can only follow if the next command is the same. *)
  Lemma next_number lit (segs : list (segment T)) (s : plotter) rest k x l : Forall good_seg segs -> connected segs -> pl_poly s = true -> starts_at segs (pl_pen s) -> pl_last s = String k "" -> k <> "L"%char -> after_contour rest ->
    tok true (snd (drawSegments show lit s segs) ++ rest) = Some (TNum x :: l) ->
    exists g q (s' : plotter) segs', good_seg g /\ hd_error g = Some (pl_pen s) /\ seg_last g = Some q /\ letter_of g = Some k /\
      Forall good_seg segs' /\ connected segs' /\ starts_at segs' q /\ shown segs = g :: shown segs' /\
      pl_poly s' = true /\ pl_pen s' = q /\ pl_last s' = String k "" /\ tok true (seg_args show (pl_pen s) g ++ snd (drawSegments show lit s' segs') ++ rest) = Some (TNum x :: l).
  Proof.
    intros F C Po Hd La Nl A E.
    destruct (view lit segs F C s Po Hd) as [(_ & _ & V1)|(g & k' & q & s' & segs' & G & Hg & Q & K & Z & F' & C' & H' & Sh & L & Po' & Pen' & La' & V1)]; rewrite V1 in E; cbn [snd append] in E.
    - destruct A as [->|(r & [->| ->])]; [discriminate| |]; rewrite tok_cmd in E by reflexivity; destruct (tok false r); discriminate.
    - rewrite !app_asc in E. destruct (Ascii.ascii_dec k' k) as [->|Nk].
      + rewrite La, word_same in E by assumption. cbn [append] in E. rewrite tok_space in E. exists g, q, s', segs'. auto 20.
      + rewrite word_other in E by (rewrite La; intros X; injection X as X; now apply Nk). cbn [append] in E.
        rewrite tok_cmd in E by (destruct (args_tok (pl_pen s) g k' "" false G Hg K Logic.I) as [(b & _ & -> & _)|[(b & _ & -> & _)|[(b & _ & -> & _)|[(b & c & _ & -> & _)|(b & c & d & _ & -> & _)]]]]; reflexivity).
        destruct (tok false _); discriminate.
  Qed.
  Lemma misread lit (segs : list (segment T)) (s : plotter) rest k ls start prev R : Forall good_seg segs -> connected segs -> pl_poly s = true -> starts_at segs (pl_pen s) -> after_contour rest ->
    letters segs = k :: ls -> k <> "L"%char -> pl_last s = String k "" ->
    drawS (Repeat "L") (pl_pen s) start (tok prev (snd (drawSegments show lit s segs) ++ rest)) <> Some (map Curve (shown segs) ++ R)%list.
  Proof.
    intros F C Po Hd A L Nl La E. pose proof (after_stops rest A) as S.
    destruct (view lit segs F C s Po Hd) as [(_ & L' & _)|(g & k' & q & s' & segs' & G & Hg & Q & K & Z & F' & C' & H' & Sh & L' & Po' & Pen' & La' & V1)]; [congruence|].
    rewrite V1, Sh in E. rewrite L in L'. injection L' as <- L'. cbn [snd] in E. rewrite La, word_same in E by exact Nl. cbn [append] in E. rewrite tok_space, app_asc in E.
    pose proof (segs_stop lit segs' s' rest F' S) as S'. cbn [map app] in E.
    destruct (args_tok (pl_pen s) g k (snd (drawSegments show lit s' segs') ++ rest) prev G Hg K S') as [(b & -> & -> & E1 & E2 & Tk)|[(b & -> & -> & E1 & E2 & Tk)|[(b & _ & -> & _)|[(b & c & -> & -> & Tk)|(b & c & d & -> & -> & Tk)]]]].
    - rewrite Tk in E. destruct (tok true (snd (drawSegments show lit s' segs') ++ rest)) as [l|] eqn:El; [|discriminate]. destruct l as [|[d|y|] l]; try discriminate.
      rewrite <- Pen' in H'. destruct (next_number lit segs' s' rest "V"%char y l F' C' Po' H' La' Nl A El) as (g2 & q2 & s2 & segs2 & G2 & Hg2 & Q2 & K2 & F2 & C2 & H2 & Sh2 & Po2 & Pen2 & La2 & E3).
      cbn [seg_last] in Q. injection Q as <-. rewrite Pen' in *.
      pose proof (segs_stop lit segs2 s2 rest F2 S) as S2.
      destruct (args_tok b g2 "V"%char (snd (drawSegments show lit s2 segs2) ++ rest) true G2 Hg2 K2 S2) as [(b2 & -> & _ & E4 & E5 & Tk2)|[(b2 & _ & X & _)|[(b2 & _ & X & _)|[(b2 & c & _ & X & _)|(b2 & c & d & _ & X & _)]]]]; try discriminate.
      rewrite Tk2 in E3. destruct (tok true (snd (drawSegments show lit s2 segs2) ++ rest)) as [l2|]; [|discriminate]. cbn [option_map] in E3. injection E3 as <- <-.
      cbn in E. destruct (draw (Repeat "L") _ _ l2); [|discriminate]. cbn in E. injection E as E _. destruct b as [bx by_]. cbn [fst snd] in *. injection E as X Y. apply E5. now rewrite Y.
    - rewrite Tk in E. destruct (tok true (snd (drawSegments show lit s' segs') ++ rest)) as [l|] eqn:El; [|discriminate]. destruct l as [|[d|y|] l]; try discriminate.
      rewrite <- Pen' in H'. destruct (next_number lit segs' s' rest "H"%char y l F' C' Po' H' La' Nl A El) as (g2 & q2 & s2 & segs2 & G2 & Hg2 & Q2 & K2 & F2 & C2 & H2 & Sh2 & Po2 & Pen2 & La2 & E3).
      cbn [seg_last] in Q. injection Q as <-. rewrite Pen' in *.
      pose proof (segs_stop lit segs2 s2 rest F2 S) as S2.
      destruct (args_tok b g2 "H"%char (snd (drawSegments show lit s2 segs2) ++ rest) true G2 Hg2 K2 S2) as [(b2 & _ & X & _)|[(b2 & -> & _ & E4 & E5 & Tk2)|[(b2 & _ & X & _)|[(b2 & c & _ & X & _)|(b2 & c & d & _ & X & _)]]]]; try discriminate.
      rewrite Tk2 in E3. cbn [seg_last] in Q2. injection Q2 as <-.
      destruct (tok true (snd (drawSegments show lit s2 segs2) ++ rest)) as [l2|] eqn:El2; [|discriminate]. cbn [option_map] in E3. injection E3 as <- <-.
      cbn in E. destruct (draw (Repeat "L") (fst b, fst b2) start l2) as [m|] eqn:Em; [|discriminate]. cbn in E. injection E as E E6. rewrite Sh2 in E6. cbn [map app] in E6.
      apply (no_second lit segs2 s2 rest b start true F2 C2 Po2); [now rewrite Pen2|exact La2|exact A|now rewrite Pen2|]. rewrite El2, Pen2. cbn [ProofSvg.drawS].
      rewrite E in Em. rewrite Em, E6. eexists. reflexivity.
    - now destruct Nl.
    - rewrite Tk in E. destruct (tok true _) as [l|]; [|discriminate]. cbn in E. destruct (draw (Repeat "L") _ start l); discriminate.
    - rewrite Tk in E. destruct (tok true _) as [l|]; [|discriminate]. cbn in E. destruct (draw (Repeat "L") _ start l); discriminate.
  Qed.

  (** ** Contours *)
  Lemma app_some (a : list (mark T)) o R : option_map (app a) o = Some (a ++ R)%list <-> o = Some R.
  Proof. destruct o as [r|]; cbn; [|split; discriminate]. split; intros E; injection E as E; [apply app_inv_head in E|]; now subst. Qed.
  Lemma afresh_cons (last : string) (k : ascii) l r : starts_afresh last ((k :: l) :: r) <-> (k = "L"%char \/ last <> String k "") /\ starts_afresh (String (List.last l k) "") r.
  Proof. reflexivity. Qed.
  (** One contour: what it draws if its first command is readable, and that it fails otherwise. *)
  Lemma contour_poly (close : bool) c p seg r (s : plotter) e cur start prev rest : good c -> c = (p :: seg) :: r -> pl_poly s = true -> (forall x, e <> Pending x) -> (rest = "" \/ exists t, rest = String "M" t) ->
    let txt := (("M" ++ pointToString show p ++ snd (drawSegments show true (setPen s p) c) ++ (if close then "Z" else "")) ++ rest)%string in
    (okstart (pl_last s) "L"%char (letters c) -> exists e' cur' start' prev', (forall x, e' <> Pending x) /\
       drawS e cur start (tok prev txt) = option_map (app (marks close c)) (drawS e' cur' start' (tok prev' rest))) /\
    (~ okstart (pl_last s) "L"%char (letters c) -> forall R, drawS e cur start (tok prev txt) <> Some (marks close c ++ R)%list).
  Proof.
    intros (F & C & Ne) Ec Po NP Re txt. unfold txt. clear txt. assert (Dpp : Dp p) by (subst c; inversion F as [|? ? [_ G] _]; apply G; now left).
    assert (A : after_contour ((if close then "Z" else "") ++ rest)).
    { destruct close; [right; exists rest; now left|]. destruct Re as [->|[t ->]]; [now left|right; exists t; now right]. }
    pose proof (after_stops _ A) as S2. change ("M" ++ ?s)%string with (String "M" s). cbn [append]. rewrite !app_asc.
    rewrite (moved parse D show P); [|apply NP|exact NP|exact Dpp|apply begins_stops; [eapply drawSegments_begins; eassumption|exact S2]].
    assert (Hd : starts_at c (pl_pen (setPen s p))) by (subst c; reflexivity).
    assert (Ma : marks close c = (MoveTo p :: map Curve (shown c) ++ (if close then [ClosePath] else []))%list) by (subst c; reflexivity). rewrite Ma. split.
    - intros O. destruct (poly_sim true c F C (setPen s p) "L"%char p true ((if close then "Z" else "") ++ rest) Po Hd O S2) as (c1 & pr & pen' & E). cbn [pl_pen setPen] in E. rewrite E. clear E. destruct close.
      + exists Closed, p, p, false. split; [discriminate|]. cbn [append]. rewrite tok_cmd by reflexivity.
        destruct (tok false rest) as [l|]; [|reflexivity]. cbn [option_map ProofSvg.drawS draw]. cbn [Ascii.eqb Bool.eqb]. destruct (draw Closed p p l); [|reflexivity]. cbn [option_map app]. rewrite <- app_assoc. reflexivity.
      + exists (Repeat c1), pen', p, pr. split; [discriminate|]. cbn [append]. rewrite app_nil_r. destruct (drawS (Repeat c1) pen' p (tok pr rest)); reflexivity.
    - intros O R E. unfold okstart in O. destruct (letters c) as [|k ls] eqn:L; [now apply O|].
      destruct (Ascii.ascii_dec k "L") as [->|Nl]; [apply O; now left|]. destruct (string_dec (pl_last s) (String k "")) as [La|La]; [|apply O; now right].
      destruct (drawS (Repeat "L") p p _) as [m|] eqn:Em in E; [|discriminate]. cbn [option_map app] in E. injection E as E. rewrite <- app_assoc in E.
      apply (misread true c (setPen s p) ((if close then "Z" else "") ++ rest) k ls p true ((if close then [ClosePath] else []) ++ R)%list F C Po Hd A L Nl La). cbn [pl_pen setPen]. rewrite Em. now f_equal.
  Qed.
  Lemma list_M close cs : forall (s : plotter) d, snd (drawContourList show s cs close) = Ok d -> d = "" \/ exists t, d = String "M" t.
  Proof.
    intros s d E. destruct cs as [|c cs]; [injection E as <-; now left|]. cbn [drawContourList] in E. destruct c as [|[|p seg] c]; try discriminate. destruct (drawSegments show true (setPen s p) ((p :: seg) :: c)) as [s1 txt].
    destruct (drawContourList show s1 cs close) as [s2 [rest|x]]; [|discriminate]. injection E as <-. right. eexists. reflexivity.
  Qed.
  Lemma start_dec (last : string) (ls : list ascii) : okstart last "L"%char ls \/ ~ okstart last "L"%char ls.
  Proof. destruct ls as [|k l]; [now left|]. unfold okstart. destruct (Ascii.ascii_dec k "L"); [left; now left|]. destruct (string_dec last (String k "")); [|left; now right]. right. intros [X|X]; contradiction. Qed.
  Theorem list_poly close cs : (forall c, In c cs -> good c) -> forall (s : plotter) d e cur start prev, pl_poly s = true -> (forall x, e <> Pending x) ->
    snd (drawContourList show s cs close) = Ok d -> (drawS e cur start (tok prev d) = Some (List.concat (map (marks close) cs)) <-> starts_afresh (pl_last s) (map letters cs)).
  Proof.
    induction cs as [|c cs IH]; intros G s d e cur start prev Po NP E.
    - injection E as <-. cbn. destruct e; try (split; [constructor|reflexivity]). now destruct (NP c).
    - pose proof (G c (or_introl eq_refl)) as Gc. destruct (good_first D c Gc) as (p & seg & r & Ec & _). cbn [drawContourList] in E. rewrite Ec in E. rewrite <- Ec in E.
      assert (K : pl_poly (fst (drawSegments show true (setPen s p) c)) = true) by (destruct (drawSegments_keeps show true c (setPen s p)) as [(K & _) _]; rewrite K; exact Po).
      assert (La : pl_last (fst (drawSegments show true (setPen s p) c)) = match letters c with [] => pl_last s | k :: l => String (List.last l k) "" end).
      { destruct Gc as (F & C & _). apply (last_after true c F C (setPen s p) Po). subst c. reflexivity. }
      pose proof (fun rest S => contour_poly close c p seg r s e cur start prev rest Gc Ec Po NP S) as Sim.
      destruct (drawSegments show true (setPen s p) c) as [s1 txt]. cbn [fst snd] in *.
      pose proof (list_M close cs s1) as B. specialize (IH (fun c H => G c (or_intror H)) s1). destruct (drawContourList show s1 cs close) as [s2 [rest|x]]; [|discriminate]. cbn [snd] in *. injection E as <-.
      destruct (Sim rest (B rest eq_refl)) as [S1 S2]. clear Sim. rewrite !app_asc in S1, S2. cbn [append] in S1, S2. cbn [map List.concat].
      assert (Eq : starts_afresh (pl_last s) (letters c :: map letters cs) <-> okstart (pl_last s) "L"%char (letters c) /\ starts_afresh (pl_last s1) (map letters cs)).
      { rewrite La. destruct (letters c) as [|k l]; cbn [starts_afresh okstart]; tauto. }
      rewrite Eq. clear Eq. destruct (start_dec (pl_last s) (letters c)) as [O|O].
      + destruct (S1 O) as (e' & cur' & start' & prev' & NP' & E'). specialize (IH rest e' cur' start' prev' K NP' eq_refl). split.
        * intros X. split; [exact O|]. apply IH. apply (app_some (marks close c)). etransitivity; [symmetry; exact E'|exact X].
        * intros [_ X]. apply IH in X. etransitivity; [exact E'|]. now apply app_some.
      + split; [|intros [X _]; contradiction]. intros X. exfalso. exact (S2 O _ X).
  Qed.

  (** ** Paths *)
  Lemma path_poly (pa : point T * list (segment T)) (s : plotter) origin : good_p D pa -> pl_poly s = true ->
    (svg_draw parse origin ("M" ++ pointToString show (fst pa) ++ snd (drawSegments show false (setPen s (fst pa)) (snd pa))) = Some (path_marks pa) <-> okstart (pl_last s) "L"%char (letters (snd pa))).
  Proof.
    destruct pa as [st segs]. unfold good_p, path_marks. cbn [fst snd]. intros (Dst & F & C & Hd) Po. rewrite svg_tok.
    change ("M" ++ ?x)%string with (String "M" x). rewrite (moved parse D show P); [|discriminate|discriminate|exact Dst|rewrite <- (app_nil (snd _)); apply begins_stops; [eapply drawSegments_begins; eassumption|exact Logic.I]].
    destruct (start_dec (pl_last s) (letters segs)) as [O|O].
    - split; [intros _; exact O|]. intros _. destruct (poly_sim false segs F C (setPen s st) "L"%char st true "" Po Hd O Logic.I) as (c1 & pr & pen' & E). rewrite app_nil in E. cbn [pl_pen setPen] in E. rewrite E.
      change (tok pr "") with (Some (@nil (token T))). cbn [ProofSvg.drawS draw option_map]. now rewrite app_nil_r.
    - split; [|intros X; contradiction]. intros E. exfalso. unfold okstart in O. destruct (letters segs) as [|k ls] eqn:L; [now apply O|].
      destruct (Ascii.ascii_dec k "L") as [->|Nl]; [apply O; now left|]. destruct (string_dec (pl_last s) (String k "")) as [La|La]; [|apply O; now right].
      destruct (drawS (Repeat "L") st st _) as [m|] eqn:Em in E; [|discriminate]. cbn [option_map] in E. injection E as E.
      apply (misread false segs (setPen s st) "" k ls st true [] F C Po Hd (or_introl eq_refl) L Nl La). cbn [pl_pen setPen]. rewrite app_nil, Em, app_nil_r. now f_equal.
  Qed.
  Theorem paths_poly a ps origin : Forall (good_p D) ps -> forall s : plotter, pl_poly s = true -> exists ds,
    pl_content (drawPathList show s a ps) = (pl_content s ++ map (fun d => IStrokePath d a) ds)%list /\ List.length ds = List.length ps /\
    (Forall2 (fun d pa => svg_draw parse origin d = Some (path_marks pa)) ds ps <-> starts_afresh (pl_last s) (map (fun pa => letters (snd pa)) ps)).
  Proof.
    intros F. induction F as [|[st segs] ps G F IH]; intros s Po; [exists []; split; [cbn; now rewrite app_nil_r|]; split; [reflexivity|]; cbn; split; constructor|]. cbn [drawPathList].
    pose proof (path_poly (st, segs) s origin G Po) as E. cbn [fst snd] in E. pose proof (drawSegments_keeps show false segs (setPen s st)) as [(K & _) K2].
    assert (La : pl_last (fst (drawSegments show false (setPen s st) segs)) = match letters segs with [] => pl_last s | k :: l => String (List.last l k) "" end).
    { destruct G as (_ & Fg & C & Hd). exact (last_after false segs Fg C (setPen s st) Po Hd). }
    destruct (drawSegments show false (setPen s st) segs) as [s1 txt]. cbn [fst snd] in *. destruct (IH (emit s1 (IStrokePath ("M" ++ pointToString show st ++ txt) a))) as (ds & C & Ln & F2); [cbn in *; congruence|].
    exists (("M" ++ pointToString show st ++ txt) :: ds). split; [|split].
    - rewrite C. cbn [emit pl_content map]. unfold same_content in K2. cbn in K2. rewrite K2, <- app_assoc. reflexivity.
    - cbn [List.length]. now rewrite Ln.
    - cbn [map snd]. cbn [emit pl_last] in F2. rewrite La in F2.
      assert (Eq : starts_afresh (pl_last s) (letters segs :: map (fun pa => letters (snd pa)) ps) <->
        okstart (pl_last s) "L"%char (letters segs) /\ starts_afresh (match letters segs with [] => pl_last s | k :: l => String (List.last l k) "" end) (map (fun pa => letters (snd pa)) ps)).
      { destruct (letters segs) as [|k l]; cbn [starts_afresh okstart]; tauto. }
      rewrite Eq, <- E, <- F2. clear Eq. split.
      + intros X. inversion X. auto.
      + intros [X Y]. constructor; assumption.
  Qed.
  Theorem drawPaths_poly s ps color origin : Forall (good_p D) ps -> pl_poly s = true -> exists s' ds,
    drawPaths truthy show s ps color false = (s', None) /\ pl_content s' = (pl_content s ++ map (fun d => IStrokePath d (with_color truthy s color)) ds)%list /\ List.length ds = List.length ps /\
    (Forall2 (fun d pa => svg_draw parse origin d = Some (path_marks pa)) ds ps <-> starts_afresh (pl_last s) (map (fun pa => letters (snd pa)) ps)).
  Proof.
    intros F Po. unfold drawPaths. fold (begin truthy s color). pose proof (drawPathList_keeps show (pl_stroke (begin truthy s color)) ps (begin truthy s color)) as A.
    destruct (paths_poly (pl_stroke (begin truthy s color)) ps origin F (begin truthy s color)) as (ds & C & Ln & F2); [now rewrite begin_poly|].
    destruct (begin_end truthy s color _ A) as (s2 & E2 & K & Sc). exists s2, ds. split; [exact E2|]. split; [|split; [exact Ln|]].
    - rewrite Sc, C, begin_stroke. f_equal. unfold begin. destruct (isGiven truthy color); reflexivity.
    - rewrite F2. unfold begin. destruct (isGiven truthy color); reflexivity.
  Qed.
End Poly.
