(** SVG path data. *)
From Coq Require Import List ZArith Bool String Ascii Lia.
From Verif Require Import Py Inst SpecGeom SpecSvg MTransform MBounds MBezUtil MPathUtil MBezier MContour MPlotter.
Import ListNotations.
Local Open Scope string_scope.

Section SvgProof.
  Context {T : Type} {N : NumOps T} (parse : string -> option T) (D : T -> Prop) (show : T -> string) (P : printer parse D show).

  (** ** Tokens *)
  Definition stops (s : string) : Prop := match s with EmptyString => True | String c _ => number_char c = false end.
  Definition tok (prev : bool) (s : string) : option (list (token T)) := match lex parse EmptyString s with Some l => commas prev l | None => None end.

  Lemma app_nil s : (s ++ "")%string = s.
  Proof. induction s as [|c s IH]; [reflexivity|]. cbn. now rewrite IH. Qed.
  Lemma app_asc a b c : ((a ++ b) ++ c)%string = (a ++ (b ++ c))%string.
  Proof. induction a as [|x a IH]; [reflexivity|]. cbn. now rewrite IH. Qed.
  Lemma lex_digits : forall w acc rest, (forall c, In c (list_ascii_of_string w) -> number_char c = true) -> lex parse acc (w ++ rest) = lex parse (acc ++ w) rest.
  Proof.
    induction w as [|c w IH]; intros acc rest H; [now rewrite app_nil|]. cbn [append lex]. rewrite (H c) by now left. rewrite IH by (intros; apply H; now right). now rewrite app_asc.
  Qed.
  Lemma flush_none acc : flush parse acc None = None.
  Proof. unfold flush. destruct acc; [reflexivity|]. now destruct (parse _). Qed.
  Lemma lex_stop acc s : stops s -> lex parse acc s = flush parse acc (lex parse EmptyString s).
  Proof.
    destruct s as [|c s]; cbn [stops lex]; [reflexivity|]. intros E. rewrite E. destruct (command_char c); [reflexivity|]. destruct (Ascii.eqb c ","); [reflexivity|]. destruct (Ascii.eqb c " "); [reflexivity|]. now rewrite flush_none.
  Qed.
  Lemma tok_num prev x s : D x -> stops s -> tok prev (show x ++ s) = option_map (cons (TNum x)) (tok true s).
  Proof.
    intros Dx S. unfold tok. rewrite lex_digits by (intros c C; exact (pr_chars _ _ _ P x c Dx C)). cbn [append]. rewrite lex_stop by exact S. unfold flush at 1. destruct (show x) eqn:E; [now destruct (pr_some _ _ _ P x Dx)|].
    rewrite <- E, (pr_parse _ _ _ P x Dx). destruct (lex parse "" s); reflexivity.
  Qed.
  Lemma tok_comma x s : D x -> stops s -> tok true (String "," (show x ++ s)) = option_map (cons (TNum x)) (tok true s).
  Proof.
    intros Dx S. pose proof (tok_num false x s Dx S) as H. unfold tok in *. cbn [lex]. change (number_char ",") with false. change (command_char ",") with false. cbn [Ascii.eqb Bool.eqb].
    destruct (lex parse "" (show x ++ s)) as [l|] eqn:E.
    - cbn [option_map commas flush]. assert (exists r, l = TNum x :: r) as [r ->].
      { rewrite lex_digits in E by (intros c C; exact (pr_chars _ _ _ P x c Dx C)). cbn [append] in E. rewrite lex_stop in E by exact S. unfold flush at 1 in E. destruct (show x) eqn:Z; [now destruct (pr_some _ _ _ P x Dx)|].
        rewrite <- Z, (pr_parse _ _ _ P x Dx) in E. destruct (lex parse "" s); [|discriminate]. injection E as <-. eauto. }
      exact H.
    - exact H.
  Qed.
  Lemma command_stop c : command_char c = true -> number_char c = false.
  Proof. destruct c as [[] [] [] [] [] [] [] []]; vm_compute; congruence. Qed.
  Lemma tok_cmd prev c s : command_char c = true -> tok prev (String c s) = option_map (cons (TCmd c)) (tok false s).
  Proof. intros C. unfold tok. cbn [lex]. rewrite (command_stop c C), C. cbn [flush]. destruct (lex parse "" s); reflexivity. Qed.
  Lemma tok_space prev s : tok prev (String " " s) = tok prev s.
  Proof. unfold tok. reflexivity. Qed.
  Definition Dp (p : point T) : Prop := D (fst p) /\ D (snd p).
  Lemma tok_pt prev p s : Dp p -> stops s -> tok prev (pointToString show p ++ s) = option_map (cons (TNum (fst p))) (option_map (cons (TNum (snd p))) (tok true s)).
  Proof. intros [D1 D2] S. unfold pointToString. rewrite !app_asc. cbn [append]. rewrite tok_num; [|exact D1|reflexivity]. rewrite tok_comma by assumption. reflexivity. Qed.

  (** ** Marks *)
  Definition drawS (e : expect) (cur start : point T) (o : option (list (token T))) : option (list (mark T)) := match o with Some l => draw e cur start l | None => None end.
  Definition ready (c : ascii) (e : expect) : Prop := e = Pending c \/ e = Repeat c.
  Definition letter (c : ascii) : Prop := In c ["L"; "H"; "V"; "Q"; "C"]%char.
  Lemma letter_command c : letter c -> command_char c = true /\ Ascii.eqb c "Z" = false.
  Proof. intros [<-|[<-|[<-|[<-|[<-|[]]]]]]; split; reflexivity. Qed.
  (** The text [w] makes [c] the current command. *)
  Definition announces (c c0 : ascii) (w : string) : Prop := w = String c "" \/ (w = " " /\ c0 = c).
  Lemma announced c c0 w prev rest cur start : letter c -> announces c c0 w -> exists e prev', ready c e /\
    drawS (Repeat c0) cur start (tok prev (w ++ rest)) = drawS e cur start (tok prev' rest).
  Proof.
    intros L [->|[-> ->]]; cbn [append].
    - exists (Pending c), false. split; [now left|]. destruct (letter_command c L) as [C Z]. rewrite tok_cmd by exact C. destruct (tok false rest); [|reflexivity]. cbn [option_map drawS draw]. now rewrite Z.
    - exists (Repeat c), prev. split; [now right|]. now rewrite tok_space.
  Qed.
  (** Command and arguments of a segment. *)
  Definition seg_cmd (pen : point T) (seg : segment T) : option ascii :=
    match seg with
    | [_; p1] => if (neqb (fst pen) (fst p1) && neqb (snd pen) (snd p1))%bool then None else if neqb (fst pen) (fst p1) then Some "V"%char else if neqb (snd pen) (snd p1) then Some "H"%char else Some "L"%char
    | [_; _; _] => Some "Q"%char
    | [_; _; _; _] => Some "C"%char
    | _ => None
    end.
  Definition seg_args (pen : point T) (seg : segment T) : string :=
    match seg with
    | [_; p1] => if neqb (fst pen) (fst p1) then show (snd p1) else if neqb (snd pen) (snd p1) then show (fst p1) else pointToString show p1
    | [_; p1; p2] => pointToString show p1 ++ " " ++ pointToString show p2
    | [_; p1; p2; p3] => pointToString show p1 ++ " " ++ pointToString show p2 ++ " " ++ pointToString show p3
    | _ => ""
    end.
  Definition good_seg (seg : segment T) : Prop := (2 <= List.length seg <= 4)%nat /\ forall p, In p seg -> Dp p.
  Lemma seg_letter pen seg c : seg_cmd pen seg = Some c -> letter c.
  Proof.
    unfold seg_cmd, letter. destruct seg as [|a [|b [|d [|e [|f r]]]]]; try discriminate.
    - destruct (neqb (fst pen) (fst b)), (neqb (snd pen) (snd b)); cbn [andb]; intros E; try discriminate; injection E as <-; cbn [In]; auto 10.
    - intros E. injection E as <-. cbn [In]; auto 10.
    - intros E. injection E as <-. cbn [In]; auto 10.
  Qed.
  Lemma drawn pen seg c c0 w prev rest start pen' : good_seg seg -> hd_error seg = Some pen -> seg_last seg = Some pen' -> stops rest -> seg_cmd pen seg = Some c -> announces c c0 w ->
    exists prev', drawS (Repeat c0) pen start (tok prev (w ++ seg_args pen seg ++ rest)) = option_map (cons (Curve seg)) (drawS (Repeat c) pen' start (tok prev' rest)).
  Proof.
    intros [Len G] Hd La S C A. destruct (announced c c0 w prev (seg_args pen seg ++ rest) pen start (seg_letter _ _ _ C) A) as (e & prev' & R & E). rewrite E. clear E A w prev. exists true.
    destruct seg as [|a [|b [|d [|f [|g r]]]]]; try (simpl in Len; lia); cbn [hd_error seg_last] in Hd, La; injection Hd as ->; injection La as <-; unfold seg_cmd, seg_args in *.
    - assert (Da : Dp pen) by (apply G; cbn; auto). assert (Db : Dp b) by (apply G; cbn; auto).
      destruct (neqb (fst pen) (fst b)) eqn:E1; cbn [andb] in C.
      + apply (pr_eq _ _ _ P) in E1; [|apply Da|apply Db]. destruct (neqb (snd pen) (snd b)) eqn:E2; [discriminate|]. injection C as <-. rewrite tok_num by (apply Db || exact S).
        destruct (tok true rest); [|destruct R as [->| ->]; reflexivity]. destruct b as [bx b_y]. cbn [fst snd] in *. rewrite <- E1. destruct R as [->| ->]; reflexivity.
      + destruct (neqb (snd pen) (snd b)) eqn:E2.
        * apply (pr_eq _ _ _ P) in E2; [|apply Da|apply Db]. injection C as <-. rewrite tok_num by (apply Db || exact S).
          destruct (tok true rest); [|destruct R as [->| ->]; reflexivity]. destruct b as [bx b_y]. cbn [fst snd] in *. rewrite <- E2. destruct R as [->| ->]; reflexivity.
        * injection C as <-. rewrite tok_pt by assumption. destruct (tok true rest); [|destruct R as [->| ->]; reflexivity]. destruct b as [bx b_y]. destruct R as [->| ->]; reflexivity.
    - assert (Db : Dp b) by (apply G; cbn; auto). assert (Dd : Dp d) by (apply G; cbn; auto). injection C as <-.
      rewrite !app_asc. rewrite tok_pt by (exact Db || reflexivity). cbn [append]. rewrite tok_space, tok_pt by assumption.
      destruct (tok true rest); [|destruct R as [->| ->]; reflexivity]. destruct b, d. destruct R as [->| ->]; reflexivity.
    - assert (Db : Dp b) by (apply G; cbn; auto). assert (Dd : Dp d) by (apply G; cbn; auto). assert (Df : Dp f) by (apply G; cbn; auto). injection C as <-.
      rewrite !app_asc. rewrite tok_pt by (exact Db || reflexivity). cbn [append]. rewrite tok_space, tok_pt by (exact Dd || reflexivity). cbn [append]. rewrite tok_space, tok_pt by assumption.
      destruct (tok true rest); [|destruct R as [->| ->]; reflexivity]. destruct b, d, f. destruct R as [->| ->]; reflexivity.
  Qed.
  Lemma skipped pen seg : good_seg seg -> hd_error seg = Some pen -> seg_cmd pen seg = None -> zero_length seg = true /\ seg_last seg = Some pen.
  Proof.
    intros [Len G] Hd C. destruct seg as [|a [|b [|d [|f [|g r]]]]]; try (simpl in Len; lia); cbn [hd_error] in Hd; injection Hd as ->; unfold seg_cmd in C; try discriminate.
    assert (Da : Dp pen) by (apply G; cbn; auto). assert (Db : Dp b) by (apply G; cbn; auto). cbn [zero_length seg_last].
    destruct (neqb (fst pen) (fst b)) eqn:E1; cbn [andb] in *; [|destruct (neqb (snd pen) (snd b)); discriminate]. destruct (neqb (snd pen) (snd b)) eqn:E2; [|discriminate]. split; [reflexivity|].
    apply (pr_eq _ _ _ P) in E1; [|apply Da|apply Db]. apply (pr_eq _ _ _ P) in E2; [|apply Da|apply Db]. destruct pen, b; cbn [fst snd] in *; congruence.
  Qed.
  Lemma not_skipped pen seg c : hd_error seg = Some pen -> seg_cmd pen seg = Some c -> zero_length seg = false.
  Proof.
    intros Hd C. destruct seg as [|a [|b [|d [|f [|g r]]]]]; try discriminate; try reflexivity. cbn [hd_error] in Hd. injection Hd as ->. unfold seg_cmd in C. cbn [zero_length].
    destruct (neqb (fst pen) (fst b)), (neqb (snd pen) (snd b)); cbn [andb] in *; congruence.
  Qed.

  (** ** A generic writer: [step] gives the text of a segment's command. *)
  Lemma seg_last_some (s : segment T) : s <> [] -> exists q, seg_last s = Some q.
  Proof. induction s as [|a [|b r] IH]; intros H; [congruence|eexists; reflexivity|]. destruct IH as [q E]; [discriminate|]. exists q. exact E. Qed.

  (** *** BContour.d *)
  Definition tied (last : string) (c0 : ascii) : Prop := last = "" \/ last = String c0 "".
  Lemma dSegment_form pen last seg : (2 <= List.length seg <= 4)%nat -> dSegment show (pen, last) seg =
    match seg_cmd pen seg, seg_last seg with
    | Some c, Some q => ((q, String c ""), (if String.eqb last (String c "") then " " else String c "") ++ seg_args pen seg)
    | _, _ => ((pen, last), "")
    end.
  Proof.
    intros L. destruct seg as [|a [|b [|d [|f [|g r]]]]]; try (simpl in L; lia); unfold dSegment, seg_cmd, seg_args, getCommand; cbn [seg_last].
    - destruct (neqb (fst pen) (fst b)), (neqb (snd pen) (snd b)); reflexivity.
    - reflexivity.
    - reflexivity.
  Qed.
  Lemma command_text last c c0 : tied last c0 -> announces c c0 (if String.eqb last (String c "") then " " else String c "").
  Proof. intros L. destruct (String.eqb_spec last (String c "")) as [->|]; [|now left]. right. split; [reflexivity|]. destruct L as [L|L]; [discriminate|injection L as ->; reflexivity]. Qed.
  Definition begins (s : string) : Prop := s = "" \/ exists c r, s = String c r /\ (c = " "%char \/ command_char c = true).
  Lemma begins_stops s rest : begins s -> stops rest -> stops (s ++ rest).
  Proof. intros [->|(c & r & -> & [->|C])] S; cbn [append stops]; [exact S|reflexivity|now apply command_stop]. Qed.
  Lemma begins_app s t : begins s -> begins t -> begins (s ++ t).
  Proof. intros [->|(c & r & -> & C)] B; [exact B|]. right. exists c, (r ++ t). auto. Qed.
  Lemma begins_cmd (b : bool) c s : letter c -> begins ((if b then " " else String c "") ++ s).
  Proof. intros L. apply letter_command in L as [L _]. destruct b; right; do 2 eexists; cbn [append]; eauto. Qed.
  Lemma dSegments_begins segs : Forall good_seg segs -> forall pen last, begins (dSegments show (pen, last) segs).
  Proof.
    intros F. induction F as [|s segs G F IH]; intros pen last; [now left|]. cbn [dSegments]. rewrite dSegment_form by apply G.
    destruct (seg_cmd pen s) as [c|] eqn:C; [|apply IH]. destruct (seg_last s) as [q|]; [|apply IH]. rewrite app_asc. apply begins_cmd. eapply seg_letter; eassumption.
  Qed.
  Lemma d_sim segs : Forall good_seg segs -> connected segs -> forall pen last c0 start prev rest,
    (match segs with s :: _ => hd_error s = Some pen | [] => True end) -> tied last c0 -> stops rest -> exists c1 prev' pen',
    drawS (Repeat c0) pen start (tok prev (dSegments show (pen, last) segs ++ rest)) =
      option_map (app (map Curve (filter (fun s => negb (zero_length s)) segs))) (drawS (Repeat c1) pen' start (tok prev' rest)).
  Proof.
    intros F. induction F as [|s segs G F IH]; intros C pen last c0 start prev rest Hd Ti S.
    - exists c0, prev, pen. cbn [dSegments append map filter]. destruct (drawS _ _ _ _); reflexivity.
    - cbn [dSegments]. rewrite dSegment_form by apply G. destruct (seg_last_some s) as [q Q]; [intros ->; destruct G as [G _]; simpl in G; lia|].
      assert (Next : match segs with s' :: _ => hd_error s' = Some q | [] => True end).
      { destruct segs as [|s' segs]; [exact Logic.I|]. destruct C as [(p & E1 & E2) _]. rewrite Q in E1. injection E1 as <-. destruct s'; [discriminate|exact E2]. }
      assert (C' : connected segs) by (destruct segs; [exact Logic.I|apply C]).
      assert (S' : forall pen last, stops (dSegments show (pen, last) segs ++ rest)) by (intros; apply begins_stops; [now apply dSegments_begins|exact S]).
      cbn [filter]. destruct (seg_cmd pen s) as [c|] eqn:E.
      + rewrite Q, !app_asc. destruct (drawn pen s c c0 (if String.eqb last (String c "") then " " else String c "") prev (dSegments show (q, String c "") segs ++ rest) start q) as (prev' & ->); auto; [now apply command_text|].
        rewrite (not_skipped pen s c Hd E). cbn [negb map app]. destruct (IH C' q (String c "") c start prev' rest Next (or_intror eq_refl) S) as (c1 & p1 & pen' & ->).
        exists c1, p1, pen'. destruct (drawS _ _ _ _); reflexivity.
      + destruct (skipped pen s G Hd E) as [Z Q']. rewrite Z. cbn [negb append]. rewrite Q in Q'. injection Q' as ->. apply IH; auto.
  Qed.
  (** After M. *)
  Lemma moved e p rest cur start prev : e <> Pending "M" -> (forall c, e <> Pending c) -> Dp p -> stops rest ->
    drawS e cur start (tok prev (String "M" (pointToString show p ++ rest))) = option_map (cons (MoveTo p)) (drawS (Repeat "L") p p (tok true rest)).
  Proof.
    intros _ NP Dpp S. rewrite tok_cmd by reflexivity. rewrite tok_pt by assumption. destruct (tok true rest); [|reflexivity]. destruct p as [x y].
    destruct e as [|c|c|]; [reflexivity|now destruct (NP c)|reflexivity|reflexivity].
  Qed.
  Lemma svg_tok origin s : svg_draw parse origin s = drawS Begin origin origin (tok false s).
  Proof. unfold svg_draw, tok. destruct (lex parse "" s); reflexivity. Qed.
  Definition good (c : contour T) : Prop := Forall good_seg c /\ connected c /\ c <> [].
  Theorem d_draws (b : bcontour T) c p origin : good c -> map cps (c_beziers b) = c -> contour_first c = Some p -> c_start b = p ->
    svg_draw parse origin (d_ show b) = Some (marks false c).
  Proof.
    intros (F & C & Ne) B Fst St. destruct c as [|s c]; [congruence|]. cbn [contour_first] in Fst. destruct s as [|p0 s]; [discriminate|]. cbn [seg_first] in Fst. injection Fst as ->.
    unfold d_. rewrite B, St. rewrite svg_tok.
    assert (Dpp : Dp p) by (inversion F as [|? ? G _]; apply G; now left).
    change ("M" ++ ?s)%string with (String "M" s). rewrite moved; [|discriminate|discriminate|exact Dpp|].
    2:{ rewrite <- (app_nil (dSegments _ _ _)). apply begins_stops; [now apply dSegments_begins|exact Logic.I]. }
    destruct (d_sim _ F C p "" "L"%char p true "" eq_refl (or_introl eq_refl) Logic.I) as (c1 & pr & pen' & E). rewrite app_nil in E. rewrite E. cbn [marks].
    change (tok pr "") with (Some (@nil (token T))). cbn [drawS draw option_map]. reflexivity.
  Qed.
End SvgProof.
