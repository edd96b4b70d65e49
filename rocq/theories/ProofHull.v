(** drawSkeleton and drawHull (ContourPlotter.py 287-313). *)
From Coq Require Import List ZArith Bool String Ascii Lia.
From Verif Require Import Py Inst SpecGeom SpecSvg SpecPlot MTransform MBounds MBezUtil MPathUtil MBezier MContour MPlotter ProofSvg ProofPlotter.
Import ListNotations.
Local Open Scope string_scope.

Section Hull.
  Context {T : Type} {N : NumOps T} {V : Type} (truthy : V -> bool) (show : T -> string).
  Context (parse : string -> option T) (D : T -> Prop) (P : printer parse D show).
  Notation plotter := (@plotter T V).
  (** The rows of the triangle, from the control points on. *)
  Fixpoint rows (n : nat) (t : T) (p : list (point T)) : list (list (point T)) :=
    match n with O => [] | S k => p :: rows k t (dcLevel (lerp t) p) end.
  Lemma dcLevel_len (f : point T -> point T -> point T) : forall p, List.length (dcLevel f p) = (List.length p - 1)%nat.
  Proof. induction p as [|a p IH]; [reflexivity|]. destruct p as [|b p]; [reflexivity|]. cbn [dcLevel List.length] in *. rewrite IH. lia. Qed.
  Lemma dcLevel_at (f : point T -> point T -> point T) e : forall p i, (S i < List.length p)%nat -> nth i (dcLevel f p) e = f (nth i p e) (nth (S i) p e).
  Proof.
    induction p as [|a p IH]; intros i Hi; [simpl in Hi; lia|]. destruct p as [|b p]; [simpl in Hi; lia|]. destruct i as [|i]; [reflexivity|].
    change (nth (S i) (dcLevel f (a :: b :: p)) e) with (nth i (dcLevel f (b :: p)) e). rewrite IH by (simpl in *; lia). reflexivity.
  Qed.
  Lemma hullLoop_rows t : forall fuel p q, (0 < List.length p <= fuel)%nat -> hullLoop fuel t p q = (q ++ List.concat (tl (rows (List.length p) t p)))%list.
  Proof.
    induction fuel as [|f IH]; intros p q L; [lia|]. cbn [hullLoop]. destruct (Nat.ltb_spec 1 (List.length p)).
    - rewrite IH by (rewrite dcLevel_len; lia). rewrite dcLevel_len. destruct (List.length p) as [|[|n]]; try lia. replace (S (S n) - 1)%nat with (S n) by lia.
      cbn [rows tl List.concat]. now rewrite app_assoc.
    - replace (List.length p) with 1%nat by lia. simpl. now rewrite app_nil_r.
  Qed.
  Lemma hull_rows (b : bezier T) t : (1 <= List.length (cps b))%nat -> hull b t = List.concat (rows (List.length (cps b)) t (cps b)).
  Proof. intros L. unfold hull. rewrite hullLoop_rows by lia. destruct (List.length (cps b)); [lia|]. reflexivity. Qed.
  Lemma rows_length t : forall n p, List.length (rows n t p) = n.
  Proof. induction n; intros p; simpl; auto. Qed.
  Lemma rows_nth t : forall n p k, List.length p = n -> (k < n)%nat -> List.length (nth k (rows n t p) []) = (n - k)%nat.
  Proof.
    induction n as [|n IH]; intros p k L K; [lia|]. destruct k as [|k]; [simpl; lia|]. cbn [rows nth]. rewrite IH; [lia|rewrite dcLevel_len; lia|lia].
  Qed.
  Lemma rows_next t : forall n p k, List.length p = n -> (S k < n)%nat -> nth (S k) (rows n t p) [] = dcLevel (lerp t) (nth k (rows n t p) []).
  Proof.
    induction n as [|n IH]; intros p k L K; [lia|]. destruct k as [|k]; [destruct n; [lia|reflexivity]|]. cbn [rows nth] in *. apply IH; [rewrite dcLevel_len; lia|lia].
  Qed.
  (** One polyline, with what it leaves alone. *)
  Lemma polyline_both (s : plotter) ps color : ps <> [] -> (forall q, In q ps -> D (fst q) /\ D (snd q)) -> forall origin, exists s' d,
    drawPointsAsSegments truthy show s ps color = (s', None) /\ keeps s s' /\ pl_content s' = (pl_content s ++ [IStrokePath d (with_color truthy s color)])%list /\
    svg_draw parse origin d = Some (polyline_marks ps).
  Proof.
    intros Ne Dp origin. destruct ps as [|p ps]; [congruence|]. destruct (polyline_draws truthy show parse D P s p ps color origin Dp) as (s' & d & E & C & S).
    destruct (drawPoints_ok truthy show s (p :: ps) color Ne) as (s2 & E2 & K). assert (s' = s2) by congruence. subst s2. exists s', d. auto.
  Qed.
  Definition coordsD (l : list (point T)) : Prop := forall q, In q l -> D (fst q) /\ D (snd q).
  Lemma with_color_keeps (s s' : plotter) color : keeps s s' -> with_color truthy s' color = with_color truthy s color.
  Proof. unfold with_color. intros (_ & -> & _). reflexivity. Qed.
  Lemma hullLines_draw color origin : forall n p t s pre, List.length p = n -> (1 <= n)%nat -> coordsD (List.concat (rows n t p)) ->
    exists s' ds, hullLines truthy show s (pre ++ List.concat (rows n t p)) (List.length pre + n) (n - 1) color = (s', None) /\ keeps s s' /\
      pl_content s' = (pl_content s ++ map (fun d => IStrokePath d (with_color truthy s color)) ds)%list /\
      Forall2 (fun d lv => svg_draw parse origin d = Some (polyline_marks lv)) ds (firstn (n - 2) (tl (rows n t p))).
  Proof.
    induction n as [|n IH]; intros p t s pre L L1 Dc; [lia|]. destruct n as [|[|n]].
    - exists s, []. cbn. rewrite app_nil_r. split; [reflexivity|]. split; [apply keeps_refl|]. split; [reflexivity|constructor].
    - exists s, []. cbn. rewrite app_nil_r. split; [reflexivity|]. split; [apply keeps_refl|]. split; [reflexivity|constructor].
    - set (q := dcLevel (lerp t) p). assert (Lq : List.length q = S (S n)) by (unfold q; rewrite dcLevel_len; lia).
      replace (S (S (S n)) - 1)%nat with (S (S n)) by lia.
      assert (Rw : List.concat (rows (S (S (S n))) t p) = (p ++ q ++ List.concat (tl (rows (S (S n)) t q)))%list) by reflexivity.
      assert (Sl : firstn (S (S n)) (skipn (List.length pre + S (S (S n))) (pre ++ List.concat (rows (S (S (S n))) t p))) = q).
      { rewrite Rw. rewrite <- L. rewrite <- app_length. rewrite app_assoc, skipn_app, skipn_all, Nat.sub_diag. cbn [skipn app]. rewrite <- Lq, firstn_app, firstn_all, Nat.sub_diag. cbn [firstn]. apply app_nil_r. }
      cbn [hullLines]. rewrite Sl.
      destruct (polyline_both s q color) with (origin := origin) as (s1 & d & E1 & K1 & C1 & S1); [intros K; rewrite K in Lq; discriminate|intros x Hx; apply Dc; rewrite Rw; apply in_or_app; right; apply in_or_app; now left|].
      rewrite E1. destruct (IH q t s1 (pre ++ p)%list Lq ltac:(lia)) as (s' & ds & E & K & C & F).
      { intros x Hx. apply Dc. rewrite Rw. apply in_or_app. right. exact Hx. }
      exists s', (d :: ds). split.
      + replace (List.length pre + S (S (S n)) + S (S n))%nat with (List.length (pre ++ p) + S (S n))%nat by (rewrite app_length; lia).
        rewrite Rw, app_assoc. exact E.
      + split; [eapply keeps_trans; eauto|]. split.
        * rewrite C, C1, (with_color_keeps s s1 color K1). cbn [map]. rewrite <- app_assoc. reflexivity.
        * cbn [rows tl]. fold q. replace (S (S (S n)) - 2)%nat with (S n) by lia. replace (S (S n) - 2)%nat with n in F by lia. cbn [firstn rows]. constructor; [exact S1|]. exact F.
  Qed.
  (** The circles and labels of the skeleton. *)
  Lemma circles_one c r : forall ps i (s : plotter), f_color (pl_fill s) = c ->
    exists s', circles truthy s i ps r [c] true = s' /\ pl_stroke s' = pl_stroke s /\ pl_fill s' = pl_fill s /\ pl_strokeStack s' = pl_strokeStack s /\ pl_fillStack s' = pl_fillStack s /\ pl_poly s' = pl_poly s /\
      pl_content s' = (pl_content s ++ map (fun p => ICircle p r true (pl_stroke s) (pl_fill s)) ps)%list.
  Proof.
    induction ps as [|p ps IH]; intros i s Fc; cbn [circles].
    - exists s. cbn. rewrite app_nil_r. auto 10.
    - replace (i mod List.length [c])%nat with O by (symmetry; apply Nat.mod_1_r). cbn [nth_error].
      assert (E : (if truthy c then withFillColor s c else s) = s).
      { destruct (truthy c); [|reflexivity]. unfold withFillColor, setFill. destruct s as [a0 a1 a2 a3 [fc fo] a5 a6 a7 a8]. cbn in *. now rewrite Fc. }
      rewrite E. destruct (IH (S i) (emit s (ICircle p r true (pl_stroke s) (pl_fill s))) Fc) as (s' & E' & A & B & C & D0 & G & F).
      exists s'. split; [exact E'|]. cbn in A, B, C, D0, F, G. rewrite F. cbn [map]. rewrite <- app_assoc. cbn [app]. auto 10.
  Qed.
  Lemma labels_all round2 : forall ps (s : plotter), exists s', labels show round2 s ps = s' /\ pl_stroke s' = pl_stroke s /\ pl_fill s' = pl_fill s /\ pl_strokeStack s' = pl_strokeStack s /\ pl_fillStack s' = pl_fillStack s /\ pl_poly s' = pl_poly s /\
      pl_content s' = (pl_content s ++ map (fun p => ILabel false (nadd (fst p) (nofZ 4), nsub (snd p) (nofZ 4)) (pointLabel show round2 p) (pl_labelSize s) (pl_fill s)) ps)%list.
  Proof.
    unfold labels. induction ps as [|p ps IH]; intros s; cbn [fold_left].
    - exists s. cbn. rewrite app_nil_r. auto 10.
    - destruct (IH (drawText s (nadd (fst p) (nofZ 4), nsub (snd p) (nofZ 4)) (pointLabel show round2 p) false)) as (s' & E' & A & B & C & D0 & G & F).
      exists s'. split; [exact E'|]. cbn in A, B, C, D0, F, G. rewrite F. cbn [map]. rewrite <- app_assoc. cbn [app]. auto 10.
  Qed.
  Theorem skeleton_draws round2 black (s : plotter) ps color pc origin : ps <> [] -> coordsD ps -> truthy black = true -> exists s' d,
    drawSkeleton truthy show round2 black s ps color [pc] = (s', None) /\ svg_draw parse origin d = Some (polyline_marks ps) /\
    pl_stroke s' = pl_stroke s /\ pl_strokeStack s' = pl_strokeStack s /\ pl_fillStack s' = pl_fillStack s /\ pl_poly s' = pl_poly s /\ pl_fill s' = mkFill pc (f_opacity (pl_fill s)) /\
    pl_content s' = (pl_content s ++ IStrokePath d (with_color truthy s color) :: map (fun p => ICircle p (nofZ 2) true (pl_stroke s) (mkFill pc (f_opacity (pl_fill s)))) ps ++
      map (fun p => ILabel false (nadd (fst p) (nofZ 4), nsub (snd p) (nofZ 4)) (pointLabel show round2 p) (nofZ 6, nofZ 6) (mkFill black (f_opacity (pl_fill s)))) ps)%list.
  Proof.
    intros Ne Dc Tb. destruct (polyline_both s ps color Ne Dc origin) as (s1 & d & E1 & (K1 & K2 & K3 & K4 & K5) & C1 & S1). unfold drawSkeleton. rewrite E1.
    unfold drawPointsAsCircles. destruct ps as [|p ps]; [congruence|].
    destruct (circles_one pc (nofZ 2) (p :: ps) 0 (withFillColor s1 pc) eq_refl) as (s2 & E2 & A2 & B2 & F2 & G2 & H2 & C2). rewrite E2.
    set (s3 := setLabelSize (pushFill truthy s2 (Some black) None) (nofZ 6, nofZ 6)). destruct (labels_all round2 (p :: ps) s3) as (s4 & E4 & A4 & B4 & F4 & G4 & H4 & C4). rewrite E4. unfold popFill. rewrite G4. unfold s3 at 1. cbn [setLabelSize pl_labelSize pushFill setFill setFillStack pl_fillStack].
    exists (setFill (setFillStack s4 (pl_fillStack s2)) (pl_fill s2)), d. split; [reflexivity|]. split; [exact S1|].
    cbn [setFill setFillStack pl_stroke pl_strokeStack pl_fillStack pl_poly pl_fill pl_content].
    unfold s3 in A4, F4, H4, C4. cbn [setLabelSize pl_labelSize pushFill setFill setFillStack pl_stroke pl_strokeStack pl_fillStack pl_poly pl_fill pl_content given f_color f_opacity] in A4, F4, H4, C4. rewrite Tb in C4.
    cbn [withFillColor setFill setFillStack pl_stroke pl_strokeStack pl_fillStack pl_poly pl_fill pl_content f_color f_opacity] in A2, B2, F2, G2, H2, C2.
    split; [congruence|]. split; [congruence|]. split; [congruence|]. split; [congruence|]. split; [rewrite B2; congruence|].
    rewrite C4, C2, C1, B2. cbn [f_opacity f_color]. rewrite K2, K3, <- !app_assoc. reflexivity.
  Qed.
  (** Any number of colours, taken in turn. *)
  Definition hue (cs : list V) (d : V) (i : nat) : V := nth (i mod List.length cs) cs d.
  Lemma circles_many cs r d : (forall c, In c cs -> truthy c = true) -> forall ps i (s : plotter), (cs = [] -> f_color (pl_fill s) = d) ->
    exists s', circles truthy s i ps r cs true = s' /\ pl_stroke s' = pl_stroke s /\ (ps <> [] -> pl_fill s' = mkFill (hue cs d (i + List.length ps - 1)) (f_opacity (pl_fill s))) /\
      pl_strokeStack s' = pl_strokeStack s /\ pl_fillStack s' = pl_fillStack s /\ pl_poly s' = pl_poly s /\
      pl_content s' = (pl_content s ++ map (fun jp => ICircle (snd jp) r true (pl_stroke s) (mkFill (hue cs d (fst jp)) (f_opacity (pl_fill s)))) (combine (seq i (List.length ps)) ps))%list.
  Proof.
    intros Tc. induction ps as [|p ps IH]; intros i s Fc; cbn [circles].
    - exists s. cbn. rewrite app_nil_r. split; [reflexivity|]. split; [reflexivity|]. split; [congruence|]. auto 10.
    - set (s1 := match nth_error cs (i mod List.length cs) with Some c => if truthy c then withFillColor s c else s | None => s end).
      assert (S1 : pl_fill s1 = mkFill (hue cs d i) (f_opacity (pl_fill s)) /\ pl_stroke s1 = pl_stroke s /\ pl_strokeStack s1 = pl_strokeStack s /\ pl_fillStack s1 = pl_fillStack s /\ pl_poly s1 = pl_poly s /\ pl_content s1 = pl_content s).
      { unfold s1, hue. destruct cs as [|c0 cl].
        - specialize (Fc eq_refl). rewrite (proj2 (nth_error_None _ _)) by (cbn; lia). rewrite nth_overflow by (cbn; lia). rewrite <- Fc. destruct (pl_fill s) eqn:E. cbn. auto 10.
        - assert (B : (i mod List.length (c0 :: cl) < List.length (c0 :: cl))%nat) by (apply Nat.mod_upper_bound; discriminate).
          rewrite (nth_error_nth' _ d B). rewrite Tc by (apply nth_In; exact B). cbn. auto 10. }
      destruct S1 as (S1 & S2 & S3 & S4 & S5 & S6).
      destruct (IH (S i) (emit s1 (ICircle p r true (pl_stroke s1) (pl_fill s1)))) as (s' & E' & A & B & C & D0 & G & F).
      { intros E. specialize (Fc E). cbn [emit pl_fill]. rewrite S1. cbn [f_color]. unfold hue. rewrite E. cbn [List.length]. now destruct i; rewrite nth_overflow by (cbn; lia). }
      exists s'. split; [exact E'|]. cbn [emit pl_stroke pl_fill pl_strokeStack pl_fillStack pl_poly pl_content] in A, B, C, D0, F, G.
      split; [congruence|]. split.
      { intros _. destruct ps as [|p2 ps]; [cbn in E'; subst s'; cbn [emit pl_fill]; rewrite S1; cbn [List.length]; now replace (i + 1 - 1)%nat with i by lia|].
        rewrite B by discriminate. rewrite S1. cbn [f_opacity List.length]. do 2 f_equal. lia. }
      split; [congruence|]. split; [congruence|]. split; [congruence|].
      rewrite F, S6, S2, S1. cbn [f_opacity List.length seq combine map fst snd]. rewrite <- app_assoc. reflexivity.
  Qed.
  Theorem skeleton_many round2 black (s : plotter) ps color pcs origin : ps <> [] -> coordsD ps -> truthy black = true -> (forall c, In c pcs -> truthy c = true) ->
    let hu := hue pcs (f_color (pl_fill s)) in let op := f_opacity (pl_fill s) in exists s' d,
    drawSkeleton truthy show round2 black s ps color pcs = (s', None) /\ svg_draw parse origin d = Some (polyline_marks ps) /\
    pl_stroke s' = pl_stroke s /\ pl_strokeStack s' = pl_strokeStack s /\ pl_fillStack s' = pl_fillStack s /\ pl_fill s' = mkFill (hu (List.length ps - 1)%nat) op /\ pl_labelSize s' = (nofZ 6, nofZ 6) /\
    pl_content s' = (pl_content s ++ IStrokePath d (with_color truthy s color) :: map (fun jp => ICircle (snd jp) (nofZ 2) true (pl_stroke s) (mkFill (hu (fst jp)) op)) (combine (seq 0 (List.length ps)) ps) ++
      map (fun p => ILabel false (nadd (fst p) (nofZ 4), nsub (snd p) (nofZ 4)) (pointLabel show round2 p) (nofZ 6, nofZ 6) (mkFill black op)) ps)%list.
  Proof.
    intros Ne Dc Tb Tc hu op. destruct (polyline_both s ps color Ne Dc origin) as (s1 & d & E1 & (K1 & K2 & K3 & K4 & K5) & C1 & S1). unfold drawSkeleton. rewrite E1.
    assert (Q : exists s1', drawPointsAsCircles truthy s1 ps (nofZ 2) pcs true = (circles truthy s1' 0 ps (nofZ 2) pcs true, None) /\ (pcs = [] -> f_color (pl_fill s1') = f_color (pl_fill s)) /\
       f_opacity (pl_fill s1') = op /\ pl_stroke s1' = pl_stroke s /\ pl_strokeStack s1' = pl_strokeStack s /\ pl_fillStack s1' = pl_fillStack s /\ pl_content s1' = pl_content s1).
    { unfold drawPointsAsCircles, op. destruct ps as [|p ps]; [congruence|]. destruct pcs as [|c pcs]; [exists s1|exists (withFillColor s1 c)]; (split; [reflexivity|]); cbn; rewrite ?K2, ?K3, ?K4, ?K5; repeat split; congruence. }
    destruct Q as (s1' & E2 & Q1 & Q2 & Q3 & Q4 & Q5 & Q6). rewrite E2. destruct (circles_many pcs (nofZ 2) (f_color (pl_fill s)) Tc ps 0 s1' Q1) as (s2 & E3 & A2 & B2 & F2 & G2 & H2 & C2). rewrite E3. specialize (B2 Ne). rewrite Q2 in B2, C2.
    set (s3 := setLabelSize (pushFill truthy s2 (Some black) None) (nofZ 6, nofZ 6)). destruct (labels_all round2 ps s3) as (s4 & E4 & A4 & B4 & F4 & G4 & H4 & C4).
    assert (L4 : pl_labelSize s4 = (nofZ 6, nofZ 6)).
    { rewrite <- E4. unfold labels. change (nofZ 6, nofZ 6) with (pl_labelSize s3). generalize s3. clear. induction ps as [|p ps IH]; intros s0; [reflexivity|]. cbn [fold_left]. rewrite IH. reflexivity. }
    rewrite E4. unfold popFill. rewrite G4. unfold s3 at 1. cbn [setLabelSize pl_labelSize pushFill setFill setFillStack pl_fillStack].
    exists (setFill (setFillStack s4 (pl_fillStack s2)) (pl_fill s2)), d. split; [reflexivity|]. split; [exact S1|].
    cbn [setFill setFillStack pl_stroke pl_strokeStack pl_fillStack pl_poly pl_fill pl_content pl_labelSize].
    unfold s3 in A4, F4, H4, C4. cbn [setLabelSize pl_labelSize pushFill setFill setFillStack pl_stroke pl_strokeStack pl_fillStack pl_poly pl_fill pl_content given f_color f_opacity] in A4, F4, H4, C4. rewrite Tb in C4.
    split; [congruence|]. split; [congruence|]. split; [congruence|]. split; [exact B2|]. split; [exact L4|].
    rewrite C4, C2, Q6, C1, B2, Q3. cbn [f_opacity f_color]. rewrite <- !app_assoc. reflexivity.
  Qed.
  Theorem hull_draws round2 black half (s : plotter) (b : bezier T) t color pc origin : (1 <= List.length (cps b))%nat -> coordsD (hull b t) -> truthy black = true -> truthy half = true ->
    exists s' d ds lv, drawHull truthy show round2 black half s b t color pc = (s', None) /\
      hull b t = List.concat lv /\ List.length lv = List.length (cps b) /\ nth 0 lv [] = cps b /\ (forall k, (k < List.length (cps b))%nat -> List.length (nth k lv []) = (List.length (cps b) - k)%nat) /\
      (forall k i e, (S k < List.length (cps b))%nat -> (i < List.length (nth (S k) lv []))%nat -> let u := nth i (nth k lv []) e in let v := nth (S i) (nth k lv []) e in
         nth i (nth (S k) lv []) e = (nadd (fst u) (nmul t (nsub (fst v) (fst u))), nadd (snd u) (nmul t (nsub (snd v) (snd u))))) /\
      svg_draw parse origin d = Some (polyline_marks (cps b)) /\
      Forall2 (fun d l => svg_draw parse origin d = Some (polyline_marks l)) ds (firstn (List.length (cps b) - 2) (tl lv)) /\
      pl_stroke s' = pl_stroke s /\ pl_strokeStack s' = pl_strokeStack s /\ pl_fillStack s' = pl_fillStack s /\ pl_fill s' = mkFill pc (f_opacity (pl_fill s)) /\
      let a := pl_stroke s in let given_ := isGiven truthy color in
      let line := mkStroke (s_width a) (given truthy color (s_color a)) (s_opacity a) (s_dash a) in
      let faint := mkStroke (s_width a) (given truthy color (s_color a)) (if given_ then half else s_opacity a) (s_dash a) in
      pl_content s' = (pl_content s ++ IStrokePath d line :: map (fun p => ICircle p (nofZ 2) true a (mkFill pc (f_opacity (pl_fill s)))) (cps b) ++
        map (fun p => ILabel false (nadd (fst p) (nofZ 4), nsub (snd p) (nofZ 4)) (pointLabel show round2 p) (nofZ 6, nofZ 6) (mkFill black (f_opacity (pl_fill s)))) (cps b) ++ map (fun d => IStrokePath d faint) ds)%list.
  Proof.
    intros L Dc Tb Th. set (n := List.length (cps b)) in *. assert (Hr : hull b t = List.concat (rows n t (cps b))) by (apply hull_rows; exact L).
    assert (Ne : cps b <> []) by (intros K; unfold n in L; rewrite K in L; simpl in L; lia).
    assert (Dcp : coordsD (cps b)). { intros q Q. apply Dc. rewrite Hr. destruct n as [|m]; [lia|]. cbn [rows List.concat]. apply in_or_app. now left. }
    destruct (skeleton_draws round2 black s (cps b) color pc origin Ne Dcp Tb) as (s1 & d & E1 & S1 & A1 & B1 & F1 & G1 & H1 & C1). unfold drawHull. rewrite E1.
    set (s2 := if isGiven truthy color then pushStroke truthy s1 None color (Some half) None else s1).
    destruct (hullLines_draw color origin n (cps b) t s2 [] eq_refl L) as (s3 & ds & E3 & (K1 & K2 & K3 & K4 & K5) & C3 & F3); [intros q Q; apply Dc; rewrite Hr; exact Q|].
    cbn [app List.length Nat.add] in E3. unfold order. fold n. rewrite Hr. rewrite E3.
    set (s4 := if isGiven truthy color then fst (popStroke s3) else s3).
    assert (E4 : (if isGiven truthy color then popStroke s3 else (s3, None)) = (s4, None)).
    { unfold s4. destruct (isGiven truthy color) eqn:Gv; [|reflexivity]. unfold popStroke. rewrite K4. unfold s2. reflexivity. }
    exists s4, d, ds, (rows n t (cps b)). split; [exact E4|]. split; [reflexivity|]. split; [apply rows_length|]. split; [destruct n; [lia|reflexivity]|].
    split; [intros k K; now apply rows_nth|]. split.
    { intros k i e K I. cbv zeta. rewrite rows_nth in I by (auto; fold n; lia). rewrite rows_next by (auto; fold n; lia). rewrite dcLevel_at by (rewrite rows_nth by (auto; fold n; lia); lia).
      destruct (nth i (nth k (rows n t (cps b)) []) e), (nth (S i) (nth k (rows n t (cps b)) []) e). reflexivity. }
    split; [exact S1|]. split; [exact F3|].
    assert (P4 : pl_stroke s4 = pl_stroke s1 /\ pl_strokeStack s4 = pl_strokeStack s1 /\ pl_fillStack s4 = pl_fillStack s1 /\ pl_fill s4 = pl_fill s1 /\ pl_content s4 = pl_content s3).
    { unfold s4, s2 in *. destruct (isGiven truthy color); [|auto 10]. unfold popStroke. rewrite K4. cbn [pushStroke setStroke setStrokeStack pl_strokeStack fst]. cbn in K3, K5 |- *. auto 10. }
    destruct P4 as (P1 & P2 & P3 & P5 & P6). split; [congruence|]. split; [congruence|]. split; [congruence|]. split; [congruence|].
    cbv zeta. rewrite P6, C3.
    assert (C2 : pl_content s2 = pl_content s1) by (unfold s2; destruct (isGiven truthy color); reflexivity). rewrite C2, C1, <- app_assoc. f_equal.
    assert (W : with_color truthy s2 color = mkStroke (s_width (pl_stroke s)) (given truthy color (s_color (pl_stroke s))) (if isGiven truthy color then half else s_opacity (pl_stroke s)) (s_dash (pl_stroke s))).
    { unfold with_color, s2, isGiven, given. destruct color as [v|]; [|cbn; now rewrite A1]. destruct (truthy v) eqn:Tv; cbn; rewrite ?A1; [|reflexivity]. rewrite ?Tv, ?Th. reflexivity. }
    rewrite W. cbn [app]. rewrite <- app_assoc. reflexivity.
  Qed.
End Hull.
