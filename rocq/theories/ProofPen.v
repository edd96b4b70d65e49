(** Proofs about SegmentPen.py. *)
From Coq Require Import List ZArith Bool Reals Lra Lia String.
From Verif Require Import Py Inst SpecGeom SpecPen MTransform MSegmentPen ProofTransform.
Import ListNotations.
Local Open Scope list_scope.

Lemma seg_last_error {A} (l : list A) : seg_last l = last_error l.
Proof. induction l as [|a [|b r] IH]; simpl in *; auto. Qed.
Lemma contour_last_snoc {A} (c : list (list A)) s : contour_last (c ++ [s]) = seg_last s.
Proof. induction c as [|x [|y r] IH]; simpl in *; auto. Qed.
Lemma contour_last_eq {A} (c : list (list A)) s : last_error c = Some s -> contour_last c = seg_last s.
Proof. induction c as [|x [|y r] IH]; simpl in *; intros E; try discriminate; auto. now injection E as ->. Qed.
Lemma contour_first_snoc {A} (c : list (list A)) s :
  contour_first (c ++ [s]) = match c with [] => seg_first s | _ => contour_first c end.
Proof. destruct c; auto. Qed.
Lemma connected_snoc {A} (c : list (list A)) s : connected c ->
  (c <> [] -> exists p, contour_last c = Some p /\ seg_first s = Some p) -> connected (c ++ [s]).
Proof.
  induction c as [|x [|y r] IH]; cbn -[contour_last seg_last]; auto.
  - intros _ K. split; auto. apply K. discriminate.
  - intros [P C] K. split; auto. apply IH; auto. intros _. apply K; discriminate.
Qed.
Lemma seg_last_snoc {A} (l : list A) a : seg_last (l ++ [a]) = Some a.
Proof. induction l as [|x [|y r] IH]; simpl in *; auto. Qed.
Lemma seg_last_cons {A} (a : A) l : seg_last (a :: l) = Some (last l a).
Proof. revert a; induction l as [|x l IH]; intros a; auto. change (seg_last (x :: l) = Some (last (x :: l) a)).
  rewrite IH. destruct l; auto. f_equal. simpl. clear. revert a0. induction l; intros; simpl; auto.
Qed.

Section Inv.
  Context {T : Type} `{NumOps T}.
  Variable same : point T -> point T -> Prop.
  Hypothesis same_refl : forall a, same a a.
  Hypothesis same_eqb : forall a b, pteqb a b = true -> same a b.
  Hypothesis same_apply : forall t a b a' b',
    applyToPoint t a = Ok a' -> applyToPoint t b = Ok b' -> same a b -> same a' b'.

  Definition shut (c : contour T) : Prop :=
    c <> [] /\ connected c /\ exists a b, contour_first c = Some a /\ contour_last c = Some b /\ same a b.
  Definition opened (c : contour T) (p : point T) : Prop :=
    Forall (fun s => s <> []) c /\ connected c /\ (c <> [] -> contour_last c = Some p).
  Definition pinv (s : pen T) : Prop :=
    Forall shut (p_contours s) /\ forall c, p_contour s = Some c -> opened c (p_last s).

  Lemma pinv_new : pinv newPen.
  Proof. split; [constructor | discriminate]. Qed.
  Lemma opened_snoc c p seg q : opened c p -> seg_first seg = Some p -> seg_last seg = Some q ->
    opened (c ++ [seg]) q.
  Proof.
    intros (F & C & L) Hf Hl. split; [|split].
    - apply Forall_app; split; auto. constructor; auto. intros ->; discriminate.
    - apply connected_snoc; eauto.
    - intros _. now rewrite contour_last_snoc.
  Qed.
  (** Appending a segment from the current point, then moving the current point to its end. *)
  Lemma append_spec (s : pen T) seg : 
    (p_contour s = None /\ appendSegment s seg = (s, Some AttributeError)) \/
    (exists c, p_contour s = Some c /\ appendSegment s seg = (mkPen (p_contours s) (p_last s) (Some (c ++ [seg])), None)).
  Proof. unfold appendSegment. destruct (p_contour s); eauto. Qed.
  Lemma pinv_append (s : pen T) seg q c : pinv s -> p_contour s = Some c -> seg_first seg = Some (p_last s) -> seg_last seg = Some q ->
    pinv (mkPen (p_contours s) q (Some (c ++ [seg]))).
  Proof.
    intros (F & O) E Hf Hl. split; auto. simpl. intros c' E'; injection E' as <-. eapply opened_snoc; eauto.
  Qed.
  Lemma pinv_lineTo s p : pinv s -> pinv (fst (lineTo s p)).
  Proof.
    intros I. unfold lineTo. destruct (pteqb p (p_last s)); auto.
    destruct (append_spec s [p_last s; p]) as [[E ->] | (c & E & ->)]; auto.
    apply (pinv_append s [p_last s; p] p c); auto.
  Qed.
  Lemma pinv_curveTo s ps : pinv s -> pinv (fst (curveTo s ps)).
  Proof.
    intros I. unfold curveTo.
    destruct (append_spec s (p_last s :: ps)) as [[E ->] | (c & E & ->)]; auto.
    destruct (last_error ps) as [q|] eqn:L; simpl.
    - apply (pinv_append s (p_last s :: ps) q c); auto. rewrite <- seg_last_error in L. destruct ps; auto; discriminate.
    - assert (ps = []) as -> by (destruct ps; auto; rewrite (last_error_last (p :: ps) p) in L; discriminate).
      apply (pinv_append s [p_last s] (p_last s) c); auto.
  Qed.
  (** The pen during a qCurveTo: the pending contour ends at [start]. *)
  Lemma pinv_qLoop seg is : forall start (s : pen T), pinv (setLast s start) ->
    pinv (setLast (fst (fst (qLoop seg is start s))) (snd (fst (qLoop seg is start s)))) /\
    p_last (fst (fst (qLoop seg is start s))) = p_last s /\
    (forall c, p_contour s = Some c -> exists c', p_contour (fst (fst (qLoop seg is start s))) = Some c').
  Proof.
    induction is as [|i is IH]; intros start s I; simpl; [split; [|split]; eauto|].
    destruct (nth_error seg i) as [p1|]; [|simpl; eauto].
    destruct (nth_error seg (i + 1)) as [p2|]; [|simpl; eauto].
    destruct (append_spec s [start; p1; implied p1 p2]) as [[E ->] | (c & E & ->)]; [simpl; eauto|].
    set (s' := mkPen _ _ _). destruct (IH (implied p1 p2) s') as (A & B & C).
    - apply (pinv_append (setLast s start) [start; p1; implied p1 p2] (implied p1 p2) c); auto.
    - split; auto. split; auto. intros c0 _. apply (C _ eq_refl).
  Qed.
  Lemma qLoop_pend seg is : forall start (s : pen T), p_contour s = None -> 
    fst (fst (qLoop seg is start s)) = s.
  Proof.
    intros start s E. destruct is as [|i is]; simpl; auto.
    destruct (nth_error seg i) as [p1|]; auto. destruct (nth_error seg (i + 1)) as [p2|]; auto.
    unfold appendSegment. now rewrite E.
  Qed.
  Lemma setLast_setLast (s : pen T) a b : setLast (setLast s a) b = setLast s b.
  Proof. reflexivity. Qed.
  Lemma setLast_self (s : pen T) : setLast s (p_last s) = s.
  Proof. destruct s; reflexivity. Qed.
  Lemma qLoop_no_err seg : forall is start (s : pen T) c, p_contour s = Some c ->
    (forall i, In i is -> (i + 1 < List.length seg)%nat) -> snd (qLoop seg is start s) = None.
  Proof.
    induction is as [|i is IH]; intros start s c E B; simpl; auto.
    assert (L : (i + 1 < List.length seg)%nat) by (apply B; simpl; auto).
    destruct (nth_error seg i) as [p1|] eqn:E1; [|apply nth_error_None in E1; lia].
    destruct (nth_error seg (i + 1)) as [p2|] eqn:E2; [|apply nth_error_None in E2; lia].
    unfold appendSegment. rewrite E. eapply IH; [reflexivity|]. intros; apply B; simpl; auto.
  Qed.
  Lemma last_nth {A} (l : list A) d : l <> [] -> nth_error l (List.length l - 1) = Some (last l d).
  Proof.
    induction l as [|a [|b r] IH]; intros N; [congruence | auto|].
    replace (List.length (a :: b :: r) - 1)%nat with (S (List.length (b :: r) - 1)) by (simpl; lia).
    transitivity (nth_error (b :: r) (List.length (b :: r) - 1)); [reflexivity|]. rewrite IH by discriminate. reflexivity.
  Qed.
  Lemma pinv_qCurveTo s ps : pinv s -> pinv (fst (qCurveTo s ps)).
  Proof.
    intros I. unfold qCurveTo. set (seg := p_last s :: ps).
    assert (Hlast : seg_last seg = Some (last seg (p_last s))).
    { unfold seg. rewrite seg_last_cons. f_equal. destruct ps; auto. }
    destruct (Nat.leb_spec (List.length seg) 3) as [L|L].
    - destruct (append_spec s seg) as [[E ->] | (c & E & ->)]; auto.
      apply (pinv_append s seg _ c); auto.
    - destruct (p_contour s) as [c|] eqn:E.
      + pose proof (pinv_qLoop seg (seq 1 (List.length seg - 3)) (p_last s) s) as (A & B & C);
          [now rewrite setLast_self|].
        pose proof (qLoop_no_err seg (seq 1 (List.length seg - 3)) (p_last s) s c E) as D.
        destruct (qLoop _ _ _ _) as [[s' start] oe] eqn:Q. cbn [fst snd] in *.
        rewrite D by (intros i Hi; apply in_seq in Hi; lia).
        destruct (nth_error seg (List.length seg - 2)) as [a|] eqn:Ea; [|apply nth_error_None in Ea; lia].
        rewrite (last_nth seg (p_last s)) by (unfold seg; discriminate). set (b := last seg (p_last s)) in *.
        destruct (C c E) as (c' & E').
        destruct (append_spec s' [start; a; b]) as [[E2 _] | (c2 & E2 & ->)]; [congruence|].
        cbn [fst]. apply (pinv_append (setLast s' start) [start; a; b] b c2); auto.
      + pose proof (qLoop_pend seg (seq 1 (List.length seg - 3)) (p_last s) s E) as P.
        destruct (qLoop _ _ _ _) as [[s' start] oe] eqn:Q. cbn [fst snd] in *. subst s'.
        destruct oe; auto. destruct (nth_error seg (List.length seg - 2)); auto. destruct (nth_error seg (List.length seg - 1)); auto.
        unfold appendSegment. rewrite E. auto.
  Qed.
  Lemma ends_Some c p : opened c p -> c <> [] -> exists a, contourStart c = Some a /\ contour_first c = Some a /\
    contourEnd c = Some p /\ contour_last c = Some p.
  Proof.
    intros (F & C & L) N. destruct c as [|[|a s] c]; [congruence| |].
    - inversion F; congruence.
    - exists a. repeat split; auto. specialize (L N). rewrite <- L at 1. unfold contourEnd.
      destruct (last_error ((a :: s) :: c)) eqn:E.
      + now rewrite (contour_last_eq _ _ E), seg_last_error.
      + rewrite (last_error_last _ []) in E by discriminate. discriminate.
  Qed.
  Lemma pinv_closePath s : pinv s -> pinv (fst (closePath s)).
  Proof.
    intros I. unfold closePath. destruct (p_contour s) as [c|] eqn:E; auto. destruct c as [|x c]; auto.
    set (cc := x :: c) in *. destruct I as (F & O). destruct (ends_Some cc (p_last s)) as (a & -> & Hf & -> & Hl).
    - apply O; auto. - unfold cc; discriminate.
    - split; cbn [fst p_contours p_last p_contour]; [|intros c' E'; injection E' as <-; split; [constructor | split; simpl; auto; congruence]].
      apply Forall_app; split; auto. constructor; [|constructor].
      destruct (O cc E) as (_ & C & _).
      destruct (pteqb a (p_last s)) eqn:P.
      + split; [unfold cc; discriminate|]. split; auto. exists a, (p_last s); auto.
      + split; [unfold cc; discriminate|]. split.
        * apply connected_snoc; auto. intros _. eauto.
        * exists a, a. rewrite contour_last_snoc, contour_first_snoc. repeat split; auto.
  Qed.
  Lemma shut_apply t c c' : shut c -> applyToContour t c = Ok c' -> shut c'.
  Proof.
    intros (N & C & a & b & Hf & Hl & S) E. split; [|split].
    - apply mapM_length in E. destruct c; [congruence|]. destruct c'; [discriminate | congruence].
    - eapply applyToContour_connected; eauto.
    - apply applyToContour_iff in E. destruct (f2_clast _ _ _ _ E Hl) as (q & Eq & Hq).
      destruct E as [|s s' c c' Hs E]; [congruence|]. cbn [contour_first] in *.
      destruct (f2_first _ _ _ _ Hs Hf) as (q' & Eq' & Hq'). exists q', q. repeat split; auto. eauto.
  Qed.
  Lemma pinv_addComponent gs draw s n tr : (forall g, pinv (fst (draw g))) -> pinv s ->
    pinv (fst (addComponent gs draw s n tr)).
  Proof.
    intros D I. unfold addComponent. destruct (gs n) as [g|]; auto. specialize (D g).
    destruct (draw g) as [cpen [e|]]; auto. destruct D as (D & _). cbn [fst] in D. destruct I as (F & O).
    set (cs := if isIdentityTransformation tr then _ else _). assert (K : forall l, cs = Ok l -> Forall shut l).
    { intros l. unfold cs. destruct (isIdentityTransformation tr); [intros E; injection E as <-; auto|].
      intros E. apply bind_Ok in E as (t & _ & E). apply mapM_Ok in E.
      clear - E D same_apply. induction E; inversion D; subst; constructor; auto. eapply shut_apply; eauto. }
    destruct cs as [l|e]; [|split; auto]. split; simpl; auto. apply Forall_app; auto.
  Qed.
  Lemma pinv_step gs draw s c : (forall g, pinv (fst (draw g))) -> pinv s -> pinv (fst (penStep gs draw s c)).
  Proof.
    intros D I. destruct c; simpl; auto using pinv_lineTo, pinv_curveTo, pinv_qCurveTo, pinv_closePath, pinv_addComponent.
    destruct I as (F & O). split; auto. simpl. intros c E; injection E as <-. split; [constructor|]. split; simpl; auto. congruence.
  Qed.
  Lemma pinv_run step cs : (forall s c, pinv s -> pinv (fst (step s c))) -> forall s, pinv s -> pinv (fst (runCalls step cs s)).
  Proof.
    intros K. induction cs as [|c cs IH]; simpl; auto. intros s I. specialize (K s c I).
    destruct (step s c) as [s' [e|]]; auto.
  Qed.
  Lemma pinv_draw gs : forall fuel g, pinv (fst (drawGlyph gs fuel g)).
  Proof.
    induction fuel; intros g; simpl; [apply pinv_new|]. apply pinv_run; [|apply pinv_new].
    intros; apply pinv_step; auto.
  Qed.
  Lemma pinv_history gs fuel cs : pinv (penHistory gs fuel cs).
  Proof.
    unfold penHistory. assert (G : forall s, pinv s -> pinv (fold_left (fun s c => fst (penStep gs (drawGlyph gs fuel) s c)) cs s)).
    { induction cs as [|c cs IH]; simpl; auto. intros s I. apply IH, pinv_step; auto. apply pinv_draw. }
    apply G, pinv_new.
  Qed.
End Inv.

(** C20 *)
Theorem pen_connected {T} `{NumOps T} gs fuel (cs : list (pencall T)) c :
  In c (p_contours (penHistory gs fuel cs)) ->
  c <> [] /\ connected c /\ exists a b, contour_first c = Some a /\ contour_last c = Some b.
Proof.
  intros Hc. destruct (pinv_history (fun _ _ => True) (fun _ => I) (fun _ _ _ => I) (fun _ _ _ _ _ _ _ _ => I) gs fuel cs) as (F & _).
  rewrite Forall_forall in F. destruct (F c Hc) as (A & B & a & b & C & D & _). repeat split; auto. eauto.
Qed.
Theorem pen_closed {T} `{NumOps T} gs fuel (cs : list (pencall T)) c :
  (forall x y, neqb x y = true -> x = y) ->
  In c (p_contours (penHistory gs fuel cs)) -> closed_contour c.
Proof.
  intros E Hc. destruct (pinv_history eq (fun _ => eq_refl)) with (gs := gs) (fuel := fuel) (cs := cs) as (F & _).
  - intros [a1 a2] [b1 b2]. unfold pteqb. cbn [fst snd]. intros P. apply andb_true_iff in P as [P1 P2].
    apply E in P1, P2. congruence.
  - intros. congruence.
  - rewrite Forall_forall in F. destruct (F c Hc) as (A & B & a & b & C & D & <-). repeat split; eauto.
Qed.

Local Open Scope R_scope.
Lemma R_neqb_eq (x y : R) : neqb x y = true -> x = y.
Proof. apply Reqb_true. Qed.

(** C21 *)
Lemma implied_mid (p q : pt) : implied p q = mid p q.
Proof. unfold implied, mid, nlit; numRg. f_equal; field. Qed.
Definition splice (s : pen R) (segs : list (list pt)) (e : pt) : pen R :=
  mkPen (p_contours s) e (option_map (fun c => c ++ segs) (p_contour s)).
Lemma qLoop_spline pre : forall cs start s c a1 e,
  p_contour s = Some c ->
  let seg := pre ++ a1 :: cs ++ [e] in
  exists s' start' a, qLoop seg (seq (List.length pre) (List.length cs)) start s = ((s', start'), None) /\
    p_contours s' = p_contours s /\ nth_error seg (List.length seg - 2) = Some a /\
    exists c', p_contour s' = Some c' /\ c' ++ [[start'; a; e]] = c ++ spline start (a1 :: cs) e.
Proof.
  intros cs; revert pre; induction cs as [|a2 cs IH]; intros pre start s c a1 e E seg.
  - exists s, start, a1. simpl. repeat split; auto.
    + unfold seg. rewrite app_length. simpl. replace (List.length pre + 2 - 2)%nat with (List.length pre) by lia.
      rewrite nth_error_app2 by lia. now rewrite Nat.sub_diag.
    + exists c; auto.
  - cbn [List.length seq qLoop].
    assert (E1 : nth_error seg (List.length pre) = Some a1).
    { unfold seg. rewrite nth_error_app2 by lia. now rewrite Nat.sub_diag. }
    assert (E2 : nth_error seg (List.length pre + 1) = Some a2).
    { unfold seg. rewrite nth_error_app2 by lia. now replace (List.length pre + 1 - List.length pre)%nat with 1%nat by lia. }
    rewrite E1, E2, implied_mid. unfold appendSegment. rewrite E.
    set (s1 := mkPen _ _ _).
    destruct (IH (pre ++ [a1]) (mid a1 a2) s1 (c ++ [[start; a1; mid a1 a2]]) a2 e eq_refl) as (s' & start' & a & Q & P & N & c' & Ec & Es).
    rewrite <- app_assoc in Q, N. simpl in Q, N. rewrite app_length in Q. simpl in Q. rewrite Nat.add_1_r in Q.
    exists s', start', a. repeat split; auto. exists c'; split; auto. rewrite Es, <- app_assoc. reflexivity.
Qed.
Theorem qCurveTo_spline (s : pen R) (c : contour R) (cs : list pt) (e : pt) : p_contour s = Some c ->
  qCurveTo s (cs ++ [e]) = (mkPen (p_contours s) e (Some (c ++ spline (p_last s) cs e)), None).
Proof.
  intros E. unfold qCurveTo.
  assert (Hl : forall d, last (p_last s :: cs ++ [e]) d = e).
  { intros d. rewrite app_comm_cons. apply last_last. }
  destruct cs as [|a1 cs].
  - simpl. unfold appendSegment. rewrite E. reflexivity.
  - destruct cs as [|a2 cs].
    + simpl. unfold appendSegment. rewrite E. reflexivity.
    + set (seg := p_last s :: (a1 :: a2 :: cs) ++ [e]) in *.
      assert (L : List.length seg = (List.length cs + 4)%nat).
      { unfold seg. cbn [List.length app]. rewrite app_length. simpl. lia. }
      destruct (Nat.leb_spec (List.length seg) 3); [lia|].
      destruct (qLoop_spline [p_last s] (a2 :: cs) (p_last s) s c a1 e E) as (s' & start' & a & Q & P & N & c' & Ec & Es).
      replace (List.length seg - 3)%nat with (List.length (a2 :: cs)) by (rewrite L; simpl; lia).
      change (seq 1) with (seq (List.length [p_last s])).
      change ([p_last s] ++ a1 :: (a2 :: cs) ++ [e]) with seg in *. rewrite Q, N.
      rewrite (last_nth seg (p_last s)) by (unfold seg; discriminate). rewrite Hl.
      unfold appendSegment. rewrite Ec. cbn [setLast p_contours p_last p_contour]. rewrite Es. f_equal. unfold setLast; cbn. now rewrite P.
Qed.
Theorem qCurveTo_short {T} `{NumOps T} (s : pen T) c (ps : list (point T)) : p_contour s = Some c -> (List.length ps <= 2)%nat ->
  qCurveTo s ps = (mkPen (p_contours s) (last (p_last s :: ps) (p_last s)) (Some (c ++ [p_last s :: ps])), None).
Proof.
  intros E L. unfold qCurveTo. destruct (Nat.leb_spec (List.length (p_last s :: ps)) 3) as [K|K]; [|simpl in K; lia].
  unfold appendSegment. rewrite E. reflexivity.
Qed.
Theorem qCurveTo_unset {T} `{NumOps T} (s : pen T) (ps : list (point T)) : p_contour s = None ->
  qCurveTo s ps = (s, Some AttributeError).
Proof.
  intros E. unfold qCurveTo. set (seg := p_last s :: ps). destruct (Nat.leb_spec (List.length seg) 3) as [K|K].
  - unfold appendSegment. now rewrite E.
  - replace (List.length seg - 3)%nat with (S (List.length seg - 4)) by lia. cbn [seq qLoop].
    destruct (nth_error seg 1) eqn:E1; [|apply nth_error_None in E1; lia].
    destruct (nth_error seg (1 + 1)) eqn:E2; [|apply nth_error_None in E2; lia].
    unfold appendSegment. now rewrite E.
Qed.

(** C22 *)
Lemma component_apply (tr : trans6 R) (p : pt) :
  applyToPoint (componentMatrix tr) p = Ok (aff tr p).
Proof.
  destruct tr as [[[[[xx xy] yx] yy] dx] dy], p as [x y]. unfold componentMatrix, _matrix; numRg.
  rewrite apply_affine. unfold aff; cbn [fst snd]. apply Ok_pair; ring.
Qed.
Lemma mapM_pure {A B} (f : A -> res B) (g : A -> B) l : (forall a, f a = Ok (g a)) -> mapM f l = Ok (map g l).
Proof. intros K. induction l; simpl; auto. now rewrite K, IHl. Qed.
Lemma component_contours (tr : trans6 R) (cs : list (contour R)) :
  (let* t := mkTransform [componentMatrix tr] in applyToContours t cs) = Ok (map (map (map (aff tr))) cs).
Proof.
  unfold mkTransform, concatenateMatrices. cbn [foldM bind]. unfold applyToContours.
  apply mapM_pure. intros c. unfold applyToContour. apply mapM_pure. intros s. unfold applyToSegment. apply mapM_pure.
  apply component_apply.
Qed.
Lemma identity_aff (tr : trans6 R) (p : pt) : isIdentityTransformation tr = true -> aff tr p = p.
Proof.
  destruct tr as [[[[[xx xy] yx] yy] dx] dy], p as [x y]. unfold isIdentityTransformation; numRg.
  rewrite !andb_true_iff, !Reqb_true. intros (((((-> & ->) & ->) & ->) & ->) & ->). unfold aff; cbn [fst snd]. f_equal; ring.
Qed.
Lemma map3_id (tr : trans6 R) (cs : list (contour R)) : (forall p, aff tr p = p) -> map (map (map (aff tr))) cs = cs.
Proof.
  intros K. rewrite <- (map_id cs) at 2. apply map_ext. intros c. rewrite <- (map_id c) at 2. apply map_ext.
  intros s. rewrite <- (map_id s) at 2. apply map_ext. auto.
Qed.
Theorem addComponent_spec (gs : glyphset R) draw (s : pen R) n tr :
  (gs n = None -> addComponent gs draw s n tr = (s, Some KeyError)) /\
  (forall g cp e, gs n = Some g -> draw g = (cp, Some e) -> addComponent gs draw s n tr = (s, Some e)) /\
  (forall g cp, gs n = Some g -> draw g = (cp, None) ->
     addComponent gs draw s n tr =
     (mkPen (p_contours s ++ map (map (map (aff tr))) (p_contours cp)) (p_last s) (p_contour s), None)).
Proof.
  unfold addComponent. repeat split.
  - intros ->; auto.
  - intros g cp e -> ->; auto.
  - intros g cp -> ->. rewrite component_contours. destruct (isIdentityTransformation tr) eqn:I; auto.
    rewrite map3_id by (intros; now apply identity_aff). reflexivity.
Qed.
Lemma aff_comp_spec t1 t2 p : aff (aff_comp t1 t2) p = aff t2 (aff t1 p).
Proof.
  destruct t1 as [[[[[xx xy] yx] yy] dx] dy], t2 as [[[[[xx' xy'] yx'] yy'] dx'] dy'], p as [x y].
  unfold aff_comp, aff; cbn [fst snd]. f_equal; ring.
Qed.
(** A glyph that is one component reference: the transforms compose. *)
Theorem component_nesting (gs : glyphset R) fuel (s : pen R) n1 n2 tr1 tr2 :
  gs n1 = Some [AddComponent n2 tr2] ->
  addComponent gs (drawGlyph gs (S fuel)) s n1 tr1 = addComponent gs (drawGlyph gs fuel) s n2 (aff_comp tr2 tr1).
Proof.
  intros E. unfold addComponent at 1. rewrite E. cbn [drawGlyph runCalls penStep].
  destruct (addComponent_spec gs (drawGlyph gs fuel) newPen n2 tr2) as (A1 & A2 & A3).
  destruct (addComponent_spec gs (drawGlyph gs fuel) s n2 (aff_comp tr2 tr1)) as (B1 & B2 & B3).
  destruct (gs n2) as [g|] eqn:G.
  - destruct (drawGlyph gs fuel g) as [cp [e|]] eqn:D.
    + rewrite (A2 _ _ _ eq_refl D), (B2 _ _ _ eq_refl D). reflexivity.
    + rewrite (A3 _ _ eq_refl D), (B3 _ _ eq_refl D). cbn [p_contours newPen app].
      rewrite component_contours.
      assert (M : map (map (map (aff (aff_comp tr2 tr1)))) (p_contours cp) =
                  map (map (map (aff tr1))) (map (map (map (aff tr2))) (p_contours cp))).
      { rewrite map_map. apply map_ext. intros c. rewrite map_map. apply map_ext. intros sg. rewrite map_map.
        apply map_ext. intros p. apply aff_comp_spec. }
      rewrite M. destruct (isIdentityTransformation tr1) eqn:I; auto.
      rewrite (map3_id tr1) by (intros; now apply identity_aff). reflexivity.
  - rewrite (A1 eq_refl), (B1 eq_refl). reflexivity.
Qed.

(** C23 *)
Definition calls_of_stroke (k : stroke) : pencall R :=
  match k with Line p => LineTo p | Cubic cs e => CurveTo (cs ++ [e]) | Quads cs e => QCurveTo (cs ++ [e]) end.
Definition calls_of_subpath (sp : subpath) : list (pencall R) :=
  MoveTo (fst sp) :: map calls_of_stroke (snd sp) ++ [ClosePath].
Lemma runCalls_app (step : pen R -> pencall R -> outcome) a b s s' : runCalls step a s = (s', None) ->
  runCalls step (a ++ b) s = runCalls step b s'.
Proof.
  revert s; induction a as [|c a IH]; intros s; simpl; [intros E; injection E as ->; auto|].
  destruct (step s c) as [s1 [e|]]; [discriminate|]. apply IH.
Qed.
Lemma step_stroke gs draw (s : pen R) c k : p_contour s = Some c ->
  penStep gs draw s (calls_of_stroke k) =
  (mkPen (p_contours s) (stroke_end k) (Some (c ++ stroke_segments (p_last s) k)), None).
Proof.
  intros E. destruct k as [p | cs e | cs e]; simpl.
  - unfold lineTo, pteqb; numRg. unfold Reqb. destruct p as [x y] eqn:Hp. cbn [fst snd].
    destruct (p_last s) as [lx ly] eqn:Hl. cbn [fst snd].
    destruct (Req_EM_T x lx) as [->|Nx]; cbn [andb].
    + destruct (Req_EM_T y ly) as [->|Ny].
      * rewrite app_nil_r. destruct s as [pc pl po]; simpl in *. now rewrite Hl, E.
      * unfold appendSegment. rewrite E. reflexivity.
    + unfold appendSegment. rewrite E. reflexivity.
  - unfold curveTo. unfold appendSegment. rewrite E. rewrite <- seg_last_error, seg_last_snoc. reflexivity.
  - apply qCurveTo_spline; auto.
Qed.
Lemma run_strokes gs draw ks : forall (s : pen R) c, p_contour s = Some c ->
  exists e, runCalls (penStep gs draw) (map calls_of_stroke ks) s =
  (mkPen (p_contours s) e (Some (c ++ stroke_list (p_last s) ks)), None).
Proof.
  induction ks as [|k ks IH]; intros s c E; simpl.
  - exists (p_last s). rewrite app_nil_r. destruct s as [pc pl po]; simpl in *. now subst.
  - rewrite (step_stroke gs draw s c k E). destruct (IH (mkPen (p_contours s) (stroke_end k) (Some (c ++ stroke_segments (p_last s) k))) _ eq_refl) as (e & ->).
    exists e. cbn [p_contours p_last]. now rewrite app_assoc.
Qed.
Lemma spline_ne s cs e : Forall (fun g => g <> []) (spline s cs e).
Proof. revert s; induction cs as [|c1 [|c2 r] IH]; intros s; simpl; repeat constructor; try discriminate. apply IH. Qed.
Lemma strokes_ne s ks : Forall (fun g => g <> []) (stroke_list s ks).
Proof.
  revert s; induction ks as [|k ks IH]; intros s; simpl; [constructor|]. apply Forall_app; split; auto.
  destruct k; simpl; [|repeat constructor; discriminate|apply spline_ne].
  destruct (Req_EM_T _ _); [destruct (Req_EM_T _ _)|]; repeat constructor; discriminate.
Qed.
Lemma closePath_close (s : pen R) c : p_contour s = Some c -> Forall (fun g => g <> []) c ->
  exists s', closePath s = (s', None) /\ p_contours s' = p_contours s ++ close c.
Proof.
  intros E F. unfold closePath. rewrite E. destruct c as [|[|a x] c].
  - exists s; simpl; rewrite app_nil_r; auto.
  - inversion F; congruence.
  - cbn [contourStart]. set (cc := (a :: x) :: c) in *. assert (N : last_error cc = Some (last cc [])).
    { apply last_error_last. unfold cc; discriminate. }
    unfold contourEnd. rewrite N. unfold close. rewrite (contour_last_eq _ _ N), seg_last_error.
    change (contour_first cc) with (Some a).
    destruct (last cc []) as [|y z] eqn:Ly.
    + exfalso. rewrite Forall_forall in F. apply (F []); auto. rewrite <- Ly.
      destruct (exists_last (l := cc)) as (l' & b & Eb); [unfold cc; discriminate|]. rewrite Eb, last_last. apply in_elt.
    + rewrite (last_error_last (y :: z) y) by discriminate. set (b := last _ _).
      eexists; split; [reflexivity|]. cbn [p_contours]. f_equal. unfold pteqb; numRg. unfold Reqb.
      destruct (Req_EM_T (fst a) (fst b)); cbn [andb]; auto. destruct (Req_EM_T (snd a) (snd b)); auto.
Qed.
Theorem drawing_recorded gs draw (d : list subpath) : forall s : pen R,
  exists s', runCalls (penStep gs draw) (flat_map calls_of_subpath d) s = (s', None) /\
    p_contours s' = p_contours s ++ outline d.
Proof.
  induction d as [|[p ks] d IH]; intros s.
  - exists s; simpl; rewrite app_nil_r; auto.
  - cbn [flat_map]. unfold outline. cbn [flat_map fst snd].
    assert (R : exists s1, runCalls (penStep gs draw) (calls_of_subpath (p, ks)) s = (s1, None) /\
                           p_contours s1 = p_contours s ++ close (stroke_list p ks)).
    { unfold calls_of_subpath. cbn [fst snd runCalls penStep]. unfold moveTo.
      destruct (run_strokes gs draw ks (mkPen (p_contours s) p (Some [])) [] eq_refl) as (e & Rn).
      rewrite (runCalls_app _ _ _ _ _ Rn). cbn [p_contours p_last app runCalls penStep].
      destruct (closePath_close (mkPen (p_contours s) e (Some (stroke_list p ks))) _ eq_refl (strokes_ne p ks)) as (s1 & -> & P).
      eauto. }
    destruct R as (s1 & Rn & P). rewrite (runCalls_app _ _ _ _ _ Rn). destruct (IH s1) as (s' & -> & Q).
    exists s'; split; auto. rewrite Q, P, <- app_assoc. reflexivity.
Qed.
