(** Proofs for C114: points given as complex numbers. *)
From Coq Require Import List ZArith Bool String Lia.
From Verif Require Import Py MTransform MBounds MBezUtil MPathUtil MPlotter MComplex SpecComplex.
Import ListNotations.

Section Complex.
  Context {T : Type} {N : NumOps T} {Tr : TrigOps T}.

  Lemma stands_xy (p : point T) a : stands p a -> pointXY a = p.
  Proof. now intros []; [|destruct p]. Qed.

  Lemma ends_same (s : list (anypoint T)) (ps : segment T) : Forall2 stands ps s -> endPointsA s = endPoints ps.
  Proof.
    intros F. unfold endPointsA, endPoints. destruct F as [|p a ps s S F]; [reflexivity|].
    change (idx (a :: s) 0) with (Ok a). change (idx (p :: ps) 0) with (Ok p). cbn [bind]. rewrite (stands_xy _ _ S).
    assert (E : match idx_last ps with Ok q => exists b, idx_last s = Ok b /\ stands q b | Err e => idx_last s = Err e /\ s = [] /\ ps = [] end).
    { clear S. unfold idx_last. induction F as [|q b ps1 s1 Sq F1 IH]; [cbn; auto|]. cbn [last_error].
      destruct F1 as [|q' b' ps' s' Sq' F']; [exists b; auto|]. destruct (last_error (q' :: ps')) eqn:E.
      - exact IH.
      - destruct IH as (_ & K & _). discriminate. }
    assert (C : forall A (x : A) l, idx_last (x :: l) = match l with [] => Ok x | _ => idx_last l end)
      by (intros A x [|y l]; reflexivity).
    rewrite !C. destruct F as [|q b ps s Sq F]; [cbn [bind]; now rewrite (stands_xy _ _ S)|].
    destruct (idx_last (q :: ps)) as [z|e].
    - destruct E as (w & -> & Sw). cbn [bind]. now rewrite (stands_xy _ _ Sw).
    - destruct E as (_ & K & _). discriminate.
  Qed.
  Lemma deltas_same (s : list (anypoint T)) (ps : segment T) : Forall2 stands ps s -> getDeltasA s = getDeltas ps.
  Proof. intros F. unfold getDeltasA, getDeltas. now rewrite (ends_same s ps F). Qed.
  Lemma len_same (s : list (anypoint T)) (ps : segment T) : Forall2 stands ps s -> List.length s = List.length ps.
  Proof. induction 1; simpl; congruence. Qed.

  Theorem measures_same (s : list (anypoint T)) (ps : segment T) : Forall2 stands ps s ->
    isVerticalLineA s = isVerticalLine ps /\ isHorizontalLineA s = isHorizontalLine ps /\
    isDiagonalLineA s = isDiagonalLine ps /\ seglengthA s = seglength ps /\ slopeA s = slope ps /\
    slopeAngleA s = slopeAngle ps /\ rawSlopeAngleA s = rawSlopeAngle ps /\ midpointA s = midpoint ps.
  Proof.
    intros F. unfold isVerticalLineA, isHorizontalLineA, isDiagonalLineA, seglengthA, slopeA, slopeAngleA, rawSlopeAngleA, midpointA,
      isVerticalLine, isHorizontalLine, isDiagonalLine, seglength, slope, slopeAngle, rawSlopeAngle, midpoint.
    rewrite (deltas_same s ps F), (ends_same s ps F), (len_same s ps F). repeat split; reflexivity.
  Qed.

  Lemma pairs_stands s (ps : list (point T)) : all_pairs s ps -> Forall2 stands ps s.
  Proof. induction 1; constructor; auto. constructor. Qed.
  Lemma pairs_map s (ps : list (point T)) : all_pairs s ps -> s = map APair ps.
  Proof. induction 1; simpl; congruence. Qed.
  Lemma complex_map s (ps : list (point T)) : all_complex s ps -> s = map (fun p => AComplex (fst p) (snd p)) ps.
  Proof. induction 1; simpl; congruence. Qed.

  Lemma bounds_pairs ps : BoundsRectangleA (map APair ps) = Ok (BoundsRectangle ps).
  Proof.
    unfold BoundsRectangleA, BoundsRectangle. generalize (emptyRect (T := T)). induction ps as [|p ps IH]; intros r; [reflexivity|].
    simpl. apply IH.
  Qed.
  Lemma idx_map {A B} (f : A -> B) l i : idx (map f l) i = let* a := idx l i in Ok (f a).
  Proof. unfold idx. rewrite nth_error_map. now destruct (nth_error l i). Qed.
  Lemma lli_pairs l1 l2 : lliA (map APair l1) (map APair l2) = lli l1 l2.
  Proof.
    unfold lliA, lli. rewrite !idx_map. destruct (idx l1 0); [|reflexivity]. cbn [bind]. destruct (idx l1 1); [|reflexivity]. cbn [bind].
    destruct (idx l2 0); [|reflexivity]. cbn [bind]. now destruct (idx l2 1).
  Qed.
  Theorem pairs_same s1 l1 s2 l2 x y t : all_pairs s1 l1 -> all_pairs s2 l2 ->
    BoundsRectangleA s1 = Ok (BoundsRectangle l1) /\ intersectionPointA s1 s2 = intersectionPoint l1 l2 /\
    pointOnLineA (APair (x, y)) s1 = pointOnLine (x, y) l1 /\ applyToSegmentA t s1 = applyToSegment t l1.
  Proof.
    intros A1 A2. pose proof (pairs_stands _ _ A1) as F1. apply pairs_map in A1, A2. subst s1 s2. split; [apply bounds_pairs|]. split; [|split].
    - unfold intersectionPointA, intersectionPoint. rewrite lli_pairs, !bounds_pairs. reflexivity.
    - unfold pointOnLineA, pointOnLine. rewrite bounds_pairs. cbn [bind enclosesPointA unpackPoint].
      destruct (enclosesPoint _ _); [|reflexivity]. unfold enclosesPointA, unpackPoint. cbn [bind].
      destruct (measures_same _ _ F1) as (_ & _ & _ & _ & -> & _). destruct (slope l1); [|reflexivity]. cbn [bind]. rewrite idx_map.
      destruct (idx l1 0) as [a0|]; [|reflexivity]. cbn [bind].
      destruct (measures_same [APair a0; APair (x, y)] [a0; (x, y)]) as (_ & _ & _ & _ & -> & _); [|reflexivity].
      repeat constructor.
    - unfold applyToSegmentA, applyToSegment. induction l1 as [|p l IH]; [reflexivity|]. cbn [map mapM]. unfold applyToPointA at 1.
      cbn [unpackPoint bind]. destruct (applyToPoint t p); [|reflexivity]. cbn [bind]. rewrite IH; [reflexivity|]. now inversion F1.
  Qed.

  Lemma bounds_complex s : has_complex s -> BoundsRectangleA s = Err TypeError.
  Proof.
    intros (x & y & I). unfold BoundsRectangleA. generalize (emptyRect (T := T)). induction s as [|p s IH]; [destruct I|].
    intros r. destruct I as [->|I]; [reflexivity|]. destruct p as [p|u v]; [|reflexivity]. cbn [foldM unpackPoint bind]. now apply IH.
  Qed.
  Lemma bounds_total s : (exists r, BoundsRectangleA s = Ok r) \/ BoundsRectangleA s = Err TypeError.
  Proof.
    unfold BoundsRectangleA. generalize (emptyRect (T := T)). induction s as [|p s IH]; intros r; [left; eexists; reflexivity|].
    destruct p as [p|u v]; [|right; reflexivity]. cbn [foldM unpackPoint bind]. apply IH.
  Qed.
  Theorem complex_rejected s x y t :
    (has_complex s -> BoundsRectangleA s = Err TypeError /\ (forall c, In s c -> fromContourA c = Err TypeError) /\
       (forall p, pointOnLineA p s = Err TypeError) /\ (forall q, applyToSegmentA t s <> Ok q)) /\
    (forall line, pointOnLineA (AComplex x y) line = Err TypeError) /\
    applyToPointA t (AComplex x y) = Err TypeError /\
    (forall a b c d, has_complex [a; b; c; d] -> intersectionPointA [a; b] [c; d] = Err TypeError).
  Proof.
    split; [|split; [|split]].
    - intros C. split; [now apply bounds_complex|]. split; [|split].
      + intros c I. unfold fromContourA. generalize (BoundsRectangle (T := T) []). induction c as [|s' c IH]; [destruct I|]. intros r.
        cbn [foldM]. destruct I as [->|I]; [now rewrite (bounds_complex s C)|]. destruct (bounds_total s') as [(r' & ->)| ->]; [|reflexivity].
        cbn [bind]. now apply IH.
      + intros p. unfold pointOnLineA. now rewrite (bounds_complex s C).
      + destruct C as (u & v & I). unfold applyToSegmentA. induction s as [|p s IH]; [destruct I|]. intros q. cbn [mapM].
        destruct I as [->|I]; [discriminate|]. destruct (applyToPointA t p); [|discriminate]. cbn [bind].
        destruct (mapM (applyToPointA t) s) eqn:E; [|discriminate]. now exfalso; apply (IH I a0).
    - intros line. unfold pointOnLineA. destruct (bounds_total line) as [(r & ->)| ->]; reflexivity.
    - reflexivity.
    - intros a b c d (u & v & I). unfold intersectionPointA, lliA, idx. cbn [nth_error bind].
      destruct a; [|reflexivity]. destruct b; [|reflexivity]. destruct c; [|reflexivity]. destruct d; [|reflexivity].
      exfalso. simpl in I. intuition discriminate.
  Qed.

  Section Circles.
    Context {V : Type} (truthy : V -> bool).
    Lemma circles_complex (ps : list (point T)) radius colors fill : forall s i,
      circlesA (V := V) truthy true s i (map (fun p => AComplex (fst p) (snd p)) ps) radius colors fill =
      (circles truthy s i ps radius colors fill, None).
    Proof. induction ps as [|[x y] ps IH]; intros s i; [reflexivity|]. cbn [map circlesA circles readXY fst snd]. apply IH. Qed.
    Lemma circles_pairs (ps : list (point T)) radius colors fill : forall s i,
      circlesA (V := V) truthy false s i (map APair ps) radius colors fill = (circles truthy s i ps radius colors fill, None).
    Proof. induction ps as [|[x y] ps IH]; intros s i; [reflexivity|]. cbn [map circlesA circles readXY unpackPoint]. apply IH. Qed.
    Theorem circles_same (s : plotter) l (ps : list (point T)) radius (colors : list V) fill : all_pairs l ps \/ all_complex l ps ->
      drawPointsAsCirclesA truthy s l radius colors fill = drawPointsAsCircles truthy s ps radius colors fill.
    Proof.
      intros [A|A]; [apply pairs_map in A | apply complex_map in A]; subst l; destruct ps as [|p ps]; try reflexivity;
        unfold drawPointsAsCirclesA, drawPointsAsCircles; cbn [map isComplex].
      - change (APair p :: map APair ps) with (map APair (p :: ps)). destruct colors as [|c colors]; [apply circles_pairs|].
        rewrite !circles_pairs. reflexivity.
      - change (AComplex (fst p) (snd p) :: map (fun p => AComplex (fst p) (snd p)) ps) with (map (fun p : point T => AComplex (fst p) (snd p)) (p :: ps)).
        destruct colors as [|c colors]; [apply circles_complex|]. rewrite !circles_complex. reflexivity.
    Qed.
    Lemma circlesA_app k (l1 l2 : list (anypoint T)) radius (colors : list V) fill : forall s i,
      circlesA truthy k s i (l1 ++ l2) radius colors fill =
      match circlesA truthy k s i l1 radius colors fill with
      | (s', None) => circlesA truthy k s' (i + List.length l1) l2 radius colors fill
      | r => r
      end.
    Proof.
      induction l1 as [|p l1 IH]; intros s i; [simpl; now rewrite Nat.add_0_r|]. cbn [app circlesA].
      destruct (readXY k p); [|reflexivity]. rewrite IH. destruct (circlesA _ _ _ _ l1 _ _ _) as [s' [e|]]; [reflexivity|].
      f_equal. simpl. lia.
    Qed.
    (** Mixed lists: the prefix of the first point's kind is drawn, then the exception. *)
    Lemma circles_stack (ps : list (point T)) radius (colors : list V) fill : forall s i,
      pl_strokeStack (circles truthy s i ps radius colors fill) = pl_strokeStack s /\
      exists new, pl_content (circles truthy s i ps radius colors fill) = pl_content s ++ new /\
        map (fun it => match it with ICircle p _ _ _ _ => Some p | _ => None end) new = map Some ps.
    Proof.
      induction ps as [|p ps IH]; intros s i; [split; [reflexivity|]; exists []; now rewrite app_nil_r|]. cbn [circles].
      set (s1 := match nth_error colors _ with Some _ => _ | None => _ end).
      assert (S1 : pl_strokeStack s1 = pl_strokeStack s /\ pl_content s1 = pl_content s).
      { unfold s1. destruct (nth_error colors _) as [c|]; [|auto]. destruct (truthy c); [|auto]. destruct fill; auto. }
      destruct S1 as [S1 C1]. destruct (IH (emit s1 (ICircle p radius fill (pl_stroke s1) (pl_fill s1))) (S i)) as [A (new & B & M)].
      split; [rewrite A; exact S1|]. exists (ICircle p radius fill (pl_stroke s1) (pl_fill s1) :: new). split.
      - rewrite B. cbn [emit pl_content]. rewrite C1, <- app_assoc. reflexivity.
      - cbn [map]. now rewrite M.
    Qed.
    Theorem circles_mixed (s : plotter) l1 a l2 (ps : list (point T)) radius (colors : list V) fill : ps <> [] ->
      (all_pairs l1 ps /\ (exists x y, a = AComplex x y) \/ all_complex l1 ps /\ (exists p, a = APair p)) ->
      exists s' new, drawPointsAsCirclesA truthy s (l1 ++ a :: l2) radius colors fill =
          (s', Some (match a with AComplex _ _ => TypeError | APair _ => AttributeError end)) /\
        pl_content s' = pl_content s ++ new /\
        map (fun it => match it with ICircle p _ _ _ _ => Some p | _ => None end) new = map Some ps /\
        pl_strokeStack s' = (if fill then [] else match colors with [] => [] | _ => [pl_stroke s] end) ++ pl_strokeStack s.
    Proof.
      intros Np Al.
      assert (K : exists k, (forall s i, circlesA truthy k s i l1 radius colors fill = (circles truthy s i ps radius colors fill, None)) /\
        readXY k a = Err (match a with AComplex _ _ => TypeError | APair _ => AttributeError end) /\
        exists p r, l1 = p :: r /\ isComplex p = k).
      { destruct Al as [[A (x & y & ->)]|[A (p & ->)]].
        - apply pairs_map in A. subst l1. exists false. split; [intros; apply circles_pairs|]. split; [reflexivity|].
          destruct ps as [|p ps]; [congruence|]. exists (APair p), (map APair ps). auto.
        - apply complex_map in A. subst l1. exists true. split; [intros; apply circles_complex|]. split; [reflexivity|].
          destruct ps as [|q ps]; [congruence|]. eexists _, _. split; reflexivity. }
      destruct K as (k & Ck & Rk & p & r & El & Ep).
      assert (D : forall s i, circlesA truthy k s i (l1 ++ a :: l2) radius colors fill =
        (circles truthy s i ps radius colors fill, Some (match a with AComplex _ _ => TypeError | APair _ => AttributeError end))).
      { intros s0 i. rewrite circlesA_app, Ck. cbn [circlesA]. now rewrite Rk. }
      unfold drawPointsAsCirclesA. rewrite El in *. cbn [app] in *. rewrite Ep.
      destruct colors as [|c colors]; [|destruct fill].
      - destruct (circles_stack ps radius (@nil V) fill s 0) as [St (new & B & M)]. rewrite D. eexists _, new. split; [reflexivity|].
        split; [exact B|]. split; [exact M|]. rewrite St. now destruct fill.
      - destruct (circles_stack ps radius (c :: colors) true (withFillColor s c) 0) as [St (new & B & M)]. rewrite D. eexists _, new. split; [reflexivity|].
        split; [exact B|]. split; [exact M|]. exact St.
      - destruct (circles_stack ps radius (c :: colors) false (pushStroke truthy s None (Some c) None None) 0) as [St (new & B & M)]. rewrite D.
        eexists _, new. split; [reflexivity|]. split; [exact B|]. split; [exact M|]. exact St.
    Qed.
  End Circles.
End Complex.
