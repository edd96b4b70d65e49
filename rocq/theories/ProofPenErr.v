(** Proofs about the exceptions of a pen. *)
From Coq Require Import List ZArith Bool String Lia.
From Verif Require Import Py MTransform MSegmentPen SpecPen Inst ProofPen.
Import ListNotations.

Section Err.
  Context {T : Type} `{NumOps T}.
  Notation hist := (@penHistory T _).
  Notation step gs fuel := (penStep gs (drawGlyph gs fuel)).
  Definition moved (cs : list (pencall T)) : Prop := exists p, In (MoveTo p) cs.

  Lemma history_snoc gs fuel cs c : hist gs fuel (cs ++ [c]) = fst (step gs fuel (hist gs fuel cs) c).
  Proof. unfold penHistory. now rewrite fold_left_app. Qed.
  Lemma component_keeps gs draw (s : pen T) n tr : p_contour (fst (addComponent gs draw s n tr)) = p_contour s /\ p_last (fst (addComponent gs draw s n tr)) = p_last s.
  Proof.
    unfold addComponent. destruct (gs n) as [g|]; [|split; reflexivity]. destruct (draw g) as [cp [e|]]; [split; reflexivity|].
    destruct (if isIdentityTransformation tr then _ else _); split; reflexivity.
  Qed.
  Lemma unmoved_step gs fuel (s : pen T) c : p_contour s = None -> (forall p, c <> MoveTo p) ->
    p_contour (fst (step gs fuel s c)) = None /\ p_last (fst (step gs fuel s c)) = p_last s.
  Proof.
    intros E N. destruct c as [p|p|ps|ps| |n tr| | |]; cbn [penStep]; try (split; [exact E | reflexivity]).
    - now elim (N p).
    - unfold lineTo, appendSegment. rewrite E. destruct (pteqb p (p_last s)); split; auto.
    - unfold curveTo, appendSegment. rewrite E. split; auto.
    - rewrite qCurveTo_unset by exact E. split; auto.
    - unfold closePath. rewrite E. split; auto.
    - destruct (component_keeps gs (drawGlyph gs fuel) s n tr) as (A & B). rewrite A, B. split; auto.
  Qed.
  Lemma unmoved gs fuel cs : ~ moved cs -> p_contour (hist gs fuel cs) = None /\ p_last (hist gs fuel cs) = (nofZ 0, nofZ 0).
  Proof.
    induction cs as [|c cs IH] using rev_ind; intros N; [split; reflexivity|].
    destruct IH as (A & B); [intros (p & I); apply N; exists p; apply in_or_app; auto|].
    rewrite history_snoc. rewrite <- B. apply unmoved_step; [exact A|].
    intros p ->. apply N. exists p. apply in_or_app. right. now left.
  Qed.
  Lemma qLoop_set seg : forall is start (s : pen T), p_contour s <> None -> p_contour (fst (fst (qLoop seg is start s))) <> None.
  Proof.
    induction is as [|i is IH]; intros start s E; simpl; [exact E|].
    destruct (nth_error seg i); [|exact E]. destruct (nth_error seg (i + 1)); [|exact E].
    unfold appendSegment. destruct (p_contour s) eqn:P; [apply IH; discriminate | elim (E eq_refl)].
  Qed.
  Lemma moved_step gs fuel (s : pen T) c : p_contour s <> None -> p_contour (fst (step gs fuel s c)) <> None.
  Proof.
    intros E. destruct c as [p|p|ps|ps| |n tr| | |]; cbn [penStep]; try exact E.
    - discriminate.
    - unfold lineTo, appendSegment. destruct (pteqb p (p_last s)); [exact E|]. destruct (p_contour s) eqn:P; [discriminate | elim (E eq_refl)].
    - unfold curveTo, appendSegment. destruct (p_contour s) eqn:P; [|elim (E eq_refl)]. destruct (last_error ps); discriminate.
    - unfold qCurveTo. destruct (Nat.leb _ 3).
      + unfold appendSegment. destruct (p_contour s) eqn:P; [discriminate | elim (E eq_refl)].
      + pose proof (qLoop_set (p_last s :: ps) (seq 1 (List.length (p_last s :: ps) - 3)) (p_last s) s E) as Q.
        destruct (qLoop _ _ _ s) as [[s' st] [e|]]; cbn [fst] in Q |- *; [exact Q|].
        destruct (nth_error _ (_ - 2)); [|exact Q]. destruct (nth_error _ (_ - 1)); [|exact Q].
        unfold appendSegment. destruct (p_contour s') eqn:P; [discriminate | elim (Q eq_refl)].
    - unfold closePath. destruct (p_contour s) as [[|x c]|] eqn:P; [cbn [fst]; rewrite P; discriminate | | elim (E eq_refl)].
      destruct (contourStart _); [|discriminate]. destruct (contourEnd _); discriminate.
    - destruct (component_keeps gs (drawGlyph gs fuel) s n tr) as (A & _). now rewrite A.
  Qed.
  Lemma moved_set gs fuel cs : moved cs -> p_contour (hist gs fuel cs) <> None.
  Proof.
    induction cs as [|c cs IH] using rev_ind; intros (p & I); [destruct I|].
    rewrite history_snoc. apply in_app_or in I. destruct I as [I|[->|[]]].
    - apply moved_step, IH. now exists p.
    - discriminate.
  Qed.

  Theorem before_moveTo gs fuel cs : ~ moved cs -> let s := hist gs fuel cs in
    (forall ps, step gs fuel s (CurveTo ps) = (s, Some AttributeError)) /\ (forall ps, step gs fuel s (QCurveTo ps) = (s, Some AttributeError)) /\
    step gs fuel s ClosePath = (s, Some AttributeError) /\
    forall p, step gs fuel s (LineTo p) = (s, if pteqb p (nofZ 0, nofZ 0) then None else Some AttributeError).
  Proof.
    intros N s. destruct (unmoved gs fuel cs N) as (A & B). fold s in A, B. cbn [penStep].
    split; [intros ps; unfold curveTo, appendSegment; now rewrite A|]. split; [intros ps; now apply qCurveTo_unset|].
    split; [unfold closePath; now rewrite A|]. intros p. unfold lineTo, appendSegment. rewrite A, B. destruct (pteqb p _); reflexivity.
  Qed.
  Theorem after_moveTo gs fuel cs : moved cs -> let s := hist gs fuel cs in
    (forall p, snd (step gs fuel s (LineTo p)) = None) /\ (forall ps, ps <> [] -> snd (step gs fuel s (CurveTo ps)) = None) /\
    (forall ps, snd (step gs fuel s (QCurveTo ps)) = None) /\ snd (step gs fuel s ClosePath) = None /\
    exists c, p_contour s = Some c /\ step gs fuel s (CurveTo []) = (mkPen (p_contours s) (p_last s) (Some (c ++ [[p_last s]])), Some IndexError).
  Proof.
    intros M s. pose proof (moved_set gs fuel cs M) as E. fold s in E. destruct (p_contour s) as [c|] eqn:P; [clear E | elim (E eq_refl)]. cbn [penStep].
    pose proof (pinv_history (fun _ _ => True) (fun _ => I) (fun _ _ _ => I) (fun _ _ _ _ _ _ _ _ => I) gs fuel cs) as PI. fold s in PI.
    split; [|split; [|split; [|split]]].
    - intros p. unfold lineTo, appendSegment. rewrite P. destruct (pteqb _ _); reflexivity.
    - intros ps N. unfold curveTo, appendSegment. rewrite P. rewrite (last_error_last _ (p_last s)) by exact N. reflexivity.
    - intros ps. unfold qCurveTo. destruct (Nat.leb_spec (List.length (p_last s :: ps)) 3) as [L|L]; [unfold appendSegment; now rewrite P|].
      pose proof (qLoop_no_err (p_last s :: ps) (seq 1 (List.length (p_last s :: ps) - 3)) (p_last s) s c P) as D.
      pose proof (qLoop_set (p_last s :: ps) (seq 1 (List.length (p_last s :: ps) - 3)) (p_last s) s ltac:(congruence)) as Q.
      destruct (qLoop _ _ _ s) as [[s' st] oe] eqn:Eq. cbn [fst snd] in *. rewrite D by (intros i Hi; apply in_seq in Hi; lia).
      destruct (nth_error (p_last s :: ps) (List.length (p_last s :: ps) - 2)) eqn:E1; [|apply nth_error_None in E1; lia].
      destruct (nth_error (p_last s :: ps) (List.length (p_last s :: ps) - 1)) eqn:E2; [|apply nth_error_None in E2; lia].
      unfold appendSegment. destruct (p_contour s'); [reflexivity | elim (Q eq_refl)].
    - unfold closePath. rewrite P. destruct c as [|x c]; [reflexivity|].
      destruct (ends_Some (x :: c) (p_last s)) as (a & -> & _ & -> & _); [apply (proj2 PI), P | discriminate | reflexivity].
    - exists c. split; [reflexivity|]. unfold curveTo, appendSegment. now rewrite P.
  Qed.
  Theorem other_calls gs fuel (s : pen T) : (forall p, snd (step gs fuel s (MoveTo p)) = None) /\
    step gs fuel s AddPointCall = (s, Some NotImplementedError) /\ step gs fuel s BeginPath = (s, Some NotImplementedError) /\
    step gs fuel s EndPath = (s, Some NotImplementedError) /\
    forall n tr, gs n = None -> step gs fuel s (AddComponent n tr) = (s, Some KeyError).
  Proof. split; [reflexivity|]. repeat (split; [reflexivity|]). intros n tr E. cbn [penStep]. unfold addComponent. now rewrite E. Qed.
  Theorem raise_keeps gs fuel cs c : c <> CurveTo [] -> let s := hist gs fuel cs in snd (step gs fuel s c) <> None -> fst (step gs fuel s c) = s.
  Proof.
    intros N s R. assert (D : {m | m = p_contour s}) by (now eexists). destruct D as ([k|] & D).
    - assert (M : moved cs -> fst (step gs fuel s c) = s).
      { intros M. destruct (after_moveTo gs fuel cs M) as (A1 & A2 & A3 & A4 & _). fold s in A1, A2, A3, A4.
        destruct c as [p|p|ps|ps| |n tr| | |]; try reflexivity.
        - elim R. reflexivity.
        - elim R. apply A1.
        - elim R. apply A2. intros ->. now apply N.
        - elim R. apply A3.
        - elim R. exact A4.
        - cbn [penStep] in *. unfold addComponent in *. destruct (gs n); [|reflexivity]. destruct (drawGlyph gs fuel g) as [cp [e|]]; [reflexivity|].
          destruct (if isIdentityTransformation tr then _ else _); [now elim R | reflexivity]. }
      apply M. clear M. destruct (existsb (fun c => match c with MoveTo _ => true | _ => false end) cs) eqn:X.
      + apply existsb_exists in X. destruct X as (x & I & X). destruct x; try discriminate. eexists. exact I.
      + exfalso. destruct (unmoved gs fuel cs) as (A & _).
        * intros (p & I). assert (existsb (fun c => match c with MoveTo _ => true | _ => false end) cs = true); [|congruence].
          apply existsb_exists. exists (MoveTo p). auto.
        * fold s in A. congruence.
    - destruct c as [p|p|ps|ps| |n tr| | |]; try reflexivity; cbn [penStep] in *.
      + now elim R.
      + unfold lineTo, appendSegment in *. rewrite <- D in *. destruct (pteqb _ _); reflexivity.
      + unfold curveTo, appendSegment. rewrite <- D. reflexivity.
      + rewrite qCurveTo_unset by auto. reflexivity.
      + unfold closePath. rewrite <- D. reflexivity.
      + unfold addComponent in *. destruct (gs n); [|reflexivity]. destruct (drawGlyph gs fuel g) as [cp [e|]]; [reflexivity|].
        destruct (if isIdentityTransformation tr then _ else _); [now elim R | reflexivity].
  Qed.
End Err.
