(** Whole drawings: pen calls under an affine map, contours moved and resized. *)
From Coq Require Import List ZArith Bool Reals Lra Lia.
From Verif Require Import Py Inst SpecGeom SpecBezier SpecOrder SpecBounds SpecCurve SpecPen SpecMove SpecWhole
  MTransform MBounds MBezUtil MPathUtil MBezier MSegmentPen MContour ProofBounds ProofBezier ProofBezier2 ProofBezier3 ProofBBox ProofCurve ProofInter ProofReduce ProofPen ProofMove ProofMove2.
Import ListNotations.
Local Open Scope R_scope.

(** ** Pen calls *)
Section Pen.
  Context (f : pt -> pt) (Inj : forall p q, pteqb (f p) (f q) = pteqb p q) (Half : forall p q, implied (f p) (f q) = f (implied p q)).
  Definition carried (s s' : pen R) : Prop := p_contours s' = map (map (map f)) (p_contours s) /\
    match p_contour s with None => p_contour s' = None | Some c => p_contour s' = Some (map (map f) c) /\ p_last s' = f (p_last s) end.
  Definition carried_out (o o' : pen R * option exn) : Prop := carried (fst o) (fst o') /\ snd o' = snd o.
  Lemma carried_mk cs p c : carried (mkPen cs p (Some c)) (mkPen (map (map (map f)) cs) (f p) (Some (map (map f) c))).
  Proof. split; cbn [p_contours p_contour p_last]; auto. Qed.
  Lemma append_at (cs : list (contour R)) p c seg : appendSegment (mkPen cs p (Some c)) seg = (mkPen cs p (Some (c ++ [seg])), None).
  Proof. reflexivity. Qed.
  Lemma carried_some s s' c : carried s s' -> p_contour s = Some c ->
    s = mkPen (p_contours s) (p_last s) (Some c) /\ s' = mkPen (map (map (map f)) (p_contours s)) (f (p_last s)) (Some (map (map f) c)).
  Proof.
    intros [A B] E. rewrite E in B. destruct B as [B C]. split; [rewrite <- E; now destruct s|]. rewrite <- A, <- B, <- C. now destruct s'.
  Qed.
  Lemma map_snoc {A B} (g : A -> B) l x : map g l ++ [g x] = map g (l ++ [x]).
  Proof. now rewrite map_app. Qed.
  Lemma qLoop_at seg : forall is start cs p c,
    match qLoop seg is start (mkPen cs p (Some c)) with
    | ((s, st), e) => exists c', s = mkPen cs p (Some c') /\
        qLoop (map f seg) is (f start) (mkPen (map (map (map f)) cs) (f p) (Some (map (map f) c))) = ((mkPen (map (map (map f)) cs) (f p) (Some (map (map f) c')), f st), e)
    end.
  Proof.
    induction is as [|i is IH]; intros start cs p c; cbn [qLoop]; [eexists; split; reflexivity|]. rewrite !nth_error_map.
    destruct (nth_error seg i) as [a|]; cbn [option_map]; [|eexists; split; reflexivity]. destruct (nth_error seg (i + 1)) as [b|]; cbn [option_map]; [|eexists; split; reflexivity].
    rewrite !append_at, Half. change [f start; f a; f (implied a b)] with (map f [start; a; implied a b]). rewrite map_snoc. apply IH.
  Qed.
  Lemma last_at (l : list pt) d : last (map f l) (f d) = f (last l d).
  Proof. induction l as [|a [|b l] IH]; [reflexivity..|]. exact IH. Qed.
  Lemma last_error_at {A B} (g : A -> B) l : last_error (map g l) = option_map g (last_error l).
  Proof. induction l as [|a [|b l] IH]; [reflexivity..|]. exact IH. Qed.
  Lemma step_at gs draw draw' s s' c : ~ refers c -> carried s s' -> p_contour s <> None ->
    carried_out (penStep gs draw s c) (penStep gs draw' s' (call_at f c)) /\ p_contour (fst (penStep gs draw s c)) <> None.
  Proof.
    intros NR C N. destruct (p_contour s) as [cc|] eqn:E; [clear N|now destruct N]. destruct (carried_some s s' cc C E) as [Es Es']. clear C E.
    generalize dependent (p_contours s). generalize (p_last s). intros p cs -> ->.
    destruct c as [q|q|qs|qs| |n tr| | |]; cbn [penStep call_at]; try (now destruct NR); try (split; [split; [apply carried_mk|reflexivity]|cbn [fst snd p_contour]; discriminate]).
    - unfold lineTo. cbn [p_last]. rewrite Inj. destruct (pteqb q p); [split; [split; [apply carried_mk|reflexivity]|cbn [fst snd p_contour]; discriminate]|].
      rewrite !append_at. unfold setLast. cbn [p_contours p_contour fst snd]. change [f p; f q] with (map f [p; q]). rewrite map_snoc. split; [split; [apply carried_mk|reflexivity]|cbn [fst snd p_contour]; discriminate].
    - unfold curveTo. cbn [p_last]. rewrite !append_at. change (f p :: map f qs) with (map f (p :: qs)). rewrite map_snoc, last_error_at.
      destruct (last_error qs) as [e|]; cbn [option_map]; unfold setLast; cbn [p_contours p_contour fst snd]; (split; [split; [apply carried_mk|reflexivity]|cbn [fst snd p_contour]; discriminate]).
    - unfold qCurveTo. cbn [p_last]. change (f p :: map f qs) with (map f (p :: qs)). rewrite map_length. destruct (Nat.leb (length (p :: qs)) 3).
      + rewrite !append_at. rewrite map_snoc, last_at. unfold setLast. cbn [p_contours p_contour fst snd]. split; [split; [apply carried_mk|reflexivity]|cbn [fst snd p_contour]; discriminate].
      + pose proof (qLoop_at (p :: qs) (seq 1 (length (p :: qs) - 3)) p cs p cc) as Q. destruct (qLoop (p :: qs) _ p _) as [[s st] e]. destruct Q as (c' & -> & ->).
        destruct e as [e|]; [split; [split; [apply carried_mk|reflexivity]|cbn [fst snd p_contour]; discriminate]|]. rewrite !nth_error_map.
        destruct (nth_error (p :: qs) (length (p :: qs) - 2)) as [a|]; cbn [option_map]; [|split; [split; [apply carried_mk|reflexivity]|cbn [fst snd p_contour]; discriminate]].
        destruct (nth_error (p :: qs) (length (p :: qs) - 1)) as [b|]; cbn [option_map]; [|split; [split; [apply carried_mk|reflexivity]|cbn [fst snd p_contour]; discriminate]].
        rewrite !append_at. change [f st; f a; f b] with (map f [st; a; b]). rewrite map_snoc, last_at. unfold setLast. cbn [p_contours p_contour fst snd]. split; [split; [apply carried_mk|reflexivity]|cbn [fst snd p_contour]; discriminate].
    - unfold closePath. cbn [p_contour p_contours p_last]. destruct cc as [|g cc]; cbn [map]; [split; [split; [apply (carried_mk cs p [])|reflexivity]|cbn [fst snd p_contour]; discriminate]|].
      set (c := g :: cc). change (map f g :: map (map f) cc) with (map (map f) c).
      assert (S : contourStart (map (map f) c) = option_map f (contourStart c)) by (unfold c; destruct g; reflexivity).
      assert (L : contourEnd (map (map f) c) = option_map f (contourEnd c)).
      { unfold contourEnd. rewrite last_error_at. destruct (last_error c) as [l|]; cbn [option_map]; [apply last_error_at|reflexivity]. }
      rewrite S, L. destruct (contourStart c) as [a|], (contourEnd c) as [b|]; cbn [option_map fst snd];
        try (rewrite map_snoc; split; [split; [apply carried_mk|reflexivity]|cbn [fst snd p_contour]; discriminate]).
      rewrite Inj. change [[f b; f a]] with [map f [b; a]]. replace (if pteqb a b then map (map f) c else map (map f) c ++ [map f [b; a]]) with (map (map f) (if pteqb a b then c else c ++ [[b; a]]))
        by (destruct (pteqb a b); [reflexivity|now rewrite map_app]).
      rewrite map_snoc. split; [split; [apply (carried_mk _ _ [])|reflexivity]|cbn [fst snd p_contour]; discriminate].
  Qed.
  (** Before the first moveTo nothing is recorded. *)
  Lemma step_unset gs draw s c : ~ refers c -> p_contour s = None -> (exists q, c = MoveTo q) \/ fst (penStep gs draw s c) = s.
  Proof.
    intros NR E. destruct c as [q|q|qs|qs| |n tr| | |]; cbn [penStep]; try (now destruct NR); [left; eauto|right..]; try reflexivity.
    - unfold lineTo. destruct (pteqb q (p_last s)); [reflexivity|]. unfold appendSegment. now rewrite E.
    - unfold curveTo, appendSegment. now rewrite E.
    - now rewrite qCurveTo_unset.
    - unfold closePath. now rewrite E.
  Qed.
  Lemma history_at gs fuel gs' fuel' : forall cs s s', (forall c, In c cs -> ~ refers c) -> carried s s' ->
    carried (fold_left (fun s c => fst (penStep gs (drawGlyph gs fuel) s c)) cs s) (fold_left (fun s c => fst (penStep gs' (drawGlyph gs' fuel') s c)) (map (call_at f) cs) s').
  Proof.
    induction cs as [|c cs IH]; intros s s' NR C; cbn [fold_left map]; [exact C|]. apply IH; [intros x Hx; apply NR; now right|].
    specialize (NR c (or_introl eq_refl)). destruct (p_contour s) as [cc|] eqn:E.
    - destruct (step_at gs (drawGlyph gs fuel) (drawGlyph gs' fuel') s s' c NR C) as [[X _] _]; [now rewrite E|].
      assert (Y : penStep gs' (drawGlyph gs' fuel') s' (call_at f c) = penStep gs (drawGlyph gs' fuel') s' (call_at f c)) by (destruct c; try reflexivity; now destruct NR).
      now rewrite Y.
    - destruct C as [C1 C2]. rewrite E in C2. destruct (step_unset gs (drawGlyph gs fuel) s c NR E) as [(q & ->)|U].
      + cbn [penStep call_at]. split; cbn [moveTo fst p_contours p_contour p_last]; auto.
      + rewrite U. assert (NR' : ~ refers (call_at f c)) by (now destruct c). destruct (step_unset gs' (drawGlyph gs' fuel') s' (call_at f c) NR' C2) as [(q & Q)|U'].
        * destruct c; try discriminate. cbn [penStep moveTo fst] in U. rewrite <- U in E. discriminate.
        * rewrite U'. split; [exact C1|]. now rewrite E.
  Qed.
  Lemma run_at gs draw gs' draw' : forall cs s s', (forall c, In c cs -> ~ refers c) -> carried s s' -> p_contour s <> None ->
    carried_out (runCalls (penStep gs draw) cs s) (runCalls (penStep gs' draw') (map (call_at f) cs) s').
  Proof.
    induction cs as [|c cs IH]; intros s s' NR C N; cbn [runCalls map]; [split; [exact C|reflexivity]|].
    assert (NRc : ~ refers c) by (apply NR; now left). destruct (step_at gs draw draw' s s' c NRc C N) as [[X Y] Z].
    assert (W : penStep gs' draw' s' (call_at f c) = penStep gs draw' s' (call_at f c)) by (destruct c; try reflexivity; now destruct NRc).
    rewrite W. destruct (penStep gs draw s c) as [t e], (penStep gs draw' s' (call_at f c)) as [t' e']. cbn [fst snd] in *. subst e'.
    destruct e as [e|]; [split; [exact X|reflexivity]|]. apply IH; auto. intros x Hx. apply NR. now right.
  Qed.
End Pen.
Section Affine.
  Context (tr : trans6 R).
  Lemma aff_inj p q : area_factor tr <> 0 -> pteqb (aff tr p) (aff tr q) = pteqb p q.
  Proof.
    intros D. destruct (pteqb p q) eqn:E; [apply pteqb_R in E; subst; now apply pteqb_R|]. destruct (pteqb (aff tr p) (aff tr q)) eqn:F; [|reflexivity].
    apply pteqb_R in F. rewrite <- E. symmetry. apply pteqb_R. destruct tr as [[[[[xx xy] yx] yy] dx] dy], p as [x y], q as [x' y']. unfold aff, area_factor in *. cbn [fst snd] in *.
    injection F as F G. 
    assert (F' : xx * (x - x') + yx * (y - y') = 0) by lra. assert (G' : xy * (x - x') + yy * (y - y') = 0) by lra. clear F G.
    f_equal; apply (Rmult_eq_reg_l (xx * yy - xy * yx)); auto.
    - replace ((xx * yy - xy * yx) * x) with ((xx * yy - xy * yx) * x' + yy * (xx * (x - x') + yx * (y - y')) - yx * (xy * (x - x') + yy * (y - y'))) by ring. rewrite F', G'. ring.
    - replace ((xx * yy - xy * yx) * y) with ((xx * yy - xy * yx) * y' - xy * (xx * (x - x') + yx * (y - y')) + xx * (xy * (x - x') + yy * (y - y'))) by ring. rewrite F', G'. ring.
  Qed.
  Lemma aff_half p q : implied (aff tr p) (aff tr q) = aff tr (implied p q).
  Proof.
    rewrite !implied_mid. destruct tr as [[[[[xx xy] yx] yy] dx] dy], p as [x y], q as [x' y']. unfold aff, mid. cbn [fst snd]. f_equal; field.
  Qed.
  Theorem drawn_transformed gs fuel gs' fuel' (cs : list (pencall R)) : area_factor tr <> 0 -> (forall c, In c cs -> ~ refers c) ->
    p_contours (penHistory gs' fuel' (map (call_at (aff tr)) cs)) = map (map (map (aff tr))) (p_contours (penHistory gs fuel cs)).
  Proof.
    intros D NR. apply (history_at (aff tr) (fun p q => aff_inj p q D) aff_half gs fuel gs' fuel' cs newPen newPen NR). split; reflexivity.
  Qed.
  Lemma drawn_run gs fuel q cs : area_factor tr <> 0 -> (forall c, In c cs -> ~ refers c) ->
    carried_out (aff tr) (drawGlyph gs (S fuel) (MoveTo q :: cs)) (drawGlyph gs (S fuel) (map (call_at (aff tr)) (MoveTo q :: cs))).
  Proof.
    intros D NR. cbn [drawGlyph map call_at runCalls penStep moveTo]. apply (run_at (aff tr) (fun p q => aff_inj p q D) aff_half); auto; [|discriminate]. split; cbn; auto.
  Qed.
  Theorem component_is_drawing gs fuel (s : pen R) n q cs : area_factor tr <> 0 -> gs n = Some (MoveTo q :: cs) -> (forall c, In c cs -> ~ refers c) ->
    addComponent gs (drawGlyph gs (S fuel)) s n tr =
    match drawGlyph gs (S fuel) (map (call_at (aff tr)) (MoveTo q :: cs)) with
    | (t, None) => (mkPen (p_contours s ++ p_contours t) (p_last s) (p_contour s), None)
    | (_, Some e) => (s, Some e)
    end.
  Proof.
    intros D E NR. destruct (drawn_run gs fuel q cs D NR) as [[C _] X]. destruct (addComponent_spec gs (drawGlyph gs (S fuel)) s n tr) as (_ & A & B).
    destruct (drawGlyph gs (S fuel) (MoveTo q :: cs)) as [t e] eqn:Y. destruct (drawGlyph gs (S fuel) (map _ _)) as [t' e']. cbn [fst snd] in *. subst e'.
    destruct e as [e|]; [now rewrite (A _ _ _ E Y)|]. rewrite (B _ _ E Y). now rewrite C.
  Qed.
End Affine.

Lemma flat_differs : let tr := (0, 0, 0, 1, 0, 0) in let gs : glyphset R := fun _ => None in let cs := [MoveTo (0, 0); LineTo (4, 0); ClosePath] in
  p_contours (penHistory gs 1 (map (call_at (aff tr)) cs)) <> map (map (map (aff tr))) (p_contours (penHistory gs 1 cs)).
Proof.
  assert (N : pteqb (4, 0) (0, 0) = false) by (destruct (pteqb (4, 0) (0, 0)) eqn:E; [apply pteqb_R in E; injection E; intros; lra|reflexivity]).
  assert (Y : pteqb (aff (0, 0, 0, 1, 0, 0) (4, 0)) (aff (0, 0, 0, 1, 0, 0) (0, 0)) = true) by (apply pteqb_R; unfold aff; cbn [fst snd]; f_equal; lra).
  cbv zeta. unfold penHistory, newPen. cbn [map call_at fold_left penStep moveTo fst p_contours p_contour p_last]. unfold lineTo. cbn [p_last]. rewrite N, Y.
  cbn. intros E. apply (f_equal (map (@length _))) in E. cbn in E. discriminate.
Qed.
(** ** Contours *)
Section Contours.
  Context (rnd : R -> R).
  #[local] Hint Extern 0 (TrigOps R) => exact (RTrig rnd) : typeclass_instances.
  Context (k : R) (v : R * R) (K : 0 < k).
  Let mv : pt -> pt := placed k v.
  Let mvb : bezier R -> bezier R := placed_curve k v.
  (** Points that fit before and after. *)
  Definition fits (p : pt) : Prop := (Rabs (fst p) <= 32768 /\ Rabs (snd p) <= 32768) /\ (Rabs (fst (mv p)) <= 32768 /\ Rabs (snd (mv p)) <= 32768).
  Definition within (r : rect R) : Prop := -32768 <= left r /\ left r <= right r /\ right r <= 32768 /\ -32768 <= bottom r /\ bottom r <= top r /\ top r <= 32768.
  Lemma pmin_R (a b : R) : pmin a b = Rmin a b.
  Proof. unfold pmin, Rmin. numRg. destruct (Rltb_spec b a), (Rle_dec a b); lra. Qed.
  Lemma pmax_R (a b : R) : pmax a b = Rmax a b.
  Proof. unfold pmax, Rmax. numRg. destruct (Rltb_spec a b), (Rle_dec a b); lra. Qed.
  Definition join (a b : rect R) : rect R := mkRect (Rmin (left a) (left b)) (Rmax (right a) (right b)) (Rmax (top a) (top b)) (Rmin (bottom a) (bottom b)).
  Lemma box2 (x0 x1 y0 y1 : R) : -32768 <= x0 -> x0 <= x1 -> x1 <= 32768 -> -32768 <= y0 -> y0 <= y1 -> y1 <= 32768 ->
    BoundsRectangle [(x0, y0); (x1, y1)] = mkRect x0 x1 y1 y0.
  Proof.
    intros. rewrite BR_two. f_equal.
    - rewrite (Rmin_right 32768) by lra. apply Rmin_left. lra.
    - rewrite (Rmax_right (-32768)) by lra. apply Rmax_right. lra.
    - rewrite (Rmax_right (-32768)) by lra. apply Rmax_right. lra.
    - rewrite (Rmin_right 32768) by lra. apply Rmin_left. lra.
  Qed.
  Lemma union_join a b : within a -> within b -> union a b = join a b /\ within (join a b).
  Proof.
    intros (A1 & A2 & A3 & A4 & A5 & A6) (B1 & B2 & B3 & B4 & B5 & B6).
    assert (W : within (join a b)).
    { unfold within, join. cbn [left right top bottom].
      pose proof (Rmin_glb _ _ _ A1 B1). pose proof (Rmin_glb _ _ _ A4 B4). pose proof (Rmax_lub _ _ _ A3 B3). pose proof (Rmax_lub _ _ _ A6 B6).
      pose proof (Rmin_l (left a) (left b)). pose proof (Rmax_l (right a) (right b)). pose proof (Rmin_l (bottom a) (bottom b)). pose proof (Rmax_l (top a) (top b)). lra. }
    split; [|exact W]. unfold union. rewrite !pmin_R, !pmax_R. unfold within, join in W. cbn [left right top bottom] in W. apply box2; lra.
  Qed.
  Lemma union_first b : within b -> union (BoundsRectangle []) b = b.
  Proof.
    intros (B1 & B2 & B3 & B4 & B5 & B6). unfold union. rewrite !pmin_R, !pmax_R.
    change (left (BoundsRectangle [])) with (IZR 32768). change (right (BoundsRectangle [])) with (IZR (-32768)).
    change (top (BoundsRectangle [])) with (IZR (-32768)). change (bottom (BoundsRectangle [])) with (IZR 32768).
    rewrite !Rmin_right, !Rmax_right by lra. rewrite box2 by lra. now destruct b.
  Qed.
  Lemma join_mv a b : join (placed_rect k v a) (placed_rect k v b) = placed_rect k v (join a b).
  Proof. unfold join, placed_rect. cbn [left right top bottom]. rewrite <- !pmin_R, <- !pmax_R. f_equal; first [apply pmin_mv|apply pmax_mv]; exact K. Qed.
  (** A curve between two and four control points that stays in range, before and after. *)
  Definition fits_curve (p : list pt) : Prop := (2 <= length p <= 4)%nat /\ Forall fits p.
  Lemma fits_stays p : fits_curve p -> stays p /\ stays (map mv p).
  Proof.
    intros [L F]. rewrite Forall_forall in F. split; apply stays_box.
    - intros ->. simpl in L. lia.
    - intros q Q. apply (F q Q).
    - intros E. apply (f_equal (@length _)) in E. rewrite map_length in E. simpl in E. lia.
    - intros q Q. apply in_map_iff in Q as (x & <- & X). apply (F x X).
  Qed.
  Lemma box_mv b : fits_curve (cps b) -> exists r, boundsRectangle b = Ok r /\ boundsRectangle (mvb b) = Ok (placed_rect k v r) /\ within r /\ within (placed_rect k v r).
  Proof.
    intros F. destruct (fits_stays _ F) as [S S']. destruct F as [L F].
    assert (Rb : reaches b) by (exists 0; split; [lra|apply S; lra]). assert (Rb' : reaches (mvb b)) by (exists 0; split; [lra|apply S'; lra]).
    assert (G : forall c, (2 <= length (cps c) <= 4)%nat -> reaches c -> stays (cps c) -> forall r, boundsRectangle c = Ok r -> within r).
    { intros c Lc Rc Sc r E. destruct (boundsRectangle_spec rnd c Lc) as (r' & E' & B & A). rewrite E in E'. injection E' as <-. destruct (A Rc) as (A1 & A2 & A3 & A4).
      assert (I : forall t, 0 <= t <= 1 -> left r <= fst (curve (cps c) t) <= right r /\ bottom r <= snd (curve (cps c) t) <= top r).
      { intros t T. specialize (B t T). now apply enclosesPoint_R in B. }
      destruct A1 as (t1 & T1 & X1), A2 as (t2 & T2 & X2), A3 as (t3 & T3 & X3), A4 as (t4 & T4 & X4).
      destruct (Sc t1 T1) as [Q1 _]. destruct (Sc t2 T2) as [Q2 _]. destruct (Sc t3 T3) as [_ Q3]. destruct (Sc t4 T4) as [_ Q4].
      apply Rabs_inv in Q1, Q2, Q3, Q4. pose proof (I 0 ltac:(lra)). unfold within. lra. }
    destruct (boundsRectangle_spec rnd b L) as (r & E & _). exists r. split; [exact E|].
    assert (E' : boundsRectangle (mvb b) = Ok (placed_rect k v r)) by (unfold mvb; rewrite bounds_mv by assumption; now rewrite E).
    split; [exact E'|]. split; [exact (G b L Rb S r E)|]. apply (G (mvb b)); auto. unfold mvb, placed_curve. cbn [cps]. now rewrite map_length.
  Qed.
  (** ** Construction *)
  Definition addSeg (st : list (bezier R) * rect R) seg : res (list (bezier R) * rect R) :=
    let* b := newBezier seg in let* r := boundsRectangle b in Ok (fst st ++ [b], union (snd st) r).
  Lemma new_fits s : fits_curve s -> newBezier s = Ok (mkBez s 0 1) /\ newBezier (map mv s) = Ok (mvb (mkBez s 0 1)) /\ fits_curve (cps (mkBez s 0 1)).
  Proof.
    intros F. assert (E : newBezier s = Ok (mkBez s 0 1)) by (rewrite newBezier_ok by apply (proj1 F); numRg; reflexivity). split; [exact E|]. split; [|exact F].
    unfold mv. rewrite new_mv by exact K. now rewrite E.
  Qed.
  Lemma addSeg_ok st s b q : newBezier s = Ok b -> boundsRectangle b = Ok q -> addSeg st s = Ok (fst st ++ [b], union (snd st) q).
  Proof. intros E B. unfold addSeg. rewrite E. cbn [bind]. now rewrite B. Qed.
  Lemma addSegs_mv : forall c bs r, Forall fits_curve c -> within r -> within (placed_rect k v r) -> exists bs' r',
    foldM addSeg c (bs, r) = Ok (bs', r') /\ foldM addSeg (map (map mv) c) (map mvb bs, placed_rect k v r) = Ok (map mvb bs', placed_rect k v r') /\
    within r' /\ within (placed_rect k v r').
  Proof.
    induction c as [|s c IH]; intros bs r F W W'; cbn [foldM map]; [exists bs, r; auto|]. destruct (new_fits s (Forall_inv F)) as (E & E' & Fs).
    destruct (box_mv _ Fs) as (q & B & B' & Q & Q'). rewrite (addSeg_ok _ _ _ _ E B), (addSeg_ok _ _ _ _ E' B'). cbn [bind fst snd].
    destruct (union_join r q W Q) as [U WU]. destruct (union_join _ _ W' Q') as [U' WU']. rewrite U, U', join_mv, map_snoc. rewrite join_mv in WU'.
    apply IH; auto. now apply Forall_inv_tail in F.
  Qed.
  Lemma ends_mv bs : contourEnds (map mvb bs) = answer (fun x => (mv (fst x), mv (snd x))) (contourEnds bs).
  Proof.
    unfold contourEnds, bstart, bend. rewrite idx_answer, bind_answer, answer_bind. apply bind_ext. intros f _. unfold mvb at 1, placed_curve at 1. cbn [cps].
    rewrite idx_answer, bind_answer, answer_bind. apply bind_ext. intros a _. rewrite idx_last_answer, bind_answer, answer_bind. apply bind_ext. intros l _.
    unfold mvb, placed_curve. cbn [cps]. rewrite idx_last_answer, bind_answer, answer_bind. apply bind_ext. reflexivity.
  Qed.
  Theorem newContour_mv c : Forall fits_curve c -> newContour (map (map mv) c) = answer (placed_contour k v) (newContour c).
  Proof.
    intros F. unfold newContour. change (foldM _ ?x ?y) with (foldM addSeg x y). destruct c as [|s c]; [reflexivity|]. cbn [map foldM].
    destruct (new_fits s (Forall_inv F)) as (E & E' & Fs). destruct (box_mv _ Fs) as (q & B & B' & Q & Q'). rewrite (addSeg_ok _ _ _ _ E B), (addSeg_ok _ _ _ _ E' B'). cbn [bind fst snd app].
    rewrite !union_first by assumption. destruct (addSegs_mv c [mkBez s 0 1] q (Forall_inv_tail F) Q Q') as (bs & r & X & X' & _). cbn [map] in X'. rewrite X, X'. cbn [bind].
    rewrite ends_mv, bind_answer, answer_bind. apply bind_ext. intros [a e] _. reflexivity.
  Qed.
  (** ** Samples *)
  Lemma concat_mv steps : forall bs n, concatLUT n (map mvb bs) steps = answer (map mv) (concatLUT n bs steps).
  Proof.
    induction bs as [|b bs IH]; intros n; cbn [concatLUT map]; [reflexivity|]. unfold mvb at 1, mv. rewrite getLUT_mv, bind_answer, answer_bind. apply bind_ext. intros l _.
    rewrite IH, bind_answer, answer_bind. apply bind_ext. intros r _. cbn [answer]. now rewrite map_app, skipn_map.
  Qed.
  Lemma lut_mv c steps : contourLUT (placed_contour k v c) steps = (placed_contour k v (fst (contourLUT c steps)), answer (map mv) (snd (contourLUT c steps))).
  Proof.
    unfold contourLUT. change (c_lut (placed_contour k v c)) with (map mv (c_lut c)). rewrite map_length. destruct (Z.eqb _ steps); [reflexivity|].
    change (c_beziers (placed_contour k v c)) with (map mvb (c_beziers c)). rewrite concat_mv. destruct (concatLUT 0 (c_beziers c) steps); reflexivity.
  Qed.
  (** ** The nearest sample *)
  Definition gap (p q : pt) : R := thypot (fst q - fst p) (snd q - snd p).
  Definition near (p q : pt) : Prop := gap p q < maxSafe /\ k * gap p q < maxSafe.
  Lemma gap_mv p q : gap (mv p) (mv q) = k * gap p q.
  Proof.
    unfold gap, mv, placed. numRg. cbn [fst snd]. rewrite <- (hyp_sc k K). f_equal. f_equal; f_equal; ring.
  Qed.
  Lemma fits_near p q : fits p -> fits q -> near p q.
  Proof.
    assert (G : forall a b : pt, Rabs (fst a) <= 32768 -> Rabs (snd a) <= 32768 -> Rabs (fst b) <= 32768 -> Rabs (snd b) <= 32768 -> gap a b < maxSafe).
    { intros a b A1 A2 B1 B2. apply Rabs_inv in A1, A2, B1, B2. unfold gap, maxSafe. numRg. apply Rle_lt_trans with (sqrt (131072 * 131072)); [|rewrite sqrt_square by lra; lra].
      apply sqrt_le_1_alt. set (x := fst b - fst a). set (y := snd b - snd a). assert (-65536 <= x <= 65536) by (unfold x; lra). assert (-65536 <= y <= 65536) by (unfold y; lra). nra. }
    intros [[A1 A2] [A3 A4]] [[B1 B2] [B3 B4]]. split; [now apply G|]. rewrite <- gap_mv. now apply G.
  Qed.
  Definition level (c c' : R) : Prop := (c = maxSafe /\ c' = maxSafe) \/ c' = k * c.
  Lemma level_lt d c c' : d < maxSafe -> k * d < maxSafe -> level c c' -> Rltb (k * d) c' = Rltb d c.
  Proof. intros D D' [[E E']|E]; [rewrite E, E'|rewrite E; now apply Rltb_scale]. now rewrite !(proj2 (Rltb_true _ _)). Qed.
  Lemma closest_mv p lut : Forall (near p) lut -> findClosest (mv p) (map mv lut) = findClosest p lut.
  Proof.
    intros F. unfold findClosest. assert (G : forall n c c' i, level c c' -> let s := fold_left (closestStep p) lut (n, c, i) in let s' := fold_left (closestStep (mv p)) (map mv lut) (n, c', i) in snd s' = snd s).
    { induction F as [|q lut [Q Q'] F IH]; intros n c c' i L; cbn [map fold_left]; [reflexivity|].
      unfold closestStep at 2 4. change (thypot (fst q - fst p)%num (snd q - snd p)%num) with (gap p q). change (thypot (fst (mv q) - fst (mv p))%num (snd (mv q) - snd (mv p))%num) with (gap (mv p) (mv q)).
      numRg. rewrite gap_mv, (level_lt _ c c') by assumption. destruct (Rltb (gap p q) c); apply IH; [now right|exact L]. }
    apply G. now left.
  Qed.
  (** ** Refinement *)
  Lemma idxZ_map {A B} (g : A -> B) l i : idxZ (map g l) i = answer g (idxZ l i).
  Proof. unfold idxZ. rewrite map_length, !idx_answer. destruct (Z.leb 0 i); [reflexivity|]. now destruct (Z.leb 0 _). Qed.
  Lemma idxZ_in {A} (l : list A) i x : idxZ l i = Ok x -> In x l.
  Proof.
    assert (G : forall n, idx l n = Ok x -> In x l) by (intros n; unfold idx; destruct (nth_error l n) eqn:E; [intros [= <-]; now apply nth_error_In in E|discriminate]).
    unfold idxZ. destruct (Z.leb 0 i); [apply G|]. destruct (Z.leb 0 _); [apply G|discriminate].
  Qed.
  Definition unit_ (t : R) : Prop := 0 <= t <= 1.
  (** Found: not yet, or moved. *)
  Definition found (q : pt) (c : R) (q' : pt) (c' : R) : Prop :=
    (c = maxSafe /\ c' = maxSafe /\ q' = q) \/ (c < maxSafe /\ k * c < maxSafe /\ c' = k * c /\ q' = mv q).
  Definition founds (r r' : res (pt * R)) : Prop :=
    match r, r' with Ok (q, c), Ok (q', c') => found q c q' c' | Err e, Err e' => e = e' | _, _ => False end.
  Definition nearb (p : pt) (b : bezier R) : Prop := forall t x, unit_ t -> get b t = Ok x -> near p x.
  Lemma sample_eq p b t1 step c q i nl nts j : refineSample p b t1 step ((c, q, i), (nl, nts)) j =
    bind (get b (t1 + INR j * step)) (fun n => Ok ((if Rltb (gap p n) c then (gap p n, n, Z.of_nat j) else (c, q, i)), (nl ++ [n], nts ++ [t1 + INR j * step]))).
  Proof. unfold refineSample. numRg. rewrite INR_IZR_INZ. reflexivity. Qed.
  Lemma sample_mv p b t1 step : nearb p b -> forall js c q i c' q' nl nts, (forall j, In j js -> unit_ (t1 + INR j * step)) -> found q c q' c' -> Forall unit_ nts ->
    match foldM (refineSample p b t1 step) js ((c, q, i), (nl, nts)), foldM (refineSample (mv p) (mvb b) t1 step) js ((c', q', i), (map mv nl, nts)) with
    | Ok ((d, x, j), (ml, mts)), Ok ((d', x', j'), (ml', mts')) => found x d x' d' /\ j' = j /\ ml' = map mv ml /\ mts' = mts /\ Forall unit_ mts
    | Err e, Err e' => e = e'
    | _, _ => False
    end.
  Proof.
    intros N. induction js as [|j js IH]; intros c q i c' q' nl nts J F T; cbn [foldM bind]; [auto|].
    rewrite !sample_eq. set (t := t1 + INR j * step). assert (U : unit_ t) by (apply J; now left).
    unfold mvb at 1 3. rewrite !(get_mv k v). destruct (get b t) as [x|e] eqn:G; cbn [bind answer]; [|exact eq_refl].
    destruct (N t x U G) as [D D']. change (placed k v x) with (mv x).
    rewrite gap_mv. assert (L : Rltb (k * gap p x) c' = Rltb (gap p x) c).
    { apply level_lt; auto. destruct F as [(A & B & _)|(_ & _ & A & _)]; [left|right]; auto. }
    rewrite L. rewrite map_snoc. specialize (IH). destruct (Rltb (gap p x) c); apply IH; auto; try (intros j' J'; apply J; now right); try (apply Forall_app; split; auto).
    right. auto.
  Qed.
  Lemma refine_mv p b : nearb p b -> forall rounds lut tts c q i c' q', found q c q' c' -> Forall unit_ tts ->
    founds (refineLoop rounds p b lut tts c q i) (refineLoop rounds (mv p) (mvb b) (map mv lut) tts c' q' i).
  Proof.
    intros N. induction rounds as [|n IH]; intros lut tts c q i c' q' F T; cbn [refineLoop]; [exact F|]. rewrite map_length.
    set (i1 := if Z.eqb i 0 then 0%Z else (i - 1)%Z). set (i2 := if Z.eqb i _ then i else (i + 1)%Z).
    destruct (idxZ tts i1) as [t1|] eqn:E1; cbn [bind]; [|reflexivity]. destruct (idxZ tts i2) as [t2|] eqn:E2; cbn [bind]; [|reflexivity].
    assert (U1 : unit_ t1) by (rewrite Forall_forall in T; eapply T, idxZ_in, E1). assert (U2 : unit_ t2) by (rewrite Forall_forall in T; eapply T, idxZ_in, E2).
    numRg. destruct (Rltb _ _); [exact F|]. rewrite idxZ_map. destruct (idxZ lut i1) as [l1|]; cbn [bind answer]; [|reflexivity].
    assert (J : forall j, In j (seq 1 3) -> unit_ (t1 + INR j * ((t2 - t1) / 5))).
    { intros j [<-|[<-|[<-|[]]]]; cbn [INR]; unfold unit_ in *; lra. }
    pose proof (sample_mv p b t1 ((t2 - t1) / 5) N (seq 1 3) c q i c' q' [l1] [t1] J F ltac:(constructor; auto)) as S. cbn [map] in S.
    destruct (foldM (refineSample p b t1 ((t2 - t1) / 5)) (seq 1 3) _) as [[[[d x] j] [ml mts]]|e], (foldM (refineSample (mv p) (mvb b) t1 ((t2 - t1) / 5)) (seq 1 3) _) as [[[[d' x'] j'] [ml' mts']]|e']; try contradiction; [|exact S].
    destruct S as (Fd & -> & -> & -> & Ts). cbn [bind]. rewrite idxZ_map. destruct (idxZ lut i2) as [l2|]; cbn [bind answer]; [|reflexivity].
    rewrite map_snoc. apply IH; auto. apply Forall_app. auto.
  Qed.
  Lemma frac_unit j n t : (0 <= j < 0 + n)%nat -> @ndiv R RNum (IZR (Z.of_nat j)) (IZR (Z.of_nat n - 1)) = Ok t -> unit_ t.
  Proof.
    intros J X. apply ndivR_inv in X as [Z ->]. revert Z. rewrite <- INR_IZR_INZ. replace (Z.of_nat n - 1)%Z with (Z.of_nat (n - 1)) by lia. rewrite <- INR_IZR_INZ. intros Z.
    assert (Jl : INR j <= INR (n - 1)) by (apply le_INR; lia). pose proof (pos_INR j). pose proof (pos_INR (n - 1)).
    split; [apply Rmult_le_pos; [lra|apply Rlt_le, Rinv_0_lt_compat; lra]|]. apply Rmult_le_reg_r with (INR (n - 1)); [lra|]. field_simplify; lra.
  Qed.
  Lemma binary_mv p b lut i : nearb p b -> founds (refineBinary p b lut i) (refineBinary (mv p) (mvb b) (map mv lut) i).
  Proof.
    intros N. unfold refineBinary. rewrite map_length. set (ts := mapM _ _). destruct ts as [tts|e] eqn:E; cbn [bind]; [|reflexivity]. apply refine_mv; auto; [left; auto|].
    apply Forall_forall. intros t T. destruct (In_mapM _ _ _ E t T) as (j & J & X). apply in_seq in J. numRg.
    now apply (frac_unit j (length lut) t).
  Qed.
  Lemma fits_nearb p b : fits p -> Forall fits (cps b) -> nearb p b.
  Proof.
    intros P F t x T G. apply fits_near; [exact P|]. rewrite Forall_forall in F. split.
    - assert (B : forall q, In q (cps b) -> -32768 <= fst q <= 32768 /\ -32768 <= snd q <= 32768) by (intros q Q; destruct (F q Q) as [[A1 A2] _]; split; now apply Rabs_inv).
      destruct (get_in_box b t x _ _ _ _ T G B) as [X Y]. split; now apply Rabs_le.
    - assert (G' : get (mvb b) t = Ok (mv x)) by (unfold mvb; rewrite (get_mv k v), G; reflexivity).
      assert (B : forall q, In q (cps (mvb b)) -> -32768 <= fst q <= 32768 /\ -32768 <= snd q <= 32768).
      { intros q Q. apply in_map_iff in Q as (y & <- & Y). destruct (F y Y) as [_ [A1 A2]]; split; now apply Rabs_inv. }
      destruct (get_in_box (mvb b) t (mv x) _ _ _ _ T G' B) as [X Y]. split; now apply Rabs_le.
  Qed.
  Lemma locate_mv (bs : list (bezier R)) i steps : locate (map mvb bs) i steps = answer (fun x => let '(c, c2, i) := x in (mvb c, option_map mvb c2, i)) (locate bs i steps).
  Proof.
    unfold locate. rewrite map_length. destruct (Z.ltb i steps).
    - rewrite !idx_answer, bind_answer, answer_bind. apply bind_ext. intros b _. destruct (_ && _)%bool; [|reflexivity].
      destruct (idx bs 1); reflexivity.
    - destruct (Z.eqb (steps - 1) 0); [reflexivity|]. rewrite !idxZ_map, bind_answer, answer_bind. apply bind_ext. intros b _. destruct (Z.ltb _ _); [|reflexivity].
      destruct (idxZ bs _); reflexivity.
  Qed.
  Lemma locate_in (bs : list (bezier R)) i steps c c2 j : locate bs i steps = Ok (c, c2, j) -> In c bs /\ forall b, c2 = Some b -> In b bs.
  Proof.
    assert (G : forall (l : list (bezier R)) n x, idx l n = Ok x -> In x l) by (intros l n x; unfold idx; destruct (nth_error l n) eqn:E; [intros [= <-]; now apply nth_error_In in E|discriminate]).
    unfold locate. destruct (Z.ltb i steps).
    - destruct (idx bs 0) as [b|] eqn:E; cbn [bind]; [|discriminate]. destruct (_ && _)%bool.
      + destruct (idx bs 1) as [b1|] eqn:E1; cbn [bind]; [|discriminate]. intros [= -> <- <-]. split; [exact (G _ _ _ E)|]. intros x [= <-]. exact (G _ _ _ E1).
      + cbn [bind]. intros [= -> <- <-]. split; [exact (G _ _ _ E)|discriminate].
    - destruct (Z.eqb (steps - 1) 0); [discriminate|]. cbv zeta. set (ix := ((i - steps) / (steps - 1) + 1)%Z). destruct (idxZ bs ix) as [b|] eqn:E; cbn [bind]; [|discriminate]. destruct (Z.ltb _ _).
      + destruct (idxZ bs (ix + 1)) as [b1|] eqn:E1; cbn [bind]; [|discriminate]. intros [= -> <- <-]. split; [exact (idxZ_in _ _ _ E)|]. intros x [= <-]. exact (idxZ_in _ _ _ E1).
      + cbn [bind]. intros [= -> <- <-]. split; [exact (idxZ_in _ _ _ E)|discriminate].
  Qed.
  Definition found_at (r r' : res (R * pt)) : Prop := founds (answer (fun x => (snd x, fst x)) r) (answer (fun x => (snd x, fst x)) r').
  Definition refined (p : pt) (bs : list (bezier R)) (i0 steps : Z) : res (R * pt) :=
    let* (curve, curve2, i) := locate bs i0 steps in
    let* clut := getLUT curve steps in
    let* (cip, closest) := refineBinary p curve clut i in
    match curve2 with
    | None => Ok (closest, cip)
    | Some b2 =>
        let* lut2 := getLUT b2 steps in
        let* (cip2, c2) := refineBinary p b2 lut2 0 in
        if (c2 <? closest)%num then Ok (c2, cip2) else Ok (closest, cip)
    end.
  Lemma refined_mv p bs i steps : fits p -> (forall b, In b bs -> Forall fits (cps b)) -> found_at (refined p bs i steps) (refined (mv p) (map mvb bs) i steps).
  Proof.
    intros P F. unfold refined. rewrite locate_mv. destruct (locate bs i steps) as [[[c c2] j]|e] eqn:L; cbn [bind answer]; [|reflexivity].
    destruct (locate_in _ _ _ _ _ _ L) as [I I2]. unfold mvb at 1. rewrite getLUT_mv. destruct (getLUT c steps) as [l|e]; cbn [bind answer]; [|reflexivity].
    pose proof (binary_mv p c l j (fits_nearb p c P (F c I))) as B. change (placed k v) with mv.
    destruct (refineBinary p c l j) as [[q d]|e], (refineBinary (mv p) (mvb c) (map mv l) j) as [[q' d']|e']; cbn [founds] in B; try contradiction; [|exact B].
    cbn [bind]. destruct c2 as [b|]; cbn [option_map]; [|exact B]. unfold mvb at 1. rewrite getLUT_mv. destruct (getLUT b steps) as [l2|e]; cbn [bind answer]; [|reflexivity].
    pose proof (binary_mv p b l2 0 (fits_nearb p b P (F b (I2 b eq_refl)))) as B2. change (placed k v) with mv.
    destruct (refineBinary p b l2 0) as [[q2 d2]|e], (refineBinary (mv p) (mvb b) (map mv l2) 0) as [[q2' d2']|e']; cbn [founds] in B2; try contradiction; [|exact B2].
    cbn [bind]. numRg. assert (C : Rltb d2' d' = Rltb d2 d).
    { destruct B as [(-> & -> & _)|(A1 & A2 & -> & _)], B2 as [(-> & -> & _)|(A3 & A4 & -> & _)].
      - reflexivity.
      - now rewrite !(proj2 (Rltb_true _ _)).
      - rewrite !(proj2 (Rltb_false _ _)); auto; lra.
      - now apply Rltb_scale. }
    rewrite C. destruct (Rltb d2 d); assumption.
  Qed.
  Lemma lut_near p b steps l : nearb p b -> getLUT b steps = Ok l -> Forall (near p) l.
  Proof.
    intros N. unfold getLUT. destruct (Z.eqb_spec steps 0); [intros [= <-]; constructor|]. intros E. apply Forall_forall. intros x X.
    destruct (In_mapM _ _ _ E x X) as (j & J & Y). apply in_seq in J. destruct (ndiv _ _) as [t|] eqn:D; [|discriminate]. cbn [bind] in Y. apply (N t); [|exact Y].
    numRg. apply (frac_unit j (Z.to_nat steps)); [exact J|]. rewrite Z2Nat.id by lia. exact D.
  Qed.
  Lemma concat_near p steps : forall bs n l, (forall b, In b bs -> nearb p b) -> concatLUT n bs steps = Ok l -> Forall (near p) l.
  Proof.
    induction bs as [|b bs IH]; intros n l N; cbn [concatLUT]; [intros [= <-]; constructor|]. destruct (getLUT b steps) as [a|] eqn:E; cbn [bind]; [|discriminate].
    destruct (concatLUT 1 bs steps) as [r|] eqn:G; cbn [bind]; [|discriminate]. intros [= <-]. apply Forall_app. split.
    - pose proof (lut_near p b steps a (N b (or_introl eq_refl)) E) as A. rewrite <- (firstn_skipn n a) in A. now apply Forall_app in A.
    - apply (IH 1%nat); auto. intros x X. apply N. now right.
  Qed.
  Theorem closestPoint_mv c p steps : fits p -> (forall b, In b (c_beziers c) -> Forall fits (cps b)) -> Forall fits (c_lut c) -> 
    fst (findClosestPoint (placed_contour k v c) (mv p) steps) = placed_contour k v (fst (findClosestPoint c p steps)) /\
    found_at (snd (findClosestPoint c p steps)) (snd (findClosestPoint (placed_contour k v c) (mv p) steps)).
  Proof.
    intros P F FL. unfold findClosestPoint. rewrite lut_mv. destruct (contourLUT c steps) as [c1 [l|e]] eqn:E; cbn [fst snd answer]; [|split; reflexivity].
    split; [reflexivity|]. 
    assert (X : c_beziers c1 = c_beziers c /\ Forall (near p) l).
    { unfold contourLUT in E. destruct (Z.eqb _ steps).
      - injection E as <- <-. split; [reflexivity|]. eapply Forall_impl; [|exact FL]. intros q Q. now apply fits_near.
      - destruct (concatLUT 0 (c_beziers c) steps) as [l0|] eqn:G; [|discriminate]. injection E as <- <-. split; [reflexivity|].
        apply (concat_near p steps (c_beziers c) 0); [|exact G]. intros b B. apply fits_nearb; auto. }
    destruct X as [X N]. rewrite closest_mv by exact N. change (c_beziers (placed_contour k v c1)) with (map mvb (c_beziers c1)). rewrite X.
    exact (refined_mv p (c_beziers c) (findClosest p l) steps P F).
  Qed.
  (** ** Outlines *)
  Lemma newContour_within c bc : Forall fits_curve c -> newContour c = Ok bc -> within (c_bounds bc) /\ within (placed_rect k v (c_bounds bc)).
  Proof.
    intros F. unfold newContour. change (foldM _ ?x ?y) with (foldM addSeg x y). destruct c as [|s c]; [discriminate|]. cbn [foldM].
    destruct (new_fits s (Forall_inv F)) as (E & E' & Fs). destruct (box_mv _ Fs) as (q & B & B' & Q & Q'). rewrite (addSeg_ok _ _ _ _ E B). cbn [bind fst snd app].
    rewrite !union_first by assumption. destruct (addSegs_mv c [mkBez s 0 1] q (Forall_inv_tail F) Q Q') as (bs & r & X & X' & W & W'). rewrite X. cbn [bind].
    destruct (contourEnds bs) as [[a e]|]; cbn [bind]; [|discriminate]. intros [= <-]. auto.
  Qed.
  Definition addCon (st : list (bcontour R) * rect R) c : res (list (bcontour R) * rect R) :=
    let* bc := newContour c in Ok (fst st ++ [bc], union (snd st) (c_bounds bc)).
  Lemma addCon_ok st c b : newContour c = Ok b -> addCon st c = Ok (fst st ++ [b], union (snd st) (c_bounds b)).
  Proof. intros E. unfold addCon. now rewrite E. Qed.
  Lemma addCon_err st c e : newContour c = Err e -> addCon st c = Err e.
  Proof. intros E. unfold addCon. now rewrite E. Qed.
  Lemma addCons_mv : forall cs bs r, Forall (Forall fits_curve) cs -> within r -> within (placed_rect k v r) ->
    foldM addCon (map (map (map mv)) cs) (map (placed_contour k v) bs, placed_rect k v r) =
    answer (fun x => (map (placed_contour k v) (fst x), placed_rect k v (snd x))) (foldM addCon cs (bs, r)).
  Proof.
    induction cs as [|c cs IH]; intros bs r F W W'; cbn [foldM map]; [reflexivity|]. pose proof (newContour_mv c (Forall_inv F)) as N.
    destruct (newContour c) as [bc|e] eqn:E; cbn [answer] in N.
    - rewrite (addCon_ok _ _ _ E), (addCon_ok _ _ _ N). cbn [bind fst snd]. destruct (newContour_within c bc (Forall_inv F) E) as [Q Q'].
      change (c_bounds (placed_contour k v bc)) with (placed_rect k v (c_bounds bc)).
      destruct (union_join r _ W Q) as [U WU]. destruct (union_join _ _ W' Q') as [U' WU']. rewrite U, U', join_mv, map_snoc. rewrite join_mv in WU'.
      apply IH; auto. now apply Forall_inv_tail in F.
    - now rewrite (addCon_err _ _ _ E), (addCon_err _ _ _ N).
  Qed.
  Theorem newOutline_mv cs : cs <> [] -> Forall (Forall fits_curve) cs -> newOutline (map (map (map mv)) cs) = answer (placed_outline k v) (newOutline cs).
  Proof.
    intros NE F. unfold newOutline. change (foldM _ ?x ?y) with (foldM addCon x y). destruct cs as [|c cs]; [now contradiction NE|]. cbn [map foldM].
    pose proof (newContour_mv c (Forall_inv F)) as N. destruct (newContour c) as [bc|e] eqn:E; cbn [answer] in N.
    - rewrite (addCon_ok _ _ _ E), (addCon_ok _ _ _ N). cbn [bind fst snd app]. destruct (newContour_within c bc (Forall_inv F) E) as [Q Q'].
      change (c_bounds (placed_contour k v bc)) with (placed_rect k v (c_bounds bc)). rewrite !union_first by assumption.
      pose proof (addCons_mv cs [bc] _ (Forall_inv_tail F) Q Q') as A. cbn [map] in A. rewrite A. destruct (foldM addCon cs _) as [[bs r]|]; reflexivity.
    - now rewrite (addCon_err _ _ _ E), (addCon_err _ _ _ N).
  Qed.
  Lemma range_fits ps : stays_in_range k v ps -> Forall fits ps.
  Proof. intros [A B]. apply Forall_forall. intros q Q. split; [apply A, Q|]. apply B, in_map, Q. Qed.
  Theorem newContour_placed c : (forall s, In s c -> (2 <= length s <= 4)%nat /\ stays_in_range k v s) ->
    newContour (map (map mv) c) = answer (placed_contour k v) (newContour c).
  Proof. intros F. apply newContour_mv, Forall_forall. intros s S. destruct (F s S) as [L X]. split; [exact L|now apply range_fits]. Qed.
  Theorem newOutline_placed cs : cs <> [] -> (forall c s, In c cs -> In s c -> (2 <= length s <= 4)%nat /\ stays_in_range k v s) ->
    newOutline (map (map (map mv)) cs) = answer (placed_outline k v) (newOutline cs).
  Proof.
    intros N F. apply newOutline_mv; [exact N|]. apply Forall_forall. intros c C. apply Forall_forall. intros s S. destruct (F c s C S) as [L X].
    split; [exact L|now apply range_fits].
  Qed.
  Theorem closest_placed c p steps : stays_in_range k v [p] -> stays_in_range k v (c_lut c) -> (forall b, In b (c_beziers c) -> stays_in_range k v (cps b)) ->
    let r := findClosestPoint c p steps in let r' := findClosestPoint (placed_contour k v c) (mv p) steps in
    fst r' = placed_contour k v (fst r) /\
    match snd r with
    | Ok (d, q) => (d < 9007199254740991 /\ snd r' = Ok (k * d, mv q)) \/ (d = 9007199254740991 /\ snd r' = Ok (d, q))
    | Err e => snd r' = Err e
    end.
  Proof.
    intros P L B r r'. destruct (closestPoint_mv c p steps (Forall_inv (range_fits _ P)) (fun b H => range_fits _ (B b H)) (range_fits _ L)) as [X Y]. split; [exact X|].
    fold r in Y. fold r' in Y. unfold found_at in Y. destruct (snd r) as [[d q]|e], (snd r') as [[d' q']|e']; cbn [answer founds fst snd] in Y; try contradiction; [|now rewrite Y].
    unfold found, maxSafe in Y. numRg. destruct Y as [(D & D' & Q)|(D & _ & D' & Q)]; [right|left]; split; auto; congruence.
  Qed.
End Contours.
