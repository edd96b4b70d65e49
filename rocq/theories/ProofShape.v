(** The curves of a contour and its start point, for any numbers. *)
From Coq Require Import List ZArith Bool String Ascii Lia.
From Verif Require Import Py Inst SpecGeom SpecSvg SpecPlot MTransform MBounds MBezUtil MPathUtil MBezier MContour ProofSvg ProofPlotter.
Import ListNotations.

Section Shape.
  Context {T : Type} {N : NumOps T} {TR : TrigOps T}.

  Lemma newBezier_shape p (b : bezier T) : newBezier p = Ok b -> cps b = p /\ p <> [].
  Proof.
    unfold newBezier. intros E. apply bind_Ok in E as (x & E1 & E2). assert (b = mkBez p (nofZ 0) (nofZ 1)) as -> by congruence. split; [reflexivity|]. intros ->. discriminate.
  Qed.
  Lemma fold_shape c : forall st bs r, foldM (fun (st : list (bezier T) * rect T) seg =>
      let* b := newBezier seg in let* r := boundsRectangle b in Ok (fst st ++ [b], union (snd st) r)) c st = Ok (bs, r) -> map cps bs = (map cps (fst st) ++ c)%list /\ (Forall (fun b => cps b <> []) (fst st) -> Forall (fun b => cps b <> []) bs).
  Proof.
    induction c as [|s c IH]; intros st bs r; cbn [foldM].
    - intros E. assert (st = (bs, r)) as -> by congruence. cbn [fst]. rewrite app_nil_r. auto.
    - intros E. apply bind_Ok in E as (st' & E1 & E2). apply bind_Ok in E1 as (b & E3 & E4). apply bind_Ok in E4 as (r0 & E5 & E6). apply IH in E2 as [E2 F2]. apply newBezier_shape in E3 as [E3 Ne].
      assert (st' = (fst st ++ [b], union (snd st) r0)) as -> by congruence. cbn [fst] in *. rewrite E2, map_app. cbn [map]. rewrite E3, <- app_assoc. split; [reflexivity|]. intros F. apply F2. apply Forall_app. split; [exact F|]. constructor; [congruence|constructor].
  Qed.
  Definition tidy (b : bcontour T) : Prop := Forall (fun b => cps b <> []) (c_beziers b) /\ (c_beziers b <> [] -> contour_first (map cps (c_beziers b)) = Some (c_start b)).
  Lemma ends_shape (bs : list (bezier T)) : Forall (fun b => cps b <> []) bs ->
    match contourEnds bs with Ok (s, e) => contour_first (map cps bs) = Some s | Err _ => bs = [] end.
  Proof.
    intros F. unfold contourEnds. destruct bs as [|b bs]; [reflexivity|]. cbn [idx nth_error bind]. unfold bstart. assert (Fb : cps b <> []) by now inversion F.
    destruct (cps b) as [|p l] eqn:Eb; [congruence|]. cbn [idx nth_error bind]. unfold idx_last at 1.
    destruct (last_error (b :: bs)) as [z|] eqn:Ez; [|exfalso; revert Ez; clear; revert b; induction bs as [|c bs IH]; intros b; [discriminate|]; exact (IH c)]. cbn [bind].
    assert (Fz : cps z <> []).
    { clear Eb Fb p l. revert b F Ez. induction bs as [|c bs IH]; intros b F Ez; [assert (b = z) as <- by (cbn in Ez; congruence); now inversion F|]. inversion F; subst. now apply (IH c). }
    unfold bend, idx_last. destruct (last_error (cps z)) as [e|] eqn:Ee; [cbn [bind map contour_first seg_first]; rewrite Eb; reflexivity|].
    exfalso. destruct (cps z) as [|q l']; [congruence|]. revert Ee. clear. revert q. induction l' as [|r l IH]; intros q; [discriminate|]. exact (IH r).
  Qed.
  Lemma new_tidy c (b : bcontour T) : newContour c = Ok b -> map cps (c_beziers b) = c /\ tidy b.
  Proof.
    unfold newContour. intros E. apply bind_Ok in E as ((bs & r) & E1 & E2). apply fold_shape in E1 as [E1 F]. cbn [fst map app] in *. specialize (F (Forall_nil _)). pose proof (ends_shape bs F) as S.
    apply bind_Ok in E2 as ((s & e) & E3 & E4). rewrite E3 in S. assert (b = mkContour bs r [] s e) as -> by congruence. cbn [c_beziers]. split; [exact E1|]. split; [exact F|]. intros _. exact S.
  Qed.
  Lemma replace_Forall {A} (Q : A -> Prop) l : forall i v, Forall Q l -> Q v -> Forall Q (replaceAt l i v).
  Proof. induction l as [|a l IH]; intros [|i] v F V; cbn [replaceAt]; inversion F; subst; auto. Qed.
  Lemma delete_Forall {A} (Q : A -> Prop) l : forall i, Forall Q l -> Forall Q (deleteAt l i).
  Proof. induction l as [|a l IH]; intros [|i] F; cbn [deleteAt]; inversion F; subst; auto. Qed.
  Lemma put_tidy (b : bcontour T) (bs : list (bezier T)) : Forall (fun b => cps b <> []) bs -> tidy (fst (match contourEnds bs with
      | Ok (s, e) => (mkContour bs (c_bounds b) (c_lut b) s e, @None exn) | Err x => (mkContour bs (c_bounds b) (c_lut b) (c_start b) (c_end b), Some x) end)).
  Proof. intros F. pose proof (ends_shape bs F) as S. destruct (contourEnds bs) as [[s e]|x]; (split; [exact F|]); cbn [fst c_beziers c_start]; intros Ne; [exact S|congruence]. Qed.
  Lemma lut_tidy (b : bcontour T) n : tidy b -> tidy (fst (contourLUT b n)).
  Proof. unfold contourLUT. intros Ti. destruct (Z.eqb _ _); [exact Ti|]. destruct (concatLUT 0 _ _); exact Ti. Qed.
  Lemma step_tidy (b : bcontour T) k : tidy b -> tidy (cstep b k).
  Proof.
    intros Ti. destruct k as [i pts|i|n|p n]; cbn [cstep].
    - unfold setitem. destruct (newBezier pts) as [v|x] eqn:E; [|exact Ti]. apply newBezier_shape in E as [E Ne]. destruct (Nat.ltb _ _); [|exact Ti]. apply put_tidy, replace_Forall; [apply Ti|congruence].
    - unfold delitem. destruct (Nat.ltb _ _); [|exact Ti]. apply put_tidy, delete_Forall, Ti.
    - now apply lut_tidy.
    - unfold findClosestPoint. pose proof (lut_tidy b n Ti) as L. destruct (contourLUT b n) as [b' [l|x]]; exact L.
  Qed.
  Lemma history_tidy ks : forall b : bcontour T, tidy b -> tidy (chistory b ks).
  Proof. induction ks as [|k ks IH]; intros b Ti; [exact Ti|]. cbn [chistory fold_left]. apply (IH (cstep b k)). now apply step_tidy. Qed.

  Theorem edited_draws parse D show origin c b ks : printer parse D show -> newContour c = Ok b -> let c' := map cps (c_beziers (chistory b ks)) in
    good_contour D c' -> svg_draw parse origin (d_ show (chistory b ks)) = Some (marks false c').
  Proof.
    intros P E c' G. destruct (history_tidy ks b (proj2 (new_tidy c b E))) as [_ F]. apply good_of in G as G'.
    apply (d_draws parse D show P _ _ (c_start (chistory b ks)) origin G' eq_refl); [|reflexivity]. apply F. intros X. destruct G' as (_ & _ & Ne). apply Ne. unfold c'. now rewrite X.
  Qed.
  Theorem new_draws parse D show origin c b : printer parse D show -> good_contour D c -> newContour c = Ok b -> svg_draw parse origin (d_ show b) = Some (marks false c).
  Proof.
    intros P G E. pose proof (edited_draws parse D show origin c b [] P E) as H. cbn [chistory fold_left] in H. destruct (new_tidy c b E) as [Eb _]. rewrite Eb in H. now apply H.
  Qed.
End Shape.
