(** Contours: bounds, lookup table, edits. *)
From Coq Require Import List ZArith Bool Reals Lra Lia.
From Verif Require Import Py Inst SpecGeom SpecOrder SpecBounds SpecBezier SpecCurve SpecContour MTransform MBounds MBezUtil MBezier MContour
  ProofBounds ProofBezier ProofBezier2 ProofCurve ProofBBox ProofInter ProofLut.
Import ListNotations.
Local Open Scope R_scope.

Section Contours.
  Context (rnd : R -> R).
  #[local] Hint Extern 0 (TrigOps R) => exact (RTrig rnd) : typeclass_instances.

  (** ** Construction *)
  Definition made (r : rect R) : Prop := exists ps, r = BoundsRectangle ps.
  Lemma curve_bounds (p : list pt) : drawable p -> exists r, boundsRectangle (mkBez p 0 1) = Ok r /\ made r /\
    forall t, 0 <= t <= 1 -> enclosesPoint r (curve p t) = true.
  Proof.
    intros L. destruct (bbox_encloses rnd (mkBez p 0 1) 0 (curve p 0)) as (x0 & x1 & y0 & y1 & r & _ & E & _); [exact L|lra|apply get_ok; cbn [cps]; unfold drawable in L; lia|].
    exists r. split; [exact E|]. split.
    - unfold boundsRectangle in E. destruct (bbox (mkBez p 0 1)) as [[[a b] [c d]]|]; [|discriminate]. cbn [bind] in E. apply Ok_inv in E. subst r. eexists; reflexivity.
    - intros t T. destruct (bbox_encloses rnd (mkBez p 0 1) t (curve p t)) as (a0 & a1 & b0 & b1 & r' & _ & E' & _ & _ & K); [exact L|exact T|apply get_ok; cbn [cps]; unfold drawable in L; lia|].
      rewrite E in E'. apply Ok_inv in E'. subst r'. exact K.
  Qed.
  Lemma made_union a b : made (union a b).
  Proof. eexists. reflexivity. Qed.
  Lemma union_keeps a b (q : pt) : made a -> made b -> enclosesPoint a q = true \/ enclosesPoint b q = true -> enclosesPoint (union a b) q = true.
  Proof. intros [ps ->] [qs ->]. apply (union_encloses _ R_order ps qs q); auto using Rgood. Qed.

  Definition curves (c : list (list pt)) : list (bezier R) := map (fun s => mkBez s 0 1) c.
  Lemma new_loop c : Forall drawable c -> forall bs b, made b -> exists b',
    foldM (fun (st : list (bezier R) * rect R) seg => let* x := newBezier seg in let* r := boundsRectangle x in Ok (fst st ++ [x], union (snd st) r)) c (bs, b)
      = Ok (bs ++ curves c, b') /\ made b' /\ (forall q, enclosesPoint b q = true -> enclosesPoint b' q = true) /\
    (forall s t, In s c -> 0 <= t <= 1 -> enclosesPoint b' (curve s t) = true).
  Proof.
    intros F. induction F as [|s c D F IH]; intros bs b M.
    - exists b. cbn. rewrite app_nil_r. split; [reflexivity|]. split; [exact M|]. split; [auto|intros ? ? []].
    - destruct (curve_bounds s D) as (r & E & Mr & Er). cbn [foldM]. rewrite newBezier_ok by apply D. cbn [bind]. numRg. rewrite E. cbn [bind fst snd].
      destruct (IH (bs ++ [mkBez s 0 1]) (union b r) (made_union b r)) as (b' & E' & M' & K1 & K2). exists b'. rewrite E'. rewrite <- app_assoc.
      split; [reflexivity|]. split; [exact M'|]. split.
      + intros q Q. apply K1, union_keeps; auto.
      + intros s' t [<-|I] T; [|now apply K2]. apply K1, union_keeps; auto.
  Qed.
  Theorem newContour_ok (c : list (list pt)) : Forall drawable c -> c <> [] -> exists b, newContour c = Ok b /\ c_beziers b = curves c /\ c_lut b = [] /\
    contour_first c = Some (c_start b) /\ contour_last c = Some (c_end b) /\ made (c_bounds b) /\
    forall s t, In s c -> 0 <= t <= 1 -> enclosesPoint (c_bounds b) (curve s t) = true.
  Proof.
    intros F N. destruct (new_loop c F [] (BoundsRectangle [])) as (b' & E & M & _ & K); [eexists; reflexivity|].
    unfold newContour. rewrite E. cbn [bind app].
    assert (Ends : exists s e, contourEnds (curves c) = Ok (s, e) /\ contour_first c = Some s /\ contour_last c = Some e).
    { unfold contourEnds. destruct c as [|s0 c]; [congruence|]. pose proof (Forall_inv F) as D0.
      assert (G : exists sl e, last_error (curves (s0 :: c)) = Some (mkBez sl 0 1) /\ last_error sl = Some e /\ contour_last (s0 :: c) = Some e).
      { clear - F. induction c as [|s1 c IH] in s0, F |- *.
        - pose proof (Forall_inv F) as D. assert (H : forall s : list pt, s <> [] -> exists e, last_error s = Some e /\ seg_last s = Some e).
          { intros s Ns. induction s as [|a [|b s] IHs]; [congruence|exists a; auto|]. destruct IHs as (e & A & B); [discriminate|]. exists e. split; auto. }
          destruct (H s0) as (e & A & B); [intros ->; unfold drawable in D; simpl in D; lia|]. exists s0, e. auto.
        - apply Forall_inv_tail in F. destruct (IH s1 F) as (sl & e & A & B & C). exists sl, e. auto. }
      destruct G as (sl & e & A & B & C). destruct s0 as [|q s0]; [unfold drawable in D0; simpl in D0; lia|].
      exists q, e. cbn [curves map idx nth_error bind]. unfold idx. cbn [nth_error bind bstart cps]. unfold bstart, idx. cbn [cps nth_error bind].
      unfold idx_last. unfold curves in A. cbn [map] in A. rewrite A. cbn [bind]. unfold bend, idx_last. cbn [cps]. rewrite B. cbn [bind]. auto. }
    destruct Ends as (s & e & -> & A & B). cbn [bind]. eexists. split; [reflexivity|]. cbn. auto 10.
  Qed.
  Theorem newContour_nil : newContour (T := R) [] = Err IndexError.
  Proof. reflexivity. Qed.
  Theorem newOutline_ok (cs : list (list (list pt))) : Forall (fun c => Forall drawable c /\ c <> []) cs ->
    exists o, newOutline cs = Ok o /\ Forall2 (fun c b => newContour c = Ok b) cs (ol_contours o) /\
    forall c s t, In c cs -> In s c -> 0 <= t <= 1 -> enclosesPoint (ol_bounds o) (curve s t) = true.
  Proof.
    intros F. unfold newOutline.
    assert (G : forall bcs b, made b -> exists new b',
      foldM (fun (st : list (bcontour R) * rect R) c => let* bc := newContour c in Ok (fst st ++ [bc], union (snd st) (c_bounds bc))) cs (bcs, b) = Ok (bcs ++ new, b') /\ made b' /\
      Forall2 (fun c b => newContour c = Ok b) cs new /\ (forall q, enclosesPoint b q = true -> enclosesPoint b' q = true) /\
      forall c s t, In c cs -> In s c -> 0 <= t <= 1 -> enclosesPoint b' (curve s t) = true).
    { induction F as [|c cs [D N] F IH]; intros bcs b M.
      - exists [], b. cbn. rewrite app_nil_r. split; [reflexivity|]. split; [exact M|]. split; [constructor|]. split; [auto|intros ? ? ? []].
      - destruct (newContour_ok c D N) as (bc & E & _ & _ & _ & _ & Mb & K). cbn [foldM]. rewrite E. cbn [bind fst snd].
        destruct (IH (bcs ++ [bc]) (union b (c_bounds bc)) (made_union _ _)) as (new & b' & E' & M' & F2 & K1 & K2).
        exists (bc :: new), b'. rewrite E', <- app_assoc. split; [reflexivity|]. split; [exact M'|]. split; [now constructor|]. split.
        + intros q Q. apply K1, union_keeps; auto.
        + intros c' s t [<-|I] Is T; [|eapply K2; eauto]. apply K1, union_keeps; auto. }
    destruct (G [] (BoundsRectangle [])) as (new & b' & -> & _ & F2 & _ & K); [eexists; reflexivity|]. cbn [bind app]. eexists. split; [reflexivity|]. cbn. auto.
  Qed.

  (** ** Lookup table *)
  Lemma getLUT_ok (b : bezier R) steps : (1 <= length (cps b))%nat -> (2 <= steps)%Z -> getLUT b steps = Ok (row_of steps (cps b)).
  Proof. intros L S. unfold getLUT. destruct (Z.eqb_spec steps 0); [lia|]. exact (sample_ok b steps L S). Qed.
  Lemma row_length steps p : length (row_of steps p) = Z.to_nat steps.
  Proof. unfold row_of. now rewrite map_length, seq_length. Qed.
  Lemma concat_tails c steps : Forall drawable c -> (2 <= steps)%Z -> concatLUT 1 (curves c) steps = Ok (tails steps c).
  Proof.
    intros F S. induction F as [|p c D F IH]; [reflexivity|]. cbn [curves map concatLUT]. rewrite getLUT_ok by (cbn [cps]; unfold drawable in D; lia || assumption).
    cbn [bind]. unfold curves in IH. rewrite IH. reflexivity.
  Qed.
  Theorem concat_table c steps : Forall drawable c -> (2 <= steps)%Z -> concatLUT 0 (curves c) steps = Ok (table steps c).
  Proof.
    intros F S. destruct F as [|p c D F]; [reflexivity|]. cbn [curves map concatLUT]. rewrite getLUT_ok by (cbn [cps]; unfold drawable in D; lia || assumption).
    cbn [bind]. pose proof (concat_tails c steps F S) as E. unfold curves in E. rewrite E. reflexivity.
  Qed.
  Lemma tails_length steps c : length (tails steps c) = (length c * (Z.to_nat steps - 1))%nat.
  Proof. induction c as [|p c IH]; [reflexivity|]. unfold tails in *. cbn [map concat length]. rewrite app_length, IH, skipn_length, row_length. lia. Qed.
  Lemma table_length steps c : c <> [] -> (1 <= steps)%Z -> length (table steps c) = (length c * (Z.to_nat steps - 1) + 1)%nat.
  Proof. intros N S. destruct c as [|p c]; [congruence|]. cbn [table length]. rewrite app_length, row_length, tails_length. lia. Qed.
  Lemma nth_skipn {A} (l : list A) k i d : nth i (skipn k l) d = nth (k + i) l d.
  Proof. revert l. induction k as [|k IH]; intros l; [reflexivity|]. destruct l as [|a l]; [destruct i; reflexivity|]. cbn [skipn Nat.add nth]. apply IH. Qed.
  Lemma tails_nth steps c m j : (m < length c)%nat -> (1 <= j < Z.to_nat steps)%nat ->
    nth (m * (Z.to_nat steps - 1) + (j - 1)) (tails steps c) (0, 0) = nth j (row_of steps (nth m c [])) (0, 0).
  Proof.
    revert m. induction c as [|p c IH]; intros m L J; [simpl in L; lia|]. unfold tails. cbn [map concat]. fold (tails steps c).
    assert (Ls : length (skipn 1 (row_of steps p)) = (Z.to_nat steps - 1)%nat) by (rewrite skipn_length, row_length; reflexivity).
    destruct m as [|m].
    - rewrite app_nth1 by lia. rewrite nth_skipn. cbn [nth]. f_equal. lia.
    - rewrite app_nth2 by (rewrite Ls; apply Nat.le_trans with (1 * (Z.to_nat steps - 1))%nat; [lia|]; apply Nat.le_trans with (S m * (Z.to_nat steps - 1))%nat; [apply Nat.mul_le_mono_r; lia|lia]). rewrite Ls. cbn [nth]. rewrite <- (IH m) by (simpl in L; lia). f_equal. generalize (Z.to_nat steps - 1)%nat. intros k. nia.
  Qed.
  Lemma row_nth steps p j : (j < Z.to_nat steps)%nat -> nth j (row_of steps p) (0, 0) = curve p (INR j / IZR (steps - 1)).
  Proof. intros J. unfold row_of. now rewrite nth_map_seq. Qed.
  Lemma seg_ends (s : list pt) : s <> [] -> seg_first s = Some (curve s 0) /\ seg_last s = Some (curve s 1).
  Proof.
    intros N. assert (L : (1 <= length s)%nat) by (destruct s; [congruence|simpl; lia]). rewrite curve_0, curve_1 by exact L. split.
    - destruct s; [congruence|reflexivity].
    - clear L. induction s as [|a [|b s] IH]; [congruence|reflexivity|]. change (seg_last (a :: b :: s)) with (seg_last (b :: s)). rewrite IH by discriminate.
      cbn [length]. replace (S (S (length s)) - 1)%nat with (S (S (length s) - 1)) by lia. reflexivity.
  Qed.
  Lemma connected_nth (c : list (list pt)) m : connected c -> (S m < length c)%nat -> exists q, seg_last (nth m c []) = Some q /\ seg_first (nth (S m) c []) = Some q.
  Proof.
    revert m. induction c as [|s c IH]; intros m C L; [simpl in L; lia|]. destruct c as [|s' c]; [simpl in L; lia|]. destruct C as [J C]. destruct m as [|m]; [exact J|].
    apply (IH m); [exact C|simpl in *; lia].
  Qed.
  Lemma table_nth1 steps c m j : (2 <= steps)%Z -> (m < length c)%nat -> (j < Z.to_nat steps)%nat -> (m = 0 \/ 1 <= j)%nat ->
    nth (m * (Z.to_nat steps - 1) + j) (table steps c) (0, 0) = curve (nth m c []) (INR j / IZR (steps - 1)).
  Proof.
    intros S L J O. destruct c as [|p c]; [simpl in L; lia|]. cbn [table]. destruct m as [|m].
    - rewrite app_nth1 by (rewrite row_length; lia). cbn [nth Nat.mul Nat.add]. now rewrite row_nth by lia.
    - rewrite app_nth2 by (rewrite row_length; nia). rewrite row_length. cbn [nth]. rewrite <- row_nth by lia. rewrite <- (tails_nth steps c m j) by (simpl in L; lia). f_equal. nia.
  Qed.
  Theorem table_nth steps c m j : Forall drawable c -> connected c -> (2 <= steps)%Z -> (m < length c)%nat -> (j < Z.to_nat steps)%nat ->
    nth (m * (Z.to_nat steps - 1) + j) (table steps c) (0, 0) = curve (nth m c []) (INR j / IZR (steps - 1)).
  Proof.
    intros F C S L J. destruct j as [|j]; [|apply table_nth1; lia]. destruct m as [|m]; [apply table_nth1; lia|].
    replace (Datatypes.S m * (Z.to_nat steps - 1) + 0)%nat with (m * (Z.to_nat steps - 1) + (Z.to_nat steps - 1))%nat by lia. rewrite table_nth1 by lia.
    destruct (connected_nth c m C L) as (q & E1 & E2).
    assert (D : forall k, (k < length c)%nat -> nth k c [] <> []).
    { intros k K. rewrite Forall_forall in F. specialize (F (nth k c []) (nth_In _ _ K)). unfold drawable in F. intros X. rewrite X in F. simpl in F. lia. }
    destruct (seg_ends (nth m c [])) as (_ & B1); [apply D; lia|]. destruct (seg_ends (nth (Datatypes.S m) c [])) as (B0 & _); [apply D; lia|].
    replace (INR (Z.to_nat steps - 1) / IZR (steps - 1)) with 1. 2:{ rewrite INR_IZR_INZ. replace (Z.of_nat (Z.to_nat steps - 1)) with (steps - 1)%Z by lia. field. apply not_0_IZR. lia. }
    replace (INR 0 / IZR (steps - 1)) with 0 by (cbn [INR]; unfold Rdiv; ring). congruence.
  Qed.

  (** Histories of lookups. *)
  Lemma concat_small c steps : (steps <= 0)%Z -> forall k, concatLUT (T := R) k (curves c) steps = Ok [].
  Proof.
    intros S. induction c as [|p c IH]; intros k; [reflexivity|]. cbn [curves map concatLUT]. unfold curves in IH. rewrite IH.
    assert (G : getLUT (mkBez p 0 1) steps = Ok []). { unfold getLUT. replace (Z.to_nat steps) with 0%nat by lia. now destruct (Z.eqb steps 0). }
    rewrite G. cbn [bind]. destruct k; reflexivity.
  Qed.
  Lemma concat_one p c : concatLUT (T := R) 0 (curves (p :: c)) 1 = Err ZeroDivisionError.
  Proof. cbn [curves map concatLUT]. assert (G : getLUT (mkBez p 0 1) 1 = Err ZeroDivisionError) by exact (sample_one _). now rewrite G. Qed.
  Definition cached (c : list (list pt)) (ks : list (ccall R)) (b : bcontour R) : Prop :=
    c_beziers b = curves c /\ (c_lut b = [] \/ exists s k, In k ks /\ looked k = Some s /\ (2 <= s)%Z /\ c_lut b = table s c).
  Lemma lut_cached c ks b s k : Forall drawable c -> c <> [] -> cached c ks b -> In k ks -> looked k = Some s -> cached c ks (fst (contourLUT b s)).
  Proof.
    intros F N (Eb & El) I Lk. unfold contourLUT. destruct (Z.eqb _ s); [split; auto|]. rewrite Eb.
    destruct (Z.le_gt_cases s 0) as [S|S].
    - rewrite concat_small by exact S. split; cbn; auto.
    - destruct (Z.eq_dec s 1) as [->|S']. { destruct c as [|p c]; [congruence|]. rewrite concat_one. split; cbn; auto. }
      rewrite concat_table by (assumption || lia). split; cbn; auto. right. exists s, k. repeat split; auto; lia.
  Qed.
  Lemma history_cached c ks : Forall drawable c -> c <> [] -> forall done b, lookups ks -> cached c done b -> cached c (done ++ ks) (chistory b ks).
  Proof.
    intros F N. induction ks as [|k ks IH]; intros done b L C; [rewrite app_nil_r; exact C|].
    assert (C' : cached c (done ++ [k]) (cstep b k)).
    { assert (C1 : cached c (done ++ [k]) b).
      { destruct C as (A & [B|(s & k' & I & X)]); split; auto. right. exists s, k'. split; [apply in_or_app; now left|exact X]. }
      assert (I : In k (done ++ [k])) by (apply in_or_app; right; now left).
      pose proof (L k (or_introl eq_refl)) as Lk. destruct k as [i v|i|s|p s]; cbn [looked] in Lk; try congruence; cbn [cstep].
      - exact (lut_cached c _ b s _ F N C1 I eq_refl).
      - pose proof (lut_cached c _ b s _ F N C1 I eq_refl) as K. unfold findClosestPoint. destruct (contourLUT b s) as [b' [l|x]]; exact K. }
    specialize (IH (done ++ [k]) (cstep b k)). rewrite <- app_assoc in IH. apply IH; [|exact C']. intros k' I. apply L. now right.
  Qed.
  Theorem lut_after_history c b ks steps : Forall drawable c -> newContour c = Ok b -> lookups ks -> (2 <= steps)%Z ->
    (forall k s, In k ks -> looked k = Some s -> s = steps \/ (Z.of_nat (length c) * (s - 1) + 1 <> steps)%Z) ->
    snd (contourLUT (chistory b ks) steps) = Ok (table steps c).
  Proof.
    intros F E L S H. assert (N : c <> []) by (intros ->; discriminate). destruct (newContour_ok c F N) as (b' & E' & Eb & El & _).
    rewrite E in E'. apply Ok_inv in E'. subst b'. destruct (history_cached c ks F N [] b L) as (A & B); [split; auto|]. cbn [app] in *.
    unfold contourLUT. destruct (Z.eqb_spec (Z.of_nat (length (c_lut (chistory b ks)))) steps) as [Q|Q].
    - cbn [snd]. destruct B as [B|(s & k & I & Lk & S2 & B)]; [rewrite B in Q; simpl in Q; lia|]. rewrite B in *. rewrite table_length in Q by (assumption || lia).
      destruct (H k s I Lk) as [->|X]; [reflexivity|]. exfalso. apply X. nia.
    - rewrite A, concat_table by assumption. reflexivity.
  Qed.
  Theorem lut_single s b ks steps : drawable s -> newContour [s] = Ok b -> lookups ks -> (2 <= steps)%Z ->
    snd (contourLUT (chistory b ks) steps) = Ok (table steps [s]).
  Proof. intros D E L S. apply lut_after_history; auto. intros k s' _ _. cbn [length]. lia. Qed.
  (** Exactly what is kept and answered. *)
  Definition holds (c : list (list pt)) (h : option Z) (b : bcontour R) : Prop :=
    c_beziers b = curves c /\ match h with Some s => (2 <= s)%Z /\ c_lut b = table s c | None => c_lut b = [] end.
  Lemma lut_holds c h b s : Forall drawable c -> c <> [] -> holds c h b ->
    holds c (held (Z.of_nat (length c)) h s) (fst (contourLUT b s)) /\
    ((2 <= s)%Z -> snd (contourLUT b s) = Ok (table (match held (Z.of_nat (length c)) h s with Some s0 => s0 | None => s end) c)).
  Proof.
    intros F N (Eb & El). unfold contourLUT, held.
    assert (Ln : Z.of_nat (length (c_lut b)) = match h with Some s0 => (Z.of_nat (length c) * (s0 - 1) + 1)%Z | None => 0%Z end).
    { destruct h as [s0|]; [destruct El as [S0 El]; rewrite El, table_length by (assumption || lia); nia|now rewrite El]. }
    rewrite <- Ln. destruct (Z.eqb_spec (Z.of_nat (length (c_lut b))) s) as [Q|Q].
    - cbn [fst snd]. split; [split; assumption|]. intros S. destruct h as [s0|]; [now destruct El as [_ ->]|]. lia.
    - rewrite Eb. destruct (Z.leb_spec 2 s) as [S|S].
      + rewrite concat_table by assumption. cbn [fst snd]. split; [|reflexivity]. split; [exact Eb|]. split; [exact S|reflexivity].
      + split; [|lia]. destruct (Z.eq_dec s 1) as [->|S']; [destruct c as [|p c]; [congruence|]; rewrite concat_one; split; [exact Eb|reflexivity]|]. rewrite concat_small by lia. split; [exact Eb|reflexivity].
  Qed.
  Lemma history_holds c ks : Forall drawable c -> c <> [] -> forall h b, lookups ks -> holds c h b -> holds c (fold_left (held (Z.of_nat (length c))) (sizes ks) h) (chistory b ks).
  Proof.
    intros F N. induction ks as [|k ks IH]; intros h b L C; [exact C|]. unfold sizes. cbn [flat_map]. fold (sizes ks).
    pose proof (L k (or_introl eq_refl)) as Lk. destruct (looked k) as [s|] eqn:Ek; [|congruence]. cbn [app fold_left]. change (chistory b (k :: ks)) with (chistory (cstep b k) ks). apply IH; [intros k' I; apply L; now right|].
    destruct (lut_holds c h b s F N C) as [K _]. destruct k as [i v|i|s'|p s']; cbn [looked] in Ek; try discriminate; injection Ek as ->; cbn [cstep]; [exact K|].
    unfold findClosestPoint. destruct (contourLUT b s) as [b' [l|x]]; exact K.
  Qed.
  Theorem lut_exact c b ks steps : Forall drawable c -> newContour c = Ok b -> lookups ks -> (2 <= steps)%Z ->
    let k := Z.of_nat (length c) in let h := fold_left (held k) (sizes ks) None in
    exists s, held k h steps = Some s /\ snd (contourLUT (chistory b ks) steps) = Ok (table s c).
  Proof.
    intros F E L S k h. assert (N : c <> []) by (intros ->; discriminate). destruct (newContour_ok c F N) as (b' & E' & Eb & El & _).
    rewrite E in E'. apply Ok_inv in E'. subst b'. assert (H0 : holds c None b) by (split; auto). pose proof (history_holds c ks F N None b L H0) as H1. fold k in H1. fold h in H1.
    destruct (lut_holds c h (chistory b ks) steps F N H1) as [_ A]. specialize (A S). fold k in A. rewrite A. unfold held. destruct (Z.eqb_spec (match h with Some s0 => k * (s0 - 1) + 1 | None => 0 end) steps) as [Q|Q].
    - destruct h as [s0|]; [eauto|lia].
    - destruct (Z.leb_spec 2 steps); [eauto|lia].
  Qed.
  (** Stale answer: two curves, three samples each, then a request for five. *)
  Theorem lut_stale c b s : Forall drawable c -> newContour c = Ok b -> (2 <= length c)%nat -> (2 <= s)%Z ->
    let steps := (Z.of_nat (length c) * (s - 1) + 1)%Z in
    snd (contourLUT (chistory b [CLut s]) steps) = Ok (table s c) /\ snd (contourLUT b steps) = Ok (table steps c) /\
    length (table s c) <> length (table steps c).
  Proof.
    intros F E K S steps. assert (N : c <> []) by (intros ->; simpl in K; lia). destruct (newContour_ok c F N) as (b' & E' & Eb & El & _).
    rewrite E in E'. apply Ok_inv in E'. subst b'.
    assert (P : (2 <= steps)%Z) by nia.
    assert (C : chistory b [CLut s] = setCLut b (table s c)).
    { cbn [chistory fold_left cstep]. unfold contourLUT. rewrite El. cbn [length Z.of_nat]. destruct (Z.eqb_spec 0 s); [lia|]. rewrite Eb, concat_table by assumption. reflexivity. }
    rewrite C. unfold contourLUT. cbn [setCLut c_lut]. rewrite table_length by (assumption || lia).
    replace (Z.of_nat (length c * (Z.to_nat s - 1) + 1)) with steps by nia. rewrite Z.eqb_refl. split; [reflexivity|].
    rewrite El. cbn [length Z.of_nat]. destruct (Z.eqb_spec 0 steps); [lia|]. rewrite Eb, concat_table by assumption. split; [reflexivity|].
    rewrite !table_length by (assumption || lia). nia.
  Qed.

  (** ** Nearest table entry *)
  Definition best (p : pt) (done : list pt) (st : Z * R * Z) : Prop :=
    let '(ix, cl, i) := st in ix = Z.of_nat (length done) /\
    ((i = (-1)%Z /\ cl = maxSafe /\ forall q, In q done -> maxSafe <= vdist q p) \/
     (exists k, i = Z.of_nat k /\ (k < length done)%nat /\ cl = vdist (nth k done (0, 0)) p /\ cl < maxSafe /\
        (forall q, In q done -> cl <= vdist q p) /\ forall m, (m < k)%nat -> cl < vdist (nth m done (0, 0)) p)).
  Lemma hypot_dist (p q : pt) : thypot (fst q - fst p)%num (snd q - snd p)%num = vdist q p.
  Proof. numRg. unfold vdist, dist2. f_equal. ring. Qed.
  Lemma best_step p done st q : best p done st -> best p (done ++ [q]) (closestStep p st q).
  Proof.
    destruct st as [[ix cl] i]. unfold best, closestStep. rewrite hypot_dist. intros (-> & H). rewrite app_length. cbn [length].
    numRg. destruct (Rltb_spec (vdist q p) cl) as [Lt|Ge].
    - split; [lia|]. right. exists (length done). split; [reflexivity|]. split; [lia|]. rewrite app_nth2, Nat.sub_diag by lia. cbn [nth]. split; [reflexivity|].
      assert (Q : forall x, In x done -> vdist q p < vdist x p).
      { intros x X. destruct H as [(_ & -> & A)|(k & _ & _ & _ & _ & A & _)]; specialize (A x X); lra. }
      split; [destruct H as [(_ & -> & _)|(k & _ & _ & _ & B & _)]; lra|].
      split; [intros x X; apply in_app_or in X as [X|[<-|[]]]; [left; now apply Q|lra]|].
      intros m M. rewrite app_nth1 by exact M. apply Q, nth_In, M.
    - split; [lia|]. destruct H as [(A & B & C)|(k & A & B & C & D & E & G)].
      + left. split; [exact A|]. split; [exact B|]. intros x X. apply in_app_or in X as [X|[<-|[]]]; [now apply C|lra].
      + right. exists k. split; [exact A|]. split; [lia|]. rewrite app_nth1 by exact B. split; [exact C|]. split; [exact D|].
        split; [intros x X; apply in_app_or in X as [X|[<-|[]]]; [now apply E|lra]|]. intros m M. rewrite app_nth1 by lia. now apply G.
  Qed.
  Lemma best_fold p lut : forall done st, best p done st -> best p (done ++ lut) (fold_left (closestStep p) lut st).
  Proof.
    induction lut as [|q lut IH]; intros done st B; [now rewrite app_nil_r|]. cbn [fold_left]. specialize (IH (done ++ [q]) _ (best_step p done st q B)).
    now rewrite <- app_assoc in IH.
  Qed.
  Theorem findClosest_spec (p : pt) (lut : list pt) :
    (findClosest p lut = (-1)%Z /\ forall q, In q lut -> maxSafe <= vdist q p) \/
    (exists k, findClosest p lut = Z.of_nat k /\ (k < length lut)%nat /\ vdist (nth k lut (0, 0)) p < maxSafe /\
       (forall q, In q lut -> vdist (nth k lut (0, 0)) p <= vdist q p) /\
       forall m, (m < k)%nat -> vdist (nth k lut (0, 0)) p < vdist (nth m lut (0, 0)) p).
  Proof.
    pose proof (best_fold p lut [] (0%Z, maxSafe, (-1)%Z)) as B. cbn [app] in B. unfold findClosest.
    destruct (fold_left (closestStep p) lut (0%Z, maxSafe, (-1)%Z)) as [[ix cl] i]. destruct B as (_ & [(A & _ & C)|(k & A & B & -> & D & E & G)]).
    - split; [reflexivity|]. left. split; [reflexivity|]. split; [reflexivity|]. intros q [].
    - left. auto.
    - right. exists k. auto.
  Qed.

  (** ** Edits *)
  Lemma replace_nth {A} (l : list A) i v : (i < length l)%nat -> forall j d, nth j (replaceAt l i v) d = if Nat.eqb j i then v else nth j l d.
  Proof.
    revert i. induction l as [|a l IH]; intros [|i] L j d; try (simpl in L; lia).
    - destruct j; reflexivity.
    - destruct j as [|j]; [reflexivity|]. cbn [replaceAt nth Nat.eqb]. apply IH. simpl in L. lia.
  Qed.
  Lemma replace_map {A B} (f : A -> B) l i v : map f (replaceAt l i v) = replaceAt (map f l) i (f v).
  Proof. revert i. induction l as [|a l IH]; intros [|i]; try reflexivity. cbn. now rewrite IH. Qed.
  Lemma delete_map {A B} (f : A -> B) l i : map f (deleteAt l i) = deleteAt (map f l) i.
  Proof. revert i. induction l as [|a l IH]; intros [|i]; try reflexivity. cbn. now rewrite IH. Qed.
  Lemma contourEnds_new c : Forall drawable c -> c <> [] -> exists b, newContour c = Ok b /\ contourEnds (curves c) = Ok (c_start b, c_end b).
  Proof.
    intros F N. unfold newContour. destruct (new_loop c F [] (BoundsRectangle [])) as (b' & E & _); [eexists; reflexivity|]. rewrite E. cbn [bind app].
    destruct (newContour_ok c F N) as (b & Eb & _). unfold newContour in Eb. rewrite E in Eb. cbn [bind app] in Eb.
    destruct (contourEnds (curves c)) as [[s e]|]; [|discriminate]. cbn [bind]. eexists. split; reflexivity.
  Qed.
  Lemma drawable_replace c i v : Forall drawable c -> drawable v -> Forall drawable (replaceAt c i v).
  Proof. intros F D. revert i. induction F; intros [|i]; cbn; auto. Qed.
  Lemma drawable_delete c i : Forall drawable c -> Forall drawable (deleteAt c i).
  Proof. intros F. revert i. induction F; intros [|i]; cbn; auto. Qed.
  Theorem setitem_ends c (b : bcontour R) i v : Forall drawable c -> c_beziers b = curves c -> (i < length c)%nat -> drawable v ->
    exists b' f, setitem b i v = (b', None) /\ newContour (replaceAt c i v) = Ok f /\ c_beziers b' = c_beziers f /\
      c_start b' = c_start f /\ c_end b' = c_end f /\ c_bounds b' = c_bounds b /\ c_lut b' = c_lut b.
  Proof.
    intros F Eb L D. unfold setitem. rewrite newBezier_ok by apply D. rewrite Eb. unfold curves at 1. rewrite map_length. apply Nat.ltb_lt in L as L'. rewrite L'.
    numRg. unfold curves. rewrite <- (replace_map (fun s => mkBez s 0 1) c i v). fold (curves (replaceAt c i v)).
    assert (N : replaceAt c i v <> []) by (destruct c, i; try discriminate; simpl in L; lia).
    pose proof (drawable_replace c i v F D) as F'. destruct (contourEnds_new _ F' N) as (f & E1 & E2). rewrite E2.
    destruct (newContour_ok _ F' N) as (f' & E3 & E4 & _). rewrite E1 in E3. apply Ok_inv in E3. subst f'.
    eexists; exists f. split; [reflexivity|]. cbn. rewrite E4. auto 10.
  Qed.
  Theorem delitem_ends c (b : bcontour R) i : Forall drawable c -> c_beziers b = curves c -> (i < length c)%nat -> (2 <= length c)%nat ->
    exists b' f, delitem b i = (b', None) /\ newContour (deleteAt c i) = Ok f /\ c_beziers b' = c_beziers f /\
      c_start b' = c_start f /\ c_end b' = c_end f /\ c_bounds b' = c_bounds b /\ c_lut b' = c_lut b.
  Proof.
    intros F Eb L L2. unfold delitem. rewrite Eb. unfold curves at 1. rewrite map_length. apply Nat.ltb_lt in L as L'. rewrite L'.
    unfold curves. rewrite <- (delete_map (fun s => mkBez s 0 1) c i). fold (curves (deleteAt c i)).
    assert (N : deleteAt c i <> []) by (destruct c as [|x [|y c]], i; try discriminate; simpl in *; lia).
    pose proof (drawable_delete c i F) as F'. destruct (contourEnds_new _ F' N) as (f & E1 & E2). rewrite E2.
    destruct (newContour_ok _ F' N) as (f' & E3 & E4 & _). rewrite E1 in E3. apply Ok_inv in E3. subst f'.
    eexists; exists f. split; [reflexivity|]. cbn. rewrite E4. auto 10.
  Qed.
  Theorem delete_only (s : list pt) (b : bcontour R) : newContour [s] = Ok b -> drawable s -> exists b', delitem b 0 = (b', Some IndexError) /\ c_beziers b' = [].
  Proof.
    intros E D. destruct (newContour_ok [s]) as (b' & E' & Eb & _); [auto|discriminate|]. rewrite E in E'. apply Ok_inv in E'. subst b'.
    unfold delitem. rewrite Eb. cbn. eexists. split; [reflexivity|reflexivity].
  Qed.
  (** The bounds after an edit are the old ones. *)
  Theorem stale_bounds : exists (b b' f : bcontour R), newContour [[(0, 0); (1, 1)]] = Ok b /\ setitem b 0 [(0, 0); (50, 50)] = (b', None) /\
    newContour [[(0, 0); (50, 50)]] = Ok f /\ enclosesPoint (c_bounds f) (50, 50) = true /\ enclosesPoint (c_bounds b') (50, 50) = false.
  Proof.
    assert (D : Forall drawable [[(0, 0); (1, 1)]]) by (repeat constructor).
    destruct (newContour_ok _ D) as (b & E & Eb & _); [discriminate|].
    destruct (setitem_ends _ b 0 [(0, 0); (50, 50)] D Eb) as (b' & f & E1 & E2 & _ & _ & _ & Bd & _); [simpl; lia|split; simpl; lia|].
    cbn [replaceAt] in E2. exists b, b', f. split; [exact E|]. split; [exact E1|]. split; [exact E2|]. split.
    - destruct (newContour_ok [[(0, 0); (50, 50)]]) as (f' & E3 & _ & _ & _ & _ & _ & K); [repeat constructor|discriminate|]. rewrite E2 in E3. apply Ok_inv in E3. subst f'.
      specialize (K [(0, 0); (50, 50)] 1 (or_introl eq_refl) ltac:(lra)). rewrite curve_1 in K by (simpl; lia). exact K.
    - rewrite Bd. destruct (enclosesPoint (c_bounds b) (50, 50)) eqn:X; [exfalso|reflexivity].
      destruct (rect_tight rnd (mkBez [(0, 0); (1, 1)] 0 1)) as (r & Er & (t0 & q0 & T0 & Gt0 & Rl) & (t & q & T & Gt & Rr) & _).
      { simpl; lia. } { intros q [<-|[<-|[]]]; cbn [fst snd]; split; apply Rabs_le; lra. }
      destruct (curve_bounds [(0, 0); (1, 1)]) as (r' & Er' & (ps & Mp) & _); [split; simpl; lia|]. rewrite Er in Er'. apply Ok_inv in Er'. subst r'.
      assert (Bb : c_bounds b = union (BoundsRectangle []) r).
      { unfold newContour in E. cbn [foldM] in E. rewrite newBezier_ok in E by (simpl; lia). cbn [bind fst snd] in E.
        change (mkBez [(0, 0); (1, 1)] (nofZ 0) (nofZ 1)) with (mkBez [(0, 0); (1, 1)] 0 1) in E. rewrite Er in E. cbn [bind foldM] in E.
        destruct (contourEnds _) as [[s0 e0]|]; [|discriminate]. cbn [bind] in E. apply Ok_inv in E. subst b. reflexivity. }
      rewrite get_ok in Gt, Gt0 by (simpl; lia). apply Ok_inv in Gt, Gt0. subst q q0. cbn [cps] in Rr, Rl. rewrite curve2 in Rr, Rl. cbn [fst snd] in Rr, Rl.
      apply enclosesPoint_iff in X. destruct X as (_ & X & _). cbn [fst snd] in X. apply Rleb_true in X.
      assert (K : right (c_bounds b) <= 1); [|lra]. rewrite Bb. unfold union. cbn [fst snd].
      unfold BoundsRectangle. cbn [fold_left addPoint emptyRect left right top bottom fst snd]. revert Rr Rl. generalize (right r) (left r). intros x y Rx Ry.
      unfold pmin, pmax. numRg. rcases; lra.
  Qed.
  Theorem stale_table (c : list (list pt)) (b : bcontour R) (v : list pt) (s : Z) : drawable v -> length c = 1%nat -> Forall drawable c -> newContour c = Ok b -> (2 <= s)%Z ->
    snd (contourLUT (chistory b [CLut s; CSet 0 v]) s) = Ok (table s c).
  Proof.
    intros D L F E S. assert (N : c <> []) by (intros ->; discriminate). destruct (newContour_ok c F N) as (b' & E' & Eb & El & _). rewrite E in E'. apply Ok_inv in E'. subst b'.
    cbn [chistory fold_left cstep].
    assert (C : fst (contourLUT b s) = setCLut b (table s c)).
    { unfold contourLUT. rewrite El. cbn [length Z.of_nat]. destruct (Z.eqb_spec 0 s); [lia|]. rewrite Eb, concat_table by assumption. reflexivity. }
    rewrite C. destruct (setitem_ends c (setCLut b (table s c)) 0 v F Eb) as (b' & f & E1 & _ & _ & _ & _ & _ & Lu); [lia|exact D|]. rewrite E1. cbn [fst].
    unfold contourLUT. rewrite Lu. cbn [setCLut c_lut]. rewrite table_length by (assumption || lia). rewrite L. replace (Z.of_nat (1 * (Z.to_nat s - 1) + 1)) with s by lia. rewrite Z.eqb_refl. reflexivity.
  Qed.
End Contours.
