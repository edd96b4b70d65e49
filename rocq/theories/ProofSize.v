(** Proofs for C136: sizes of results, whatever the numbers are. *)
From Coq Require Import List ZArith Bool Lia Reals.
From Verif Require Import Py MBezUtil MTransform MPathUtil MBezier.
Import ListNotations.

Section Size.
  Context {T : Type} {N : NumOps T}.
  Lemma mapM_len {A B} (f : A -> res B) : forall l r, mapM f l = Ok r -> length r = length l.
  Proof.
    induction l as [|a l IH]; intros r E; cbn [mapM] in E; [now injection E as <-|].
    destruct (f a); cbn [bind] in E; [|discriminate]. destruct (mapM f l) as [r'|]; cbn [bind] in E; [|discriminate].
    injection E as <-. cbn [length]. f_equal. now apply IH.
  Qed.
  Lemma filterM_len {A} (f : A -> res bool) : forall l r, filterM f l = Ok r -> length r <= length l.
  Proof.
    induction l as [|a l IH]; intros r E; cbn [filterM] in E; [now injection E as <-|].
    destruct (f a) as [v|]; cbn [bind] in E; [|discriminate]. destruct (filterM f l) as [r'|]; cbn [bind] in E; [|discriminate].
    specialize (IH _ eq_refl). destruct v; injection E as <-; cbn [length]; lia.
  Qed.
  Lemma insert_len (x : T) : forall l, length (insert x l) = S (length l).
  Proof. induction l as [|y l IH]; [reflexivity|]. cbn [insert]. destruct (_ <? _)%num; cbn [length]; auto. Qed.
  Lemma sorted_len (l : list T) : length (sorted l) = length l.
  Proof.
    unfold sorted. enough (G : forall l a, length (fold_left (fun acc x => insert x acc) l a) = length l + length a) by (rewrite G; cbn; lia).
    clear l. induction l as [|x l IH]; intros a; [reflexivity|]. cbn [fold_left length]. rewrite IH, insert_len. lia.
  Qed.
  Lemma dedup_len {A} (eqb : A -> A -> bool) (l : list A) : length (removeDuplicates eqb l) <= length l.
  Proof.
    unfold removeDuplicates. enough (G : forall k a, length (fold_left (fun result iv => match index_of eqb (snd iv) l with
      | Some j => if Nat.eqb j (fst iv) then result ++ [snd iv] else result | None => result end) k a) <= length k + length a).
    { eapply Nat.le_trans; [apply G|]. rewrite combine_length, seq_length. cbn [length]. lia. }
    induction k as [|x k IH]; intros a; [cbn; lia|]. cbn [fold_left length]. eapply Nat.le_trans; [apply IH|].
    destruct (index_of eqb (snd x) l) as [j|]; [destruct (Nat.eqb j (fst x))|]; rewrite ?app_length; cbn [length]; lia.
  Qed.
  Lemma flat_len {A B} (f : A -> list B) : (forall a, length (f a) <= 1) -> forall l, length (flat_map f l) <= length l.
  Proof. intros F. induction l as [|a l IH]; [cbn; lia|]. cbn [flat_map length]. rewrite app_length. specialize (F a). lia. Qed.
  Lemma addEnds_len (l : list T) : length (addEnds l) <= length l + 2.
  Proof.
    unfold addEnds. destruct (nmem (nofZ 0) l); [destruct (nmem (nofZ 1) l) | destruct (nmem (nofZ 1) (nofZ 0 :: l))]; rewrite ?app_length; cbn [length]; lia.
  Qed.
  Lemma dcLevel_len (f : point T -> point T -> point T) : forall p, length (dcLevel f p) = length p - 1.
  Proof. induction p as [|a [|b p] IH]; [reflexivity|reflexivity|]. cbn [dcLevel length] in *. rewrite IH. lia. Qed.

  Context {TO : TrigOps T}.
  Lemma keep_len (l : list (option T)) : length (keepRoots l) <= length l.
  Proof. apply flat_len. intros [t|]; [destruct (rootOk t)|]; cbn; lia. Qed.
  Lemma unit_len (l : list (option T)) : length (inUnit l) <= length l.
  Proof. apply flat_len. intros [t|]; [destruct (_ && _)|]; cbn; lia. Qed.
  Lemma quadRoots_len (a b c : T) : length (quadRoots a b c) <= 2.
  Proof.
    unfold quadRoots. destruct (negb _).
    - destruct (bsqrt _); eapply Nat.le_trans; try apply keep_len; cbn; lia.
    - destruct (_ && _); [eapply Nat.le_trans; [apply keep_len|]|]; cbn; lia.
  Qed.
  Lemma cubicRoots_len (a b c d : T) : length (cubicRoots a b c d) <= 3.
  Proof.
    unfold cubicRoots. cbv zeta. destruct (approximately _ _).
    - destruct (approximately _ _); [destruct (approximately _ _)|destruct (bsqrt _)]; try (eapply Nat.le_trans; [apply keep_len|]); cbn; lia.
    - destruct (_ <? _)%num; [destruct (bsqrt _)|destruct (approximately _ _); [|destruct (bsqrt _)]]; (eapply Nat.le_trans; [apply keep_len|]); cbn; lia.
  Qed.
  Lemma droots_len (p : list T) : length (droots p) <= 2 /\ (length p = 2 -> length (droots p) <= 1).
  Proof.
    destruct p as [|a [|b [|c [|d p]]]]; cbn [droots length]; try (split; intros; cbn; lia).
    - split; intros; destruct (negb _); cbn; lia.
    - split; [|lia]. destruct (negb _); [destruct (bsqrt _)|destruct (_ && _)]; cbn; lia.
  Qed.
  Theorem roots_size (b : bezier T) (seg : option (segment T)) (l : list T) : roots b seg = Ok l ->
    3 <= length (cps b) /\ length l <= 3 /\ (length (cps b) = 3 -> length l <= 2).
  Proof.
    unfold roots. set (P := match seg with Some ((_ :: _) as s) => alignPoints (cps b) s | _ => Ok (cps b) end).
    assert (L : forall p, P = Ok p -> length p = length (cps b)).
    { intros p E. unfold P in E. destruct seg as [[|x s]|]; [injection E as <-; reflexivity| |injection E as <-; reflexivity].
      unfold alignPoints in E. destruct (rawSlopeAngle _); cbn [bind] in E; [|discriminate]. unfold idx in E. cbn [nth_error bind] in E.
      destruct (moveAndRotate _ _ _); cbn [bind] in E; [|discriminate]. unfold applyToSegment in E. now apply mapM_len in E. }
    destruct P as [p|]; cbn [bind]; [|discriminate]. specialize (L p eq_refl). rewrite <- L.
    destruct p as [|a [|c [|d p]]]; unfold idx; cbn [nth_error bind length Nat.sub Nat.eqb]; try discriminate.
    destruct p as [|e p]; cbn [nth_error bind length Nat.sub Nat.eqb].
    - intros E. injection E as <-. pose proof (quadRoots_len (snd a) (snd c) (snd d)). lia.
    - intros E. injection E as <-. pose proof (cubicRoots_len (snd a) (snd c) (snd d) (snd e)). lia.
  Qed.
  Theorem line_size (b : bezier T) (p1 p2 : point T) (l : list T) : lineIntersects b p1 p2 = Ok l ->
    length l <= 3 /\ (length (cps b) = 3 -> length l <= 2).
  Proof.
    unfold lineIntersects. destruct (roots b _) as [r|] eqn:E; cbn [bind]; [|discriminate]. apply roots_size in E. intros F. apply filterM_len in F. lia.
  Qed.
  Theorem extrema_size (b : bezier T) (e : extremaT T) : extrema b = Ok e ->
    length (ex0 e) <= 4 /\ length (ex1 e) <= 4 /\ length (ex2 e) <= length (ex0 e) + length (ex1 e) /\
    (length (cps b) = 3 -> length (ex0 e) <= 1 /\ length (ex1 e) <= 1) /\ (length (cps b) = 4 -> length (ex0 e) <= 3 /\ length (ex1 e) <= 3).
  Proof.
    assert (G : forall d l, extremaDim b d = Ok l -> length l <= 4 /\ (length (cps b) = 3 -> length l <= 1) /\ (length (cps b) = 4 -> length l <= 3)).
    { intros d l. unfold extremaDim. destruct (idx (dcPoints b) 0) as [p|] eqn:E0; cbn [bind]; [|discriminate].
      pose proof (droots_len (map (coord d) p)) as [A A'].
      destruct (Nat.eqb (order b) 3) eqn:O.
      - destruct (idx (dcPoints b) 1) as [p1|] eqn:E1; cbn [bind]; [|discriminate]. intros E. injection E as <-.
        pose proof (droots_len (map (coord d) p1)) as [B B'].
        pose proof (unit_len (droots (map (coord d) p) ++ droots (map (coord d) p1))) as U. rewrite app_length in U.
        apply Nat.eqb_eq in O. unfold order in O. split; [lia|]. split; [lia|]. intros L.
        assert (length p1 = 2). { unfold dcPoints in E1. rewrite L in E1. cbn [dcPointsFrom] in E1. unfold idx in E1. cbn [nth_error] in E1. injection E1 as <-. rewrite !dcLevel_len, L. reflexivity. }
        rewrite map_length in B'. specialize (B' ltac:(assumption)). lia.
      - cbn [bind]. intros E. injection E as <-. pose proof (unit_len (droots (map (coord d) p))) as U. apply Nat.eqb_neq in O. unfold order in O.
        split; [lia|]. split; [|lia]. intros L.
        assert (length p = 2). { unfold dcPoints in E0. rewrite L in E0. cbn [dcPointsFrom] in E0. unfold idx in E0. cbn [nth_error] in E0. injection E0 as <-. rewrite !dcLevel_len, L. reflexivity. }
        rewrite map_length in A'. specialize (A' ltac:(assumption)). lia. }
    unfold extrema. destruct (extremaDim b 0) as [e0|] eqn:E0; cbn [bind]; [|discriminate]. destruct (extremaDim b 1) as [e1|] eqn:E1; cbn [bind]; [|discriminate].
    intros E. injection E as <-. cbn [ex0 ex1 ex2]. apply G in E0, E1. split; [lia|]. split; [lia|]. split; [|lia].
    eapply Nat.le_trans; [apply dedup_len|]. rewrite sorted_len, app_length, !sorted_len. lia.
  Qed.

  (** ** reduce *)
  Lemma inner_more p1 t1 k : forall f t2, reduceInner f p1 t1 t2 <> Err OutOfFuel -> reduceInner (k + f) p1 t1 t2 = reduceInner f p1 t1 t2.
  Proof.
    induction f as [|f IH]; intros t2 H; [now elim H|]. rewrite Nat.add_succ_r. cbn [reduceInner] in *. destruct (_ <=? _)%num; [|reflexivity].
    destruct (split2curve p1 t1 t2); cbn [bind] in *; [|reflexivity]. destruct (simple _) as [[]|]; cbn [bind] in *; [|reflexivity|reflexivity]. now apply IH.
  Qed.
  Lemma outer_more p1 k : forall f t1 t2 acc, reduceOuter f p1 t1 t2 acc <> Err OutOfFuel -> reduceOuter (k + f) p1 t1 t2 acc = reduceOuter f p1 t1 t2 acc.
  Proof.
    induction f as [|f IH]; intros t1 t2 acc H; [now elim H|]. rewrite Nat.add_succ_r. cbn [reduceOuter] in *. destruct (_ <=? _)%num; [|reflexivity].
    rewrite <- Nat.add_succ_r, (inner_more p1 t1 k (S f)).
    - destruct (reduceInner (S f) p1 t1 _) as [[|t sg|]|]; cbn [bind] in *; auto.
    - intros E. rewrite E in H. now apply H.
  Qed.
  Lemma pass2_more k f : forall ps acc, reducePass2 f ps acc <> Err OutOfFuel -> reducePass2 (k + f) ps acc = reducePass2 f ps acc.
  Proof.
    induction ps as [|p ps IH]; intros acc H; [reflexivity|]. cbn [reducePass2] in *. rewrite (outer_more p k f).
    - destruct (reduceOuter f p _ _ _) as [[[t segs]|]|]; cbn [bind] in *; [|reflexivity|reflexivity].
      destruct (if (t <? nofZ 1)%num then _ else _) as [acc'|]; cbn [bind] in *; [now apply IH | reflexivity].
    - intros E. rewrite E in H. now apply H.
  Qed.
  Lemma reduce_more (b : bezier T) k f : reduce f b <> Err OutOfFuel -> reduce (k + f) b = reduce f b.
  Proof.
    unfold reduce. destruct (extrema b); cbn [bind]; [|reflexivity]. destruct (idx _ 0); cbn [bind]; [|reflexivity].
    destruct (reducePass1 _ _ _); cbn [bind]; [|reflexivity]. apply pass2_more.
  Qed.
  Lemma outer_len p1 : forall f t1 t2 acc t segs, reduceOuter f p1 t1 t2 acc = Ok (Some (t, segs)) -> 1 <= f /\ length segs <= length acc + (f - 1).
  Proof.
    induction f as [|f IH]; intros t1 t2 acc t segs E; [discriminate|]. cbn [reduceOuter] in E. destruct (_ <=? _)%num.
    - destruct (reduceInner (S f) p1 t1 _) as [[|t' sg|]|]; cbn [bind] in E; try discriminate.
      + apply IH in E. rewrite app_length in E. cbn [length] in E. lia.
      + injection E as <- <-. lia.
    - injection E as <- <-. lia.
  Qed.
  Lemma pass2_len f : forall ps acc l, reducePass2 f ps acc = Ok l -> length l <= length acc + length ps * f.
  Proof.
    induction ps as [|p ps IH]; intros acc l E; cbn [reducePass2] in E; [injection E as <-; lia|].
    destruct (reduceOuter f p _ _ _) as [[[t segs]|]|] eqn:O; cbn [bind] in E; [|injection E as <-; cbn; lia|discriminate].
    apply outer_len in O. cbn [length] in *. destruct (t <? nofZ 1)%num.
    - destruct (split2curve p t _); cbn [bind] in E; [|discriminate]. destruct (bmap _ _ _ _ _); cbn [bind] in E; [|discriminate].
      apply IH in E. rewrite !app_length in E. cbn [length] in E. nia.
    - cbn [bind] in E. apply IH in E. rewrite !app_length in E. nia.
  Qed.
  Lemma pass1_len (b : bezier T) : forall ts t l, reducePass1 b t ts = Ok l -> length l = length ts.
  Proof.
    induction ts as [|u ts IH]; intros t l E; cbn [reducePass1] in E; [now injection E as <-|].
    destruct (split2curve b t u); cbn [bind] in E; [|discriminate]. destruct (reducePass1 b u ts) as [r|] eqn:R; cbn [bind] in E; [|discriminate].
    injection E as <-. cbn [length]. f_equal. eapply IH; eauto.
  Qed.
  Lemma reduce_len (b : bezier T) f l : reduce f b = Ok l ->
    length l <= 9 * f /\ (length (cps b) = 3 -> length l <= 3 * f) /\ (length (cps b) = 4 -> length l <= 7 * f).
  Proof.
    unfold reduce. destruct (extrema b) as [e|] eqn:E; cbn [bind]; [|discriminate]. apply extrema_size in E. destruct (idx _ 0); cbn [bind]; [|discriminate].
    destruct (reducePass1 _ _ _) as [p|] eqn:P; cbn [bind]; [|discriminate]. apply pass1_len in P. intros R. apply pass2_len in R. cbn [length] in R.
    pose proof (addEnds_len (ex2 e)) as A. assert (Q : length p <= length (ex2 e) + 1) by (rewrite P; destruct (addEnds (ex2 e)); cbn [tl length] in *; lia).
    split; [nia|]. split; intros L; nia.
  Qed.
  (** When 102 rounds are enough, more change nothing. *)
  Theorem reduce_size (b : bezier T) (f : nat) l : reduce 102 b <> Err OutOfFuel -> reduce f b = Ok l ->
    length l <= 918 /\ (length (cps b) = 3 -> length l <= 306) /\ (length (cps b) = 4 -> length l <= 714).
  Proof.
    intros H E. destruct (Nat.le_gt_cases f 102) as [L|L]; [apply reduce_len in E; lia|].
    replace f with ((f - 102) + 102) in E by lia. rewrite reduce_more in E by exact H. apply reduce_len in E. lia.
  Qed.
  Theorem offset_size (b : bezier T) (f : nat) (d : T) l : reduce 102 b <> Err OutOfFuel -> offsetCurves f b d = Ok l ->
    length l <= 918 /\ (length (cps b) = 3 -> length l <= 306) /\ (length (cps b) = 4 -> length l <= 714).
  Proof.
    intros H. unfold offsetCurves. destruct (isLinear (cps b)) as [[]|]; cbn [bind]; [| |discriminate].
    - unfold offsetLinear. destruct (normal _ _); cbn [bind]; [|discriminate]. destruct (newBezier _); cbn [bind]; [|discriminate]. intros E. injection E as <-. cbn [length]. lia.
    - destruct (reduce f b) as [r|] eqn:R; cbn [bind]; [|discriminate]. intros E. apply mapM_len in E. rewrite E. now apply (reduce_size b f).
  Qed.
End Size.
