(** selfIntersects (Bezier.py 687-701): what the pairs of non-adjacent segments of reduce can miss. *)
From Coq Require Import List ZArith Bool Reals Lra Lia Sorting.Sorted.
From Verif Require Import Py Inst SpecGeom SpecMatrix SpecFit SpecUtil SpecBezier SpecOrder SpecBounds SpecCurve
  MTransform MBounds MBezUtil MPathUtil MBezier ProofMatrix ProofFit ProofUtil ProofBounds ProofBezier ProofBezier2 ProofBezier3 ProofBBox ProofInter ProofReduce.
Import ListNotations.
Local Open Scope R_scope.

Section Self.
  Context (rnd : R -> R).
  #[local] Hint Extern 0 (TrigOps R) => exact (RTrig rnd) : typeclass_instances.
  (** No segment of [l] has [t] strictly inside. *)
  Definition uncut (l : list (bezier R)) (t : R) : Prop := forall s, In s l -> t <= bt1 s \/ bt2 s <= t.
  Lemma pass1_uncut (b : bezier R) : forall ts t1 segs, StronglySorted Rlt (t1 :: ts) -> reducePass1 b t1 ts = Ok segs ->
    (forall s, In s segs -> t1 <= bt1 s) /\ forall t, In t (t1 :: ts) -> uncut segs t.
  Proof.
    induction ts as [|t2 ts IH]; intros t1 segs S E; cbn [reducePass1] in E.
    - injection E as <-. split; [intros s []|intros t _ s []].
    - apply bind_Ok in E as (sg & E1 & E). apply bind_Ok in E as (rest & E2 & E). injection E as <-.
      inversion S as [|? ? S' F]; subst. rewrite Forall_forall in F. pose proof (F t2 (or_introl eq_refl)) as Lt.
      destruct (IH t2 rest S' E2) as [B U]. split.
      + intros s [<-|Hs]; [cbn [withInterval bt1]; lra|]. specialize (B s Hs). lra.
      + intros t [<-|Ht] s [<-|Hs]; cbn [withInterval bt1 bt2].
        * left. lra.
        * left. specialize (B s Hs). lra.
        * right. destruct Ht as [<-|Ht]; [lra|]. inversion S' as [|? ? _ F']; subst. rewrite Forall_forall in F'. specialize (F' t Ht). lra.
        * exact (U t Ht s Hs).
  Qed.
  Lemma pass2_within o fuel : (length o = 3 \/ length o = 4)%nat -> (102 <= fuel)%nat ->
    forall ps a z acc l, tiles o a z ps -> reducePass2 fuel ps acc = Ok l ->
    l = [] \/ forall s, In s l -> In s acc \/ exists p, In p ps /\ bt1 p <= bt1 s /\ bt2 s <= bt2 p.
  Proof.
    intros Lo F. induction ps as [|p1 ps IH]; intros a z acc l T E; cbn [reducePass2] in E.
    - injection E as <-. right. auto.
    - cbn [tiles] in T. destruct T as (B & Lt & Lp & C & T). rewrite <- B in Lt, C.
      pose proof (outer_spec rnd o p1 Lo Lp Lt C fuel 0 [] ltac:(lia) ltac:(lia)) as Ou.
      assert (Z0 : tk 0 = 0) by (unfold tk; simpl; lra). rewrite Z0 in Ou. numR.
      destruct (reduceOuter fuel p1 0 0 []) as [[[x l0]|]|e]; cbn [bind] in E; [|left; congruence|discriminate].
      destruct Ou as (m & segs & -> & M & -> & Ts & As & (sg & Es & Ss)). cbn [app] in E.
      pose proof (tk_lt m 100 M) as Lm. rewrite tk_100 in Lm, Es. pose proof rstep_val as RV. pose proof (tk_pos m) as Pm.
      rewrite (proj2 (Rltb_true (tk m) 1)) in E by lra. rewrite Es in E. cbn [bind] in E. rewrite bmap01 in E. cbn [bind] in E.
      destruct (IH _ _ _ _ T E) as [->|W]; [left; reflexivity|right]. intros s Hs.
      destruct (W s Hs) as [K|(p & Hp & P)]; [|right; exists p; split; [now right|exact P]].
      apply in_app_or in K as [K|K]; [left; exact K|]. right. exists p1. split; [now left|].
      apply in_app_or in K as [K|[<-|[]]].
      + destruct (tiles_In rnd _ _ _ _ _ Ts K) as (A1 & A2 & A3 & _). split; nra.
      + cbn [withInterval bt1 bt2]. split; nra.
  Qed.
  Lemma reduce_uncut (b : bezier R) fuel l : (length (cps b) = 3 \/ length (cps b) = 4)%nat -> (102 <= fuel)%nat -> reduce fuel b = Ok l -> l <> [] ->
    exists e0 e1, extremaDim b 0 = Ok e0 /\ extremaDim b 1 = Ok e1 /\ forall t, In t e0 \/ In t e1 -> uncut l t.
  Proof.
    intros L F E N. unfold reduce, extrema in E.
    destruct (extremaDim_spec rnd b 0) as (e0 & E0 & I0 & _); [lia|]. destruct (extremaDim_spec rnd b 1) as (e1 & E1 & I1 & _); [lia|].
    exists e0, e1. split; [exact E0|]. split; [exact E1|].
    rewrite E0 in E. cbn [bind] in E. rewrite E1 in E. cbn [bind ex2] in E.
    destruct (dedup_sorted (sorted e0 ++ sorted e1)) as (S & I).
    destruct (addEnds_sorted _ S) as (r & Er & Sr & Last & Nr).
    { intros t Ht. apply I in Ht. apply in_app_or in Ht. rewrite !sorted_In in Ht. destruct Ht; auto. }
    assert (Mem : forall t, In t e0 \/ In t e1 -> In t (0 :: r)).
    { intros t Ht. rewrite <- Er. apply addEnds_In. right. right. apply I. apply in_or_app. rewrite !sorted_In. exact Ht. }
    rewrite Er in E. unfold idx in E. cbn [nth_error bind tl] in E.
    apply bind_Ok in E as (segs & Ep & E).
    destruct (pass1_uncut b r 0 segs Sr Ep) as [_ U].
    assert (T : tiles (cps b) 0 1 segs).
    { destruct (pass1_ok b L r 0) as (segs' & Ep' & T & _); [lra|exact Sr| |rewrite Ep in Ep'; injection Ep' as <-; rewrite Last in T; exact T].
      intros t Ht. assert (G : forall l x, StronglySorted Rlt (x :: l) -> forall y, In y (x :: l) -> y <= last (x :: l) 0).
      { induction l0 as [|w l0 IH]; intros x Sx y Hy.
        - destruct Hy as [->|[]]. simpl. lra.
        - inversion Sx as [|? ? Sx' Fx]; subst. change (last (x :: w :: l0) 0) with (last (w :: l0) 0). destruct Hy as [->|Hy]; [|now apply IH].
          rewrite Forall_forall in Fx. pose proof (Fx w (or_introl eq_refl)). pose proof (IH w Sx' w (or_introl eq_refl)). lra. }
      rewrite <- Last. now apply G. }
    destruct (pass2_within (cps b) fuel L F segs 0 1 [] l T E) as [K|W]; [congruence|].
    intros t Ht s Hs. destruct (W s Hs) as [[]|(p & Hp & P1 & P2)]. destruct (U t (Mem t Ht) p Hp); [left|right]; lra.
  Qed.

  (** Rolle's theorem for a coordinate. *)
  Lemma rolle (f f' : R -> R) a z : (forall t, derivable_pt_lim f t (f' t)) -> a < z -> f a = f z -> exists t, a < t < z /\ f' t = 0.
  Proof.
    intros D Lt E.
    destruct (MVT_cor2 f f' a z Lt (fun t _ => D t)) as (c & Ec & Hc). exists c. split; [lra|].
    rewrite E in Ec. replace (f z - f z) with 0 in Ec by ring. symmetry in Ec. apply Rmult_integral in Ec. lra.
  Qed.
  (** The tangent does not vanish at the ends of a segment that reduce returned. *)
  Lemma ends_move (b s : bezier R) a z t d : (length (cps b) = 3 \/ length (cps b) = 4)%nat -> length (cps s) = length (cps b) -> a < z ->
    (forall u, curve (cps s) u = curve (cps b) (a + u * (z - a))) -> simple s = Ok true -> t = a \/ t = z -> is_deriv (curve (cps b)) t d -> d <> (0, 0).
  Proof.
    intros L Ls Lt C Si Ht D ->. destruct (simple_meaning rnd s) as [(d0 & d1 & D0 & D1 & P0 & P1 & _) _]; [rewrite Ls; exact L|exact Si|].
    destruct Ht as [->| ->].
    - assert (K : is_deriv (curve (cps s)) 0 ((z - a) * fst (0, 0), (z - a) * snd (0, 0))).
      { apply (is_deriv_part (cps b)); auto. replace (a + 0 * (z - a)) with a by ring. exact D. }
      rewrite (is_deriv_unique _ _ _ _ D0 K) in P0. unfold vdot in P0. cbn [fst snd] in P0. nra.
    - assert (K : is_deriv (curve (cps s)) 1 ((z - a) * fst (0, 0), (z - a) * snd (0, 0))).
      { apply (is_deriv_part (cps b)); auto. replace (a + 1 * (z - a)) with z by ring. exact D. }
      rewrite (is_deriv_unique _ _ _ _ D1 K) in P1. unfold vdot in P1. cbn [fst snd] in P1. nra.
  Qed.
  (** Where a coordinate returns to a value, a critical parameter lies in between, or the coordinate is constant. *)
  Lemma between_extremum (b : bezier R) k e u v : (length (cps b) = 3 \/ length (cps b) = 4)%nat -> extremaDim b k = Ok e -> 0 <= u -> u < v -> v <= 1 ->
    coord k (curve (cps b) u) = coord k (curve (cps b) v) ->
    (exists t, u < t < v /\ In t e /\ coord k (curve (dcLevel (diffStep (length (cps b) - 1)) (cps b)) t) = 0) \/
    forall t, coord k (curve (dcLevel (diffStep (length (cps b) - 1)) (cps b)) t) = 0.
  Proof.
    intros L E U Lt V Eq. destruct (extremaDim_spec rnd b k) as (e' & E' & _ & X); [lia|]. rewrite E in E'. injection E' as <-.
    pose proof (fun t => coord_deriv k (cps b) t ltac:(lia)) as D.
    destruct (rolle _ _ u v D Lt Eq) as (t & Ht & Z). destruct (X t ltac:(lra) Z) as [K|K]; [left; exists t; auto|right].
    intros w. apply (uniqueness_limite (fun s => coord k (curve (cps b) s)) w); [apply D|].
    refine (derivable_pt_lim_ext _ _ w _ _ (derivable_pt_lim_const (coord k (curve (cps b) 0)) w)). intros s. unfold fct_cte. symmetry. apply K.
  Qed.
  Lemma tiles_nth o : forall l a z i s, tiles o a z l -> nth_error l i = Some s ->
    forall j r, nth_error l j = Some r -> (i < j)%nat -> bt2 s <= bt1 r /\ (j = S i -> bt2 s = bt1 r) /\ ((S i < j)%nat -> bt2 s < bt1 r).
  Proof.
    induction l as [|x l IH]; intros a z i s T Hi j r Hj Lt; [destruct i; discriminate|].
    simpl in T. destruct T as (B & Lx & _ & _ & T). destruct j as [|j]; [lia|]. cbn [nth_error] in Hj. destruct i as [|i]; cbn [nth_error] in Hi.
    - injection Hi as <-. destruct (tiles_In rnd _ _ _ _ _ T (nth_error_In _ _ Hj)) as (A & _). split; [exact A|]. split.
      + intros K. assert (j = O) by lia. subst j. destruct l as [|y l]; [discriminate|]. injection Hj as <-. simpl in T. lra.
      + intros K. destruct l as [|y l]; [destruct j; discriminate|]. simpl in T. destruct T as (B' & Ly & _ & _ & T). destruct j as [|j]; [lia|]. cbn [nth_error] in Hj.
        destruct (tiles_In rnd _ _ _ _ _ T (nth_error_In _ _ Hj)) as (A' & _). lra.
    - destruct (IH _ _ i s T Hi j r Hj ltac:(lia)) as (A1 & A2 & A3). split; [exact A1|]. split; intros K; [apply A2|apply A3]; lia.
  Qed.
  (** Segments next to each other do not cross: a crossing within two consecutive segments would need a
      parameter where both coordinates turn back at once, and the tangent vanishes there. *)
  Lemma neighbours_apart (b : bezier R) fuel l i j s r u v : (length (cps b) = 3 \/ length (cps b) = 4)%nat -> (102 <= fuel)%nat -> reduce fuel b = Ok l ->
    nth_error l i = Some s -> nth_error l j = Some r -> bt1 s <= u <= bt2 s -> bt1 r <= v <= bt2 r -> u < v -> curve (cps b) u = curve (cps b) v -> (i + 2 <= j)%nat.
  Proof.
    intros L F E Hs Hr U V Lt Eq.
    destruct (reduce_spec rnd b fuel L F) as [K|(l' & E' & T)]; [congruence|]. assert (l = l') by congruence. subst l'. clear E'.
    assert (N : l <> []) by (intros ->; destruct i; discriminate). destruct T as [K|[T A]]; [congruence|].
    destruct (reduce_uncut b fuel l L F E N) as (e0 & e1 & E0 & E1 & Un).
    destruct (le_lt_dec (i + 2) j) as [K|J]; [exact K|exfalso].
    destruct (tiles_In rnd _ _ _ _ _ T (nth_error_In _ _ Hs)) as (S1 & S2 & S3 & Ls & Cs).
    destruct (tiles_In rnd _ _ _ _ _ T (nth_error_In _ _ Hr)) as (R1 & R2 & R3 & Lr & Cr).
    rewrite Forall_forall in A.
    set (dv := curve (dcLevel (diffStep (length (cps b) - 1)) (cps b))).
    assert (D : forall t, is_deriv (curve (cps b)) t (dv t)) by (intros t; apply curve_deriv; lia).
    (* the only place where a critical parameter can be *)
    assert (P : forall t, u < t < v -> In t e0 \/ In t e1 -> i <> j /\ t = bt2 s).
    { intros t Ht I. pose proof (Un t I s (nth_error_In _ _ Hs)) as Us. pose proof (Un t I r (nth_error_In _ _ Hr)) as Ur.
      destruct (Nat.eq_dec i j) as [<-|Nij].
      - assert (r = s) by congruence. subst r. lra.
      - split; [exact Nij|]. destruct (le_lt_dec i j) as [K|K].
        + destruct (tiles_nth _ _ _ _ _ _ T Hs j r Hr ltac:(lia)) as (_ & W & _). specialize (W ltac:(lia)). lra.
        + destruct (tiles_nth _ _ _ _ _ _ T Hr i s Hs K) as (W & _). lra. }
    assert (Cx : coord 0 (curve (cps b) u) = coord 0 (curve (cps b) v)) by now rewrite Eq.
    assert (Cy : coord 1 (curve (cps b) u) = coord 1 (curve (cps b) v)) by now rewrite Eq.
    assert (Mv : forall t, t = bt1 s \/ t = bt2 s -> dv t <> (0, 0)).
    { intros t Ht. exact (ends_move b s (bt1 s) (bt2 s) t (dv t) L Ls S2 Cs (A s (nth_error_In _ _ Hs)) Ht (D t)). }
    assert (Pair : forall t, coord 0 (dv t) = 0 -> coord 1 (dv t) = 0 -> dv t = (0, 0)).
    { intros t. destruct (dv t) as [x y]. unfold coord. cbn. congruence. }
    destruct (between_extremum b 0 e0 u v L E0 ltac:(lra) Lt ltac:(lra) Cx) as [(t & Ht & It & Zt)|Zx];
    destruct (between_extremum b 1 e1 u v L E1 ltac:(lra) Lt ltac:(lra) Cy) as [(w & Hw & Iw & Zw)|Zy].
    - destruct (P t Ht (or_introl It)) as [_ ->]. destruct (P w Hw (or_intror Iw)) as [_ ->]. exact (Mv _ (or_intror eq_refl) (Pair _ Zt Zw)).
    - destruct (P t Ht (or_introl It)) as [_ ->]. exact (Mv _ (or_intror eq_refl) (Pair _ Zt (Zy _))).
    - destruct (P w Hw (or_intror Iw)) as [_ ->]. exact (Mv _ (or_intror eq_refl) (Pair _ (Zx _) Zw)).
    - exact (Mv _ (or_intror eq_refl) (Pair _ (Zx _) (Zy _))).
  Qed.
  Lemma firstn_skipn_nth {A} (l : list A) i s : nth_error l i = Some s -> firstn 1 (skipn i l) = [s].
  Proof. revert i. induction l as [|x l IH]; intros [|i] H; try discriminate; cbn in *; [congruence|]. exact (IH i H). Qed.
  Lemma In_skipn_nth {A} (l : list A) i x : In x (skipn i l) <-> exists j, (i <= j)%nat /\ nth_error l j = Some x.
  Proof.
    revert l. induction i as [|i IH]; intros l; cbn [skipn].
    - split; [intros H; apply In_nth_error in H as (j & H); exists j; split; [lia|auto]|intros (j & _ & H); eapply nth_error_In; eauto].
    - destruct l as [|y l]; [split; [intros []|intros ([|j] & _ & H); discriminate]|]. rewrite IH. split; intros (j & J & H).
      + exists (S j). split; [lia|exact H].
      + destruct j as [|j]; [lia|]. exists j. split; [lia|exact H].
  Qed.
  Lemma nth_skip {A} (l : list A) i : (i < length l)%nat -> exists s, nth_error l i = Some s.
  Proof. intros H. destruct (nth_error l i) eqn:E; [eauto|]. apply nth_error_None in E. lia. Qed.
  Theorem self_sound rf f (b : bezier R) th res t s : (length (cps b) = 3 \/ length (cps b) = 4)%nat -> (102 <= rf)%nat ->
    selfIntersects rf f b th = Ok res -> In (t, s) res ->
    0 <= t /\ t < s /\ s <= 1 /\ taxi (curve (cps b) t) (curve (cps b) s) < 2 * th.
  Proof.
    intros L F E I. unfold selfIntersects in E.
    destruct (reduce_spec rnd b rf L F) as [K|(l & El & T)]; [rewrite K in E; discriminate|]. rewrite El in E. cbn [bind] in E.
    apply bind_Ok in E as (rs & M & E). injection E as <-. apply in_concat in I as (x & Hx & I).
    destruct (In_mapM _ _ _ M x Hx) as (i & Hi & Ex). apply in_seq in Hi.
    destruct T as [->|[T _]]; [simpl in Hi; lia|]. destruct (nth_skip l i ltac:(lia)) as (p & Hp). rewrite (firstn_skipn_nth _ _ _ Hp) in Ex.
    assert (Fl : forall q, In q l -> (length (cps q) = 3 \/ length (cps q) = 4)%nat).
    { intros q Hq. destruct (tiles_In rnd _ _ _ _ _ T Hq) as (_ & _ & _ & -> & _). exact L. }
    assert (F2 : Forall (fun c => length (cps c) = 3 \/ length (cps c) = 4)%nat (skipn (i + 2) l)).
    { apply Forall_forall. intros q Hq. apply Fl. apply In_skipn_nth in Hq as (j & _ & Hq). eapply nth_error_In; eauto. }
    destruct (curveIntersects_sound rnd th f [p] (skipn (i + 2) l) x t s (Forall_cons _ (Fl p (nth_error_In _ _ Hp)) (Forall_nil _)) F2 Ex I)
      as (p' & q & u & v & [<-|[]] & Hq & U & V & -> & -> & Tx).
    apply In_skipn_nth in Hq as (j & J & Hq). destruct (tiles_nth _ _ _ _ _ _ T Hp j q Hq ltac:(lia)) as (_ & _ & Ap). specialize (Ap ltac:(lia)).
    destruct (tiles_In rnd _ _ _ _ _ T (nth_error_In _ _ Hp)) as (A1 & B1 & C1 & _ & D1). destruct (tiles_In rnd _ _ _ _ _ T (nth_error_In _ _ Hq)) as (A2 & B2 & C2 & _ & D2).
    rewrite <- D1, <- D2. split; [nra|]. split; [nra|]. split; [nra|exact Tx].
  Qed.
  Lemma tiles_cover_nth o l a z u : tiles o a z l -> a <= u <= z -> a < z -> exists i s, nth_error l i = Some s /\ bt1 s <= u <= bt2 s.
  Proof.
    intros T U Lt. destruct (tiles_cover _ _ _ _ u T U Lt) as (s & Hs & K). apply In_nth_error in Hs as (i & Hi). eauto.
  Qed.
  Theorem self_complete rf f (b : bezier R) th l res u v : (length (cps b) = 3 \/ length (cps b) = 4)%nat -> (102 <= rf)%nat ->
    reduce rf b = Ok l -> l <> [] -> selfIntersects rf f b th = Ok res ->
    0 <= u -> u < v -> v <= 1 -> curve (cps b) u = curve (cps b) v ->
    exists t s, In (t, s) res /\ taxi (curve (cps b) t) (curve (cps b) u) < th /\ taxi (curve (cps b) s) (curve (cps b) v) < th.
  Proof.
    intros L F El N E U Lt V Eq. unfold selfIntersects in E. rewrite El in E. cbn [bind] in E. apply bind_Ok in E as (rs & M & E). injection E as <-.
    destruct (reduce_spec rnd b rf L F) as [K|(l' & E' & T)]; [congruence|]. assert (l = l') by congruence. subst l'. destruct T as [K|[T _]]; [congruence|].
    destruct (tiles_cover_nth _ _ _ _ u T ltac:(lra) ltac:(lra)) as (i & p & Hp & Up). destruct (tiles_cover_nth _ _ _ _ v T ltac:(lra) ltac:(lra)) as (j & q & Hq & Vq).
    pose proof (neighbours_apart b rf l i j p q u v L F El Hp Hq Up Vq Lt Eq) as Far.
    assert (Lj : (j < length l)%nat) by (apply nth_error_Some; congruence).
    destruct (mapM_In _ _ _ M i ltac:(apply in_seq; lia)) as (x & Hx & Ex). rewrite (firstn_skipn_nth _ _ _ Hp) in Ex.
    assert (Fl : forall q, In q l -> (length (cps q) = 3 \/ length (cps q) = 4)%nat).
    { intros y Hy. destruct (tiles_In rnd _ _ _ _ _ T Hy) as (_ & _ & _ & -> & _). exact L. }
    assert (F2 : Forall (fun c => length (cps c) = 3 \/ length (cps c) = 4)%nat (skipn (i + 2) l)).
    { apply Forall_forall. intros y Hy. apply Fl. apply In_skipn_nth in Hy as (k & _ & Hy). eapply nth_error_In; eauto. }
    destruct (tiles_In rnd _ _ _ _ _ T (nth_error_In _ _ Hp)) as (A1 & B1 & C1 & _ & D1). destruct (tiles_In rnd _ _ _ _ _ T (nth_error_In _ _ Hq)) as (A2 & B2 & C2 & _ & D2).
    assert (G : forall a z w, a < z -> a <= w <= z -> 0 <= (w - a) / (z - a) <= 1 /\ a + (w - a) / (z - a) * (z - a) = w).
    { intros a z w H1 H2. split; [|field; lra]. split; [apply Rmult_le_pos; [lra|left; apply Rinv_0_lt_compat; lra]|].
      apply (Rmult_le_reg_r (z - a)); [lra|]. replace ((w - a) / (z - a) * (z - a)) with (w - a) by (field; lra). lra. }
    destruct (G _ _ u B1 Up) as [Gu Eu]. destruct (G _ _ v B2 Vq) as [Gv Ev].
    destruct (curveIntersects_complete rnd th f [p] (skipn (i + 2) l) x p q _ _ (Forall_cons _ (Fl p (nth_error_In _ _ Hp)) (Forall_nil _)) F2 Ex (or_introl eq_refl)
      (proj2 (In_skipn_nth l (i + 2) q) (ex_intro _ j (conj Far Hq))) Gu Gv) as (x1 & y1 & x2 & y2 & K1 & K2 & K3 & K4 & S1 & S2 & I).
    { rewrite D1, D2, Eu, Ev. exact Eq. }
    exists (bt1 p + (x1 + y1) / 2 * (bt2 p - bt1 p)), (bt1 q + (x2 + y2) / 2 * (bt2 q - bt1 q)).
    split; [apply in_concat; exists x; auto|]. rewrite <- D1, <- D2. split.
    - rewrite <- Eu at 1. rewrite <- D1. apply S1; lra.
    - rewrite <- Ev at 1. rewrite <- D2. apply S2; lra.
  Qed.
  Theorem self_terminates rf f k (b : bezier R) th : (length (cps b) = 3 \/ length (cps b) = 4)%nat -> (102 <= rf)%nat ->
    in_sentinels (cps b) -> speed (cps b) < 2 ^ k * th -> (k < f)%nat ->
    (exists res, selfIntersects rf f b th = Ok res) \/ (selfIntersects rf f b th = Err ZeroDivisionError /\ reduce rf b = Err ZeroDivisionError).
  Proof.
    intros L F Rb Sb Kf. unfold selfIntersects.
    destruct (reduce_spec rnd b rf L F) as [K|(l & El & T)]; [right; rewrite K; auto|]. rewrite El. cbn [bind]. left.
    destruct T as [->|[T _]]; [exists []; reflexivity|].
    assert (Fl : forall q, In q l -> (length (cps q) = 3 \/ length (cps q) = 4)%nat).
    { intros y Hy. destruct (tiles_In rnd _ _ _ _ _ T Hy) as (_ & _ & _ & -> & _). exact L. }
    destruct (mapM_total (fun i => curveIntersects f th (firstn 1 (skipn i l)) (skipn (i + 2) l)) (seq 0 (length l - 2))) as (rs & ->); [|cbn [bind]; eauto].
    intros i Hi. apply in_seq in Hi. destruct (nth_skip l i ltac:(lia)) as (p & Hp). rewrite (firstn_skipn_nth _ _ _ Hp).
    assert (F1 : Forall (fun c => length (cps c) = 3 \/ length (cps c) = 4)%nat [p]) by (constructor; [exact (Fl p (nth_error_In _ _ Hp))|constructor]).
    assert (F2 : Forall (fun c => length (cps c) = 3 \/ length (cps c) = 4)%nat (skipn (i + 2) l)).
    { apply Forall_forall. intros y Hy. apply Fl. apply In_skipn_nth in Hy as (m & _ & Hy). eapply nth_error_In; eauto. }
    unfold curveIntersects. destruct (all_overlaps rnd [p] (skipn (i + 2) l) F1 F2) as (ps & -> & P). cbn [bind].
    destruct (mapM_total (fun pr => pairiteration f th (fst pr) (snd pr)) ps) as (rs & ->); [|cbn [bind]; eauto].
    intros [x y] Hxy. apply P in Hxy as (Hx & Hy & _). cbn [fst snd]. destruct Hx as [<-|[]]. apply In_skipn_nth in Hy as (m & _ & Hy).
    destruct (tiles_In rnd _ _ _ _ _ T (nth_error_In _ _ Hp)) as (A1 & B1 & C1 & _). destruct (tiles_In rnd _ _ _ _ _ T (nth_error_In _ _ Hy)) as (A2 & B2 & C2 & _).
    assert (P0 : 0 <= speed (cps b)).
    { unfold speed. apply Rmult_le_pos; [apply pos_INR|]. generalize (cps b). induction l0 as [|w [|z r] IH]; simpl; try lra.
      simpl in IH. pose proof (Rabs_pos (fst z - fst w)). pose proof (Rabs_pos (snd z - snd w)). lra. }
    apply (pair_terminates rnd th (mkBez (cps b) 0 1) (mkBez (cps b) 0 1) Rb Rb k f p y _ _ _ _ (tiles_sub rnd b l p L T (nth_error_In _ _ Hp)) (tiles_sub rnd b l y L T (nth_error_In _ _ Hy))); [| |exact Kf]; cbn [cps]; nra.
  Qed.
End Self.
