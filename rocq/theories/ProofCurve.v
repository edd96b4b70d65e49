(** The curve facts restated with [get], for the property file. *)
From Coq Require Import List ZArith Bool Reals Lra Lia.
From Verif Require Import Py Inst InstFloat SpecGeom SpecMatrix SpecFit SpecUtil SpecBezier SpecOrder SpecBounds
  MTransform MBounds MBezUtil MPathUtil MBezier MContour SpecCurve
  ProofMatrix ProofFit ProofUtil ProofBounds ProofBezier ProofBezier2 ProofBezier3 ProofBBox.
Import ListNotations.
Local Open Scope R_scope.

Lemma get_sum (p : list pt) u v t : (1 <= length p)%nat ->
  get (mkBez p u v) t = Ok (rsum (length p) (fun i => Binomial.C (length p - 1) i * t ^ i * (1 - t) ^ (length p - 1 - i) * fst (nth i p (0, 0))),
                            rsum (length p) (fun i => Binomial.C (length p - 1) i * t ^ i * (1 - t) ^ (length p - 1 - i) * snd (nth i p (0, 0)))).
Proof.
  intros L. rewrite get_ok by auto. unfold curve, bezier_at, bernstein, cx, cy; cbn [cps].
  replace (S (length p - 1)) with (length p) by lia. reflexivity.
Qed.
Lemma get_ends_Q (b : bezier QArith_base.Q) : get b (nofZ 0) = bstart b /\ get b (nofZ 1) = bend b.
Proof. apply get_ends; reflexivity. Qed.
Lemma get_ends_F (b : bezier b64) : get b (nofZ 0) = bstart b /\ get b (nofZ 1) = bend b.
Proof. apply get_ends; vm_compute; reflexivity. Qed.
Lemma get_ends_R (b : bezier R) : get b (nofZ 0) = bstart b /\ get b (nofZ 1) = bend b.
Proof. apply get_ends; numRg; [apply Reqb_true | apply Reqb_false | apply Reqb_true]; lra. Qed.

Lemma bend_nth (b : bezier R) : (1 <= length (cps b))%nat -> bend b = Ok (nth (length (cps b) - 1) (cps b) (0, 0)).
Proof. intros L. unfold bend, idx_last. rewrite last_error_nth. now rewrite (nth_error_nth' (cps b) (0, 0)) by lia. Qed.
Lemma bstart_nth (b : bezier R) : (1 <= length (cps b))%nat -> bstart b = Ok (nth 0 (cps b) (0, 0)).
Proof. intros L. apply idx_nth; lia. Qed.
Lemma split_get (b : bezier R) t : (length (cps b) = 3 \/ length (cps b) = 4)%nat ->
  exists l r, split1 b t = Ok (l, r, hull b t) /\ order l = order b /\ order r = order b /\
    (forall s, get l s = get b (t * s)) /\ (forall s, get r s = get b (t + (1 - t) * s)) /\
    bstart l = bstart b /\ bend r = bend b /\ bend l = bstart r /\ bstart r = get b t.
Proof.
  intros L. destruct (split1_ok b t L) as (l & r & E & Ll & Lr & Hl & Hr & A & B & C & D & _).
  exists l, r. split; auto. unfold order. rewrite Ll, Lr. do 2 (split; [reflexivity|]).
  split; [intros s; rewrite !get_ok by lia; now rewrite Hl|]. split; [intros s; rewrite !get_ok by lia; now rewrite Hr|].
  rewrite !bend_nth, !bstart_nth, get_ok by lia. rewrite Ll, Lr, A, B, C, D. auto.
Qed.
Lemma split2_get (b : bezier R) t1 t2 : (length (cps b) = 3 \/ length (cps b) = 4)%nat -> t2 <> 0 -> (t1 <> 1 \/ t2 = 1) ->
  exists c, split2 b t1 t2 = Ok (SCurve c) /\ order c = order b /\ forall s, get c s = get b (t1 + s * (t2 - t1)).
Proof.
  intros L N1 N2. destruct (split2_ok b t1 t2 L N1 N2) as (c & E & Lc & H & _). exists c. split; auto.
  unfold order. rewrite Lc. split; auto. intros s. rewrite !get_ok by lia. now rewrite H.
Qed.
Lemma descends_get (p : list pt) (b : bezier R) (o : bezier R) : (length p = 3 \/ length p = 4)%nat -> newBezier p = Ok o -> descends o b ->
  forall s, get b s = get o (bt1 b + s * (bt2 b - bt1 b)).
Proof.
  intros L E D s. rewrite newBezier_ok in E by lia. injection E as <-.
  destruct (descends_part (mkBez p 0 1) b L eq_refl eq_refl D) as [Lb P]. cbn [cps] in *.
  rewrite !get_ok; cbn [cps]; try lia. now rewrite P.
Qed.
Section T.
  Context (rnd : R -> R).
  #[local] Hint Extern 0 (TrigOps R) => exact (RTrig rnd) : typeclass_instances.
  Lemma bbox_encloses (b : bezier R) t c : (2 <= length (cps b) <= 4)%nat -> 0 <= t <= 1 -> get b t = Ok c ->
    exists x0 x1 y0 y1 r, bbox b = Ok ((x0, x1), (y0, y1)) /\ boundsRectangle b = Ok r /\
      x0 <= fst c <= x1 /\ y0 <= snd c <= y1 /\ enclosesPoint r c = true.
  Proof.
    intros L Ht E. rewrite get_ok in E by lia. injection E as <-.
    destruct (bbox_spec rnd b L) as (x0 & x1 & y0 & y1 & Eb & B & _). destruct (boundsRectangle_spec rnd b L) as (r & Er & R1 & _).
    exists x0, x1, y0, y1, r. split; auto. split; auto. destruct (B t Ht). auto.
  Qed.
  Lemma hits (b : bezier R) (f : pt -> R) v : (1 <= length (cps b))%nat -> (exists t, 0 <= t <= 1 /\ f (curve (cps b) t) = v) ->
    exists t c, 0 <= t <= 1 /\ get b t = Ok c /\ f c = v.
  Proof. intros L (t & Ht & E). exists t, (curve (cps b) t). rewrite get_ok by auto. auto. Qed.
  Lemma bbox_tight (b : bezier R) : (2 <= length (cps b) <= 4)%nat -> (forall q, In q (cps b) -> safe_point q) ->
    exists x0 x1 y0 y1, bbox b = Ok ((x0, x1), (y0, y1)) /\
      (exists t c, 0 <= t <= 1 /\ get b t = Ok c /\ fst c = x0) /\ (exists t c, 0 <= t <= 1 /\ get b t = Ok c /\ fst c = x1) /\
      (exists t c, 0 <= t <= 1 /\ get b t = Ok c /\ snd c = y0) /\ (exists t c, 0 <= t <= 1 /\ get b t = Ok c /\ snd c = y1).
  Proof.
    intros L S. destruct (bbox_spec rnd b L) as (x0 & x1 & y0 & y1 & Eb & _ & T).
    exists x0, x1, y0, y1. split; auto.
    destruct T as (A & B & C & D).
    { exists 0. split; [lra|]. rewrite curve_cv, cv_0. apply S. apply nth_In. lia. }
    split; [apply hits; auto; lia|]. split; [apply hits; auto; lia|]. split; apply hits; auto; lia.
  Qed.
  Lemma rect_tight (b : bezier R) : (2 <= length (cps b) <= 4)%nat ->
    (forall q, In q (cps b) -> Rabs (fst q) <= 32768 /\ Rabs (snd q) <= 32768) ->
    exists r, boundsRectangle b = Ok r /\
      (exists t c, 0 <= t <= 1 /\ get b t = Ok c /\ fst c = left r) /\ (exists t c, 0 <= t <= 1 /\ get b t = Ok c /\ fst c = right r) /\
      (exists t c, 0 <= t <= 1 /\ get b t = Ok c /\ snd c = bottom r) /\ (exists t c, 0 <= t <= 1 /\ get b t = Ok c /\ snd c = top r).
  Proof.
    intros L S. destruct (boundsRectangle_spec rnd b L) as (r & Er & _ & T). exists r. split; auto.
    destruct T as (A & B & C & D).
    { exists 0. split; [lra|]. rewrite curve_cv, cv_0. apply S. apply nth_In. lia. }
    split; [apply hits; auto; lia|]. split; [apply hits; auto; lia|]. split; apply hits; auto; lia.
  Qed.
End T.
Lemma get_in_box (b : bezier R) t c xlo xhi ylo yhi : 0 <= t <= 1 -> get b t = Ok c ->
  (forall q, In q (cps b) -> xlo <= fst q <= xhi /\ ylo <= snd q <= yhi) ->
  xlo <= fst c <= xhi /\ ylo <= snd c <= yhi.
Proof.
  intros Ht E B. destruct (cps b) as [|p0 ps] eqn:P; [rewrite get_nil in E by auto; discriminate|].
  rewrite get_ok in E by (rewrite P; simpl; lia). injection E as <-. rewrite P. apply curve_in_box; auto. discriminate.
Qed.
Lemma get_in_skeleton (b : bezier R) t c : 0 <= t <= 1 -> get b t = Ok c -> enclosesPoint (skeletonBounds b) c = true.
Proof.
  intros Ht E. destruct (cps b) as [|p0 ps] eqn:P; [rewrite get_nil in E by auto; discriminate|].
  rewrite get_ok in E by (rewrite P; simpl; lia). injection E as <-. apply curve_in_skeleton; auto. rewrite P; simpl; lia.
Qed.
Lemma direction_get (p : list pt) (b : bezier R) d : (2 <= length p <= 4)%nat -> newBezier p = Ok b -> computeDirection p = Ok d ->
  forall s t c e, 0 <= s -> s <= t -> t <= 1 -> get b s = Ok c -> get b t = Ok e ->
  match d with
  | dir_up => snd c <= snd e
  | dir_down => snd e <= snd c
  | dir_flat => snd c = snd e
  | dir_mixed => (3 <= length p)%nat
  end.
Proof.
  intros L E D s t c e H1 H2 H3 Hc He. rewrite newBezier_ok in E by lia. injection E as <-.
  rewrite get_ok in Hc, He by (cbn [cps]; lia). injection Hc as <-. injection He as <-. cbn [cps].
  pose proof (direction_ok p d L D) as K. destruct d; auto.
Qed.
Theorem dcPoints_spec (b : bezier R) : (1 <= length (cps b))%nat ->
  length (dcPoints b) = order b /\
  forall k, (k < order b)%nat ->
    length (nth k (dcPoints b) []) = (order b - k)%nat /\
    forall t, is_deriv (curve (nth k (cps b :: dcPoints b) [])) t (curve (nth k (dcPoints b) []) t).
Proof.
  intros L. unfold dcPoints, order. destruct (dcPoints_derivs _ (cps b) eq_refl) as [A B]. split; auto.
  intros k Hk. split; [|intros t]; destruct (B k 0 Hk) as [B1 _]; [exact B1|]. exact (proj2 (B k t Hk)).
Qed.
Lemma raise_refuted : exists b c t, newBezier [(0, 0); (1, 0)] = Ok b /\ raiseOrder b = Ok c /\ order c <> S (order b) /\ get c t <> get b t.
Proof.
  exists (mkBez [(0, 0); (1, 0)] 0 1), (mkBez [(0, 0); (0, 0); (1 / 2, 0); (1, 0)] 0 1), (1 / 2).
  split; [rewrite newBezier_ok by (simpl; lia); reflexivity|]. split; [apply raiseOrder_line|]. split; [discriminate|].
  rewrite !get_ok by (simpl; lia). cbn [cps]. rewrite curve2, curve4. cbn [fst snd]. intros E. injection E. intros. lra.
Qed.
