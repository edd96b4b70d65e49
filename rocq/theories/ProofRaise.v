(** raiseOrder: the raised polygon with its first point doubled. *)
From Coq Require Import List ZArith Bool Reals Lra Lia.
From Verif Require Import Py Inst SpecGeom SpecMatrix SpecFit SpecUtil SpecBezier SpecBounds MTransform MBounds MBezUtil MBezier SpecCurve ProofMatrix ProofFit ProofBezier ProofBezier2 ProofBezier3 ProofBBox ProofCurve.
Import ListNotations.
Local Open Scope R_scope.

(** ** Degree elevation *)
Definition elev (N : nat) (f : nat -> R) (i : nat) : R := INR (S N - i) / INR (S N) * f i + INR i / INR (S N) * f (pred i).
Lemma C_up1 N j : (j <= N)%nat -> INR (S N - j) / INR (S N) * Binomial.C (S N) j = Binomial.C N j.
Proof.
  intros H. unfold Binomial.C. rewrite (fact_simpl N). replace (S N - j)%nat with (S (N - j)) by lia. rewrite (fact_simpl (N - j)), !mult_INR. field.
  repeat split; try apply INR_fact_neq_0; apply not_0_INR; lia.
Qed.
Lemma C_up2 N j : (j <= N)%nat -> INR (S j) / INR (S N) * Binomial.C (S N) (S j) = Binomial.C N j.
Proof.
  intros H. unfold Binomial.C. rewrite (fact_simpl N), (fact_simpl j). replace (S N - S j)%nat with (N - j)%nat by lia. rewrite !mult_INR. field.
  repeat split; try apply INR_fact_neq_0; apply not_0_INR; lia.
Qed.
Lemma elevation N f t : bezier_at (S N) (elev N f) t = bezier_at N f t.
Proof.
  unfold bezier_at, elev.
  rewrite (rsum_ext (S (S N)) _ (fun c => INR (S N - c) / INR (S N) * bernstein (S N) c t * f c + INR c / INR (S N) * bernstein (S N) c t * f (pred c))) by (intros; ring).
  rewrite rsum_plus. rewrite (rsum_shift1 (S N) (fun c => INR c / INR (S N) * bernstein (S N) c t * f (pred c))).
  change (rsum (S (S N)) ?g) with (rsum (S N) g + g (S N)). cbv beta. rewrite Nat.sub_diag. change (INR 0) with 0. unfold Rdiv at 2. unfold Rdiv at 2. rewrite !Rmult_0_l, Rplus_0_r, Rplus_0_l. rewrite <- rsum_plus.
  apply rsum_ext. intros j Hj. cbn [pred]. unfold bernstein.
  transitivity (((INR (S N - j) / INR (S N) * Binomial.C (S N) j) * t ^ j * (1 - t) ^ (S N - j) + (INR (S j) / INR (S N) * Binomial.C (S N) (S j)) * t ^ S j * (1 - t) ^ (S N - S j)) * f j); [unfold Rdiv; ring|].
  rewrite C_up1, C_up2 by lia. replace (S N - j)%nat with (S (N - j)) by lia. replace (S N - S j)%nat with (N - j)%nat by lia. simpl. ring.
Qed.

(** ** Control points are determined by the curve *)
Lemma bern_pval N d t : t <> 1 -> bezier_at N d t = (1 - t) ^ N * pval (S N) (fun k => Binomial.C N k * d k) (t / (1 - t)).
Proof.
  intros H. unfold bezier_at, pval. rewrite <- rsum_scal. apply rsum_ext. intros k Hk. unfold bernstein. replace ((1 - t) ^ N) with ((1 - t) ^ k * (1 - t) ^ (N - k)) by (rewrite <- pow_add; f_equal; lia).
  unfold Rdiv. rewrite Rpow_mult_distr, pow_inv. field. apply pow_nonzero. lra.
Qed.
Lemma bern_independent N d : (forall t, bezier_at N d t = 0) -> forall k, (k <= N)%nat -> d k = 0.
Proof.
  intros Z k Hk. assert (E : Binomial.C N k * d k = 0).
  { apply (many_roots (S N) (fun k => Binomial.C N k * d k) INR); [intros i j H1 _ E; apply INR_eq in E; lia| |lia]. intros i _. set (s := INR i). assert (Hs : 0 <= s) by apply pos_INR.
    specialize (Z (s / (1 + s))). rewrite bern_pval in Z by (intros X; apply (f_equal (fun z => z * (1 + s))) in X; field_simplify in X; lra).
    apply Rmult_integral in Z as [Z|Z].
    - exfalso. revert Z. apply pow_nonzero. intros X. apply (f_equal (fun z => z * (1 + s))) in X. field_simplify in X; lra.
    - replace (s / (1 + s) / (1 - s / (1 + s))) with s in Z by (field; split; lra). exact Z. }
  apply Rmult_integral in E as [E|E]; [|exact E]. exfalso. unfold Binomial.C in E. pose proof (INR_fact_lt_0 N). pose proof (INR_fact_lt_0 k). pose proof (INR_fact_lt_0 (N - k)).
  assert (0 < INR (fact N) / (INR (fact k) * INR (fact (N - k)))) by (apply Rdiv_lt_0_compat; [assumption|now apply Rmult_lt_0_compat]). lra.
Qed.
Lemma bern_unique N f g : (forall t, bezier_at N f t = bezier_at N g t) -> forall k, (k <= N)%nat -> f k = g k.
Proof.
  intros E k Hk. enough (f k - g k = 0) by lra. apply (bern_independent N (fun k => f k - g k)); [|exact Hk]. intros t. specialize (E t). unfold bezier_at in *.
  rewrite (rsum_ext (S N) _ (fun c => bernstein N c t * f c + (-1) * (bernstein N c t * g c))) by (intros; ring). rewrite rsum_plus, rsum_scal, E. ring.
Qed.

(** ** raiseOrder *)
Definition raised (p : list pt) : list pt := map (fun i => (elev (length p - 1) (cx p) i, elev (length p - 1) (cy p) i)) (seq 0 (S (length p))).
Lemma raised_nth p i : (i <= length p)%nat -> nth i (raised p) (0, 0) = (elev (length p - 1) (cx p) i, elev (length p - 1) (cy p) i).
Proof.
  intros H. unfold raised. set (h := fun i => (elev (length p - 1) (cx p) i, elev (length p - 1) (cy p) i)). change (elev (length p - 1) (cx p) i, elev (length p - 1) (cy p) i) with (h i).
  rewrite (nth_indep _ (0, 0) (h 0%nat)) by (rewrite map_length, seq_length; lia). rewrite map_nth, seq_nth by lia. reflexivity.
Qed.
Lemma cx_raised p i : (i <= length p)%nat -> cx (raised p) i = elev (length p - 1) (cx p) i.
Proof. intros H. unfold cx at 1. now rewrite raised_nth. Qed.
Lemma cy_raised p i : (i <= length p)%nat -> cy (raised p) i = elev (length p - 1) (cy p) i.
Proof. intros H. unfold cy at 1. now rewrite raised_nth. Qed.
Lemma bezier_at_ext N f g t : (forall i, (i <= N)%nat -> f i = g i) -> bezier_at N f t = bezier_at N g t.
Proof. intros H. unfold bezier_at. apply rsum_ext. intros k Hk. rewrite H by lia. reflexivity. Qed.
Lemma raised_curve p t : (1 <= length p)%nat -> curve (raised p) t = curve p t.
Proof.
  intros L. unfold curve. assert (Ln : (length (raised p) - 1)%nat = S (length p - 1)) by (unfold raised; rewrite map_length, seq_length; lia). rewrite Ln.
  f_equal; [rewrite <- (elevation (length p - 1) (cx p))|rewrite <- (elevation (length p - 1) (cy p))]; apply bezier_at_ext; intros i Hi; (apply cx_raised || apply cy_raised); lia.
Qed.
Theorem raiseOrder_points (b : bezier R) : (2 <= length (cps b))%nat -> raiseOrder b = Ok (mkBez (nth 0 (raised (cps b)) (0, 0) :: raised (cps b)) 0 1).
Proof.
  intros L. set (p := cps b) in *. unfold raiseOrder. fold p. rewrite (idx_nth p 0 (0, 0)) by lia. cbn [bind].
  set (h := fun i => (elev (length p - 1) (cx p) i, elev (length p - 1) (cy p) i)).
  rewrite (mapM_seq _ h). 2:{ intros i Hi. unfold raisedPoint. rewrite (idx_nth p i (0, 0)) by lia. cbn [bind].
    assert (Em : (match i with O => idx_last p | S j => idx p j end) = Ok (match i with O => nth (length p - 1) p (0, 0) | S j => nth j p (0, 0) end)).
    { destruct i as [|j]; [unfold idx_last; rewrite last_error_nth, (nth_error_nth' p (0, 0)) by lia; reflexivity|now rewrite (idx_nth p j (0, 0)) by lia]. }
    rewrite Em. cbn [bind]. numRg. unfold h, elev. replace (S (length p - 1)) with (length p) by lia. rewrite <- Nat2Z.inj_sub by lia. rewrite <- !INR_IZR_INZ.
    destruct i as [|j]; unfold cx, cy; cbn [pred]; apply Ok_pair; try change (INR 0) with 0; unfold Rdiv; ring. }
  cbn [bind]. unfold idx_last. rewrite last_error_nth, (nth_error_nth' p (0, 0)) by lia. cbn [bind].
  assert (Er : raised p = (map h (seq 0 (length p)) ++ [nth (length p - 1) p (0, 0)])%list).
  { unfold raised. fold h. replace (S (length p)) with (length p + 1)%nat by lia. rewrite seq_app, map_app. f_equal. cbn [seq map Nat.add]. f_equal. unfold h, elev. replace (S (length p - 1)) with (length p) by lia. rewrite Nat.sub_diag. change (INR 0) with 0.
    replace (pred (length p)) with (length p - 1)%nat by lia. unfold cx, cy. rewrite (surjective_pairing (nth (length p - 1) p (0, 0))) at 3. f_equal; field; apply not_0_INR; lia. }
  rewrite newBezier_ok by (cbn [length]; rewrite app_length; simpl; lia). numRg. f_equal. f_equal; [|reflexivity..]. rewrite <- Er. f_equal.
  rewrite raised_nth by lia. unfold elev. cbn [pred]. change (INR 0) with 0. replace (S (length p - 1) - 0)%nat with (S (length p - 1)) by lia. unfold cx, cy. rewrite (surjective_pairing (nth 0 p (0, 0))) at 1.
  f_equal; field; apply not_0_INR; lia.
Qed.
(** The curve is kept only if all control points are the same. *)
Lemma doubled_const n f : (forall i, (i <= n)%nat -> elev n f (S i) = f i) -> forall i, (i <= n)%nat -> f i = f 0%nat.
Proof.
  intros H. induction i as [|i IH]; intros L; [reflexivity|]. rewrite <- IH by lia. specialize (H i ltac:(lia)). unfold elev in H. cbn [pred] in H.
  assert (P : 0 < INR (S n)) by (apply lt_0_INR; lia). assert (Q : 0 < INR (S n - S i)) by (apply lt_0_INR; lia).
  rewrite minus_INR in Q by lia. rewrite minus_INR in H by lia.
  apply (f_equal (fun z => z * INR (S n))) in H. field_simplify in H; [|lra].
  assert (E : (INR (S n) - INR (S i)) * (f (S i) - f i) = 0) by lra. apply Rmult_integral in E as [E|E]; lra.
Qed.
Theorem raise_keeps_iff (b c : bezier R) : (2 <= length (cps b))%nat -> raiseOrder b = Ok c ->
  ((forall t, curve (cps c) t = curve (cps b) t) <-> forall q, In q (cps b) -> q = nth 0 (cps b) (0, 0)).
Proof.
  intros L E. rewrite raiseOrder_points in E by exact L. assert (E' : c = mkBez (nth 0 (raised (cps b)) (0, 0) :: raised (cps b)) 0 1) by congruence. rewrite E'. clear E'. cbn [cps]. set (p := cps b) in *. clear E c. remember (raised p) as e eqn:De.
  assert (Le : length e = S (length p)) by (rewrite De; unfold raised; rewrite map_length, seq_length; reflexivity).
  assert (X : forall t, curve p t = curve (raised e) t) by (intros t; rewrite raised_curve by lia; rewrite De; now rewrite raised_curve by lia).
  assert (Lr : length (raised e) = S (length e)) by (unfold raised; rewrite map_length, seq_length; reflexivity).
  split.
  - intros H. assert (Ee : forall i, (i <= length p)%nat -> nth i e (0, 0) = nth 0 e (0, 0)).
    { assert (Hx : forall t, bezier_at (length e) (cx (nth 0 e (0, 0) :: e)) t = bezier_at (length e) (elev (length e - 1) (cx e)) t /\ bezier_at (length e) (cy (nth 0 e (0, 0) :: e)) t = bezier_at (length e) (elev (length e - 1) (cy e)) t).
      { intros t. specialize (H t). rewrite X in H. unfold curve in H. cbn [length] in H. rewrite Lr in H. replace (S (length e) - 1)%nat with (length e) in H by lia. injection H as H1 H2.
        rewrite H1, H2. split; apply bezier_at_ext; intros i Hi; (apply cx_raised || apply cy_raised); lia. }
      intros i Hi. assert (Fx : forall j, (j <= length p)%nat -> cx e j = cx e 0%nat).
      { apply (doubled_const (length p)). intros j Hj. pose proof (bern_unique _ _ _ (fun t => proj1 (Hx t)) (S j) ltac:(lia)) as Y. replace (length e - 1)%nat with (length p) in Y by lia. rewrite <- Y. reflexivity. }
      assert (Fy : forall j, (j <= length p)%nat -> cy e j = cy e 0%nat).
      { apply (doubled_const (length p)). intros j Hj. pose proof (bern_unique _ _ _ (fun t => proj2 (Hx t)) (S j) ltac:(lia)) as Y. replace (length e - 1)%nat with (length p) in Y by lia. rewrite <- Y. reflexivity. }
      specialize (Fx i Hi). specialize (Fy i Hi). unfold cx, cy in Fx, Fy. rewrite (surjective_pairing (nth i e _)), Fx, Fy. now rewrite <- surjective_pairing. }
    (* equal raised points: equal points *)
    assert (Pi : forall i, (i <= length p - 1)%nat -> nth i p (0, 0) = nth 0 e (0, 0)).
    { assert (Hc : forall t, bezier_at (length p) (elev (length p - 1) (cx p)) t = bezier_at (length p) (elev (length p - 1) (fun _ => cx e 0%nat)) t /\ bezier_at (length p) (elev (length p - 1) (cy p)) t = bezier_at (length p) (elev (length p - 1) (fun _ => cy e 0%nat)) t).
      { assert (K : forall i a, elev (length p - 1) (fun _ => a) i = a \/ (length p < i)%nat).
        { intros i a. destruct (le_lt_dec i (length p)); [left|now right]. unfold elev. rewrite minus_INR by lia. field. apply not_0_INR. lia. }
        intros t. split; apply bezier_at_ext; intros i Hi; (match goal with |- _ = elev _ (fun _ => ?a) _ => destruct (K i a) as [K'|K']; [rewrite K'|lia] end); specialize (Ee i Hi); rewrite De in Ee at 1; rewrite raised_nth in Ee by lia;
          [apply (f_equal fst) in Ee|apply (f_equal snd) in Ee]; exact Ee. }
      intros i Hi. pose proof (fun t => proj1 (Hc t)) as H1. pose proof (fun t => proj2 (Hc t)) as H2. replace (length p) with (S (length p - 1)) in H1, H2 at 1 by lia.
      assert (G1 : forall t, bezier_at (length p - 1) (cx p) t = bezier_at (length p - 1) (fun _ => cx e 0%nat) t) by (intros t; rewrite <- (elevation _ (cx p)), <- (elevation _ (fun _ => cx e 0%nat)); replace (S (length p - 1)) with (length p) by lia; apply Hc).
      assert (G2 : forall t, bezier_at (length p - 1) (cy p) t = bezier_at (length p - 1) (fun _ => cy e 0%nat) t) by (intros t; rewrite <- (elevation _ (cy p)), <- (elevation _ (fun _ => cy e 0%nat)); replace (S (length p - 1)) with (length p) by lia; apply Hc).
      pose proof (bern_unique _ _ _ G1 i Hi) as U1. pose proof (bern_unique _ _ _ G2 i Hi) as U2. unfold cx, cy in U1, U2. cbn beta in U1, U2. rewrite (surjective_pairing (nth i p _)), U1, U2. now rewrite <- surjective_pairing. }
    intros q Q. apply (In_nth _ _ (0, 0)) in Q as (i & Hi & <-). rewrite !Pi by lia. reflexivity.
  - intros H. assert (Pi : forall i, (i <= length p - 1)%nat -> nth i p (0, 0) = nth 0 p (0, 0)) by (intros i Hi; apply H; apply nth_In; lia).
    assert (Ei : forall i, (i <= length p)%nat -> nth i e (0, 0) = nth 0 p (0, 0)).
    { intros i Hi. rewrite De. rewrite raised_nth by lia. unfold elev, cx, cy. destruct (Nat.eq_dec i (length p)) as [->|N].
      - replace (S (length p - 1) - length p)%nat with 0%nat by lia. rewrite (Pi (pred (length p))) by lia. replace (S (length p - 1)) with (length p) by lia. change (INR 0) with 0. rewrite (surjective_pairing (nth 0 p (0, 0))) at 3. f_equal; field; apply not_0_INR; lia.
      - rewrite (Pi i), (Pi (pred i)) by lia. rewrite minus_INR by lia. rewrite (surjective_pairing (nth 0 p (0, 0))) at 5. f_equal; field; apply not_0_INR; lia. }
    intros t. rewrite <- (raised_curve p t) by lia. rewrite <- De. rewrite <- (raised_curve e t) by lia. unfold curve. rewrite Lr. cbn [length]. f_equal; apply bezier_at_ext; intros i Hi.
    + unfold cx. rewrite (raised_nth e i) by lia. cbn [fst]. unfold elev, cx. destruct i as [|i]; cbn [nth pred].
      * rewrite minus_INR by lia. field. apply not_0_INR. lia.
      * rewrite (Ei i) by lia. destruct (Nat.eq_dec (S i) (length e)) as [Q|Q]; [rewrite Q; replace (S (length e - 1)) with (length e) by lia; rewrite Nat.sub_diag; change (INR 0) with 0; field; apply not_0_INR; lia|].
        rewrite (Ei (S i)) by lia. rewrite minus_INR by lia. field. apply not_0_INR. lia.
    + unfold cy. rewrite (raised_nth e i) by lia. cbn [snd]. unfold elev, cy. destruct i as [|i]; cbn [nth pred].
      * rewrite minus_INR by lia. field. apply not_0_INR. lia.
      * rewrite (Ei i) by lia. destruct (Nat.eq_dec (S i) (length e)) as [Q|Q]; [rewrite Q; replace (S (length e - 1)) with (length e) by lia; rewrite Nat.sub_diag; change (INR 0) with 0; field; apply not_0_INR; lia|].
        rewrite (Ei (S i)) by lia. rewrite minus_INR by lia. field. apply not_0_INR. lia.
Qed.
