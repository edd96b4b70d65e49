(** Proofs about transformed curves, raiseOrder, normals, offset points and the ABC identity. *)
From Coq Require Import List ZArith Bool Reals Lra Lia Psatz.
From Verif Require Import Py Inst SpecGeom SpecMatrix SpecFit SpecUtil SpecBezier SpecOrder SpecBounds
  MTransform MBounds MBezUtil MPathUtil MBezier SpecCurve
  ProofTransform ProofMatrix ProofFit ProofUtil ProofBounds ProofBezier ProofBezier2.
Import ListNotations.
Local Open Scope R_scope.

(** ** C07 *)
Lemma curve_affine (p : list pt) (a b d e g h t : R) : (1 <= length p)%nat ->
  let f := fun q : pt => (fst q * a + snd q * d + g, fst q * b + snd q * e + h) in
  curve (map f p) t = f (curve p t).
Proof.
  intros L f. rewrite !curve_cv. unfold cv. rewrite map_length. cbn [fst snd].
  assert (X : forall u v w, bez (length p - 1) (fun i => u * cx p i + v * (cy p i + w)) t =
    u * bez (length p - 1) (cx p) t + v * (bez (length p - 1) (cy p) t + w)).
  { intros u v w. rewrite (bez_lin _ u v (cx p) (fun i => cy p i + w)). f_equal. f_equal.
    rewrite (bez_ext _ _ (fun i => 1 * cy p i + 1 * w)) by (intros; ring). rewrite (bez_lin _ 1 1 (cy p) (fun _ => w)), bez_const. ring. }
  assert (Y : forall u v w, bez (length p - 1) (fun i => cx p i * u + cy p i * v + w) t =
    bez (length p - 1) (cx p) t * u + bez (length p - 1) (cy p) t * v + w).
  { intros u v w. rewrite (bez_ext _ _ (fun i => 1 * (u * cx p i + v * (cy p i + 0)) + 1 * w)) by (intros; ring).
    rewrite (bez_lin _ 1 1 (fun i => u * cx p i + v * (cy p i + 0)) (fun _ => w)), X, bez_const. ring. }
  unfold f at 3. cbn [fst snd]. f_equal.
  - rewrite <- Y. apply bez_ext. intros i Hi. unfold cx at 1. rewrite (nth_indep _ (0, 0) (f (0, 0))) by (rewrite map_length; lia).
    rewrite map_nth. unfold f, cx, cy. cbn [fst]. reflexivity.
  - rewrite <- Y. apply bez_ext. intros i Hi. unfold cy at 1. rewrite (nth_indep _ (0, 0) (f (0, 0))) by (rewrite map_length; lia).
    rewrite map_nth. unfold f, cx, cy. cbn [snd]. reflexivity.
Qed.
Theorem affine_commutes (m : matrix R) (b : bezier R) (t : R) : affine_matrix m -> (1 <= length (cps b))%nat ->
  exists p c q, applyToSegment m (cps b) = Ok p /\ get b t = Ok c /\ applyToPoint m c = Ok q /\
    get (mkBez p (bt1 b) (bt2 b)) t = Ok q.
Proof.
  intros (a & b' & d & e & g & h & ->) L.
  set (f := fun q : pt => (fst q * a + snd q * d + g, fst q * b' + snd q * e + h)).
  assert (E : forall q, applyToPoint [[a; b'; 0]; [d; e; 0]; [g; h; 1]] q = Ok (f q)).
  { intros [x y]. now rewrite apply_affine. }
  exists (map f (cps b)), (curve (cps b) t), (f (curve (cps b) t)).
  split; [unfold applyToSegment; apply mapM_pure; intros; apply E|]. split; [now apply get_ok|]. split; [apply E|].
  rewrite get_ok; cbn [cps]; [|now rewrite map_length]. f_equal. apply curve_affine; auto.
Qed.

(** ** C56 *)
Theorem raiseOrder_shape (b : bezier R) : (2 <= length (cps b))%nat ->
  exists c, raiseOrder b = Ok c /\ order c = (order b + 2)%nat /\ idx (cps c) 0 = idx (cps b) 0 /\ idx_last (cps c) = idx_last (cps b).
Proof.
  intros L. set (p := cps b) in *.
  assert (A : forall i, (i < length p)%nat -> exists q, raisedPoint p (length p) i = Ok q).
  { intros i Hi. unfold raisedPoint. rewrite (idx_nth p i (0, 0)) by auto. cbn [bind].
    destruct i as [|j].
    - unfold idx_last. rewrite last_error_nth. rewrite (nth_error_nth' p (0, 0)) by lia. eexists; reflexivity.
    - rewrite (idx_nth p j (0, 0)) by lia. eexists; reflexivity. }
  assert (M : exists mid, mapM (raisedPoint p (length p)) (seq 0 (length p)) = Ok mid).
  { clear L. generalize (fun i => A i). clear A. intros A.
    assert (G : forall l, (forall i, In i l -> (i < length p)%nat) -> exists mid, mapM (raisedPoint p (length p)) l = Ok mid).
    { induction l as [|i l IH]; intros Hl; [eexists; reflexivity|].
      destruct (A i ltac:(apply Hl; simpl; auto)) as (q & Eq). destruct IH as (mid & Em); [intros; apply Hl; simpl; auto|].
      cbn. rewrite Eq. cbn. rewrite Em. eexists; reflexivity. }
    apply G. intros i Hi. apply in_seq in Hi. lia. }
  destruct M as (mid & Em). pose proof (mapM_length _ _ _ Em) as Lm. rewrite seq_length in Lm.
  assert (E0 : idx p 0 = Ok (nth 0 p (0, 0))) by (apply idx_nth; lia).
  assert (En : idx_last p = Ok (nth (length p - 1) p (0, 0))).
  { unfold idx_last. rewrite last_error_nth. rewrite (nth_error_nth' p (0, 0)) by lia. reflexivity. }
  unfold raiseOrder. fold p. rewrite E0. cbn [bind]. rewrite Em. cbn [bind]. rewrite En. cbn [bind].
  rewrite newBezier_ok by (cbn [length]; rewrite app_length; simpl; lia).
  eexists; split; [reflexivity|]. unfold order; cbn [cps]. fold p. split; [cbn [length]; rewrite app_length; cbn [length]; lia|].
  split; [reflexivity|]. unfold idx_last. rewrite app_comm_cons. now rewrite last_error_app.
Qed.
Theorem raiseOrder_line (u v : R) : raiseOrder (mkBez [(0, 0); (1, 0)] u v) = Ok (mkBez [(0, 0); (0, 0); (1 / 2, 0); (1, 0)] 0 1).
Proof.
  unfold raiseOrder, raisedPoint. cbn. numRg. rewrite newBezier_ok by (cbn; lia). numRg. repeat first [lra | progress f_equal].
Qed.

(** ** C57 *)
Section Normal.
  Context (rnd : R -> R).
  #[local] Hint Extern 0 (TrigOps R) => exact (RTrig rnd) : typeclass_instances.
  Lemma normal_of (b : bezier R) t d : derivative b t = Ok d -> d <> (0, 0) ->
    let q := sqrt (fst d * fst d + snd d * snd d) in 0 < q /\ normal b t = Ok (- snd d / q, fst d / q).
  Proof.
    intros E N q. destruct d as [dx dy]; cbn [fst snd] in *.
    assert (P : 0 < dx * dx + dy * dy).
    { destruct (Req_dec dx 0) as [->|Nx]; [destruct (Req_dec dy 0) as [->|Ny]; [congruence|]|]; nra. }
    assert (Q : 0 < q) by (apply sqrt_lt_R0; auto). split; auto.
    unfold normal. rewrite E. cbn [bind]. unfold bsqrt. numRg. rewrite (proj2 (Rltb_false _ _)) by lra.
    change (tsqrt ?x) with (sqrt x). fold q. rewrite ndivR by lra. cbn [bind]. rewrite ndivR by lra. reflexivity.
  Qed.
  Theorem normal_spec (b : bezier R) t : (length (cps b) = 3 \/ length (cps b) = 4)%nat ->
    exists d, is_deriv (curve (cps b)) t d /\
      (d <> (0, 0) -> exists n, normal b t = Ok n /\ vdot n n = 1 /\ vdot n d = 0 /\ 0 < vcross d n) /\
      (d = (0, 0) -> normal b t = Err ZeroDivisionError).
  Proof.
    intros L. destruct (derivative_ok b t L) as (d & E & D). exists d. split; auto. split.
    - intros N. destruct (normal_of b t d E N) as [Q EN]. eexists; split; [exact EN|].
      set (q := sqrt _) in *. unfold vdot, vcross; cbn [fst snd].
      assert (S2 : q * q = fst d * fst d + snd d * snd d).
      { apply sqrt_sqrt. nra. }
      split; [|split].
      + apply Rmult_eq_reg_r with (q * q); [|nra]. field_simplify; [|lra]. nra.
      + field. lra.
      + replace (fst d * (fst d / q) - snd d * (- snd d / q)) with ((q * q) / q); [|rewrite S2; field; lra].
        apply Rdiv_lt_0_compat; nra.
    - intros ->. unfold normal. rewrite E. cbn [bind]. unfold bsqrt. numRg.
      rewrite (proj2 (Rltb_false _ _)) by lra. change (tsqrt ?x) with (sqrt x).
      replace (0 * 0 + 0 * 0) with 0 by ring. rewrite sqrt_0. now rewrite ndivR0.
  Qed.
  Theorem offset_spec (fuel : nat) (b : bezier R) (t k : R) (n : pt) : (2 <= length (cps b))%nat -> k <> 0 -> normal b t = Ok n -> vdot n n = 1 ->
    exists c q, get b t = Ok c /\ offset fuel b t (Some k) = Ok (OPoints c n q) /\ q = vadd c (vscale k n) /\ vdist c q = Rabs k.
  Proof.
    intros L K E U. exists (curve (cps b) t), (vadd (curve (cps b) t) (vscale k n)). rewrite get_ok by lia.
    split; auto. unfold offset, offsetPoint. numRg. rewrite (proj2 (Reqb_false _ _)) by auto. cbn [negb].
    rewrite get_ok by lia. cbn [bind]. rewrite E. cbn [bind].
    split; [|split; auto].
    - f_equal. f_equal. unfold vadd, vscale; cbn [fst snd]. numRg. f_equal; ring.
    - unfold vdist, dist2, vadd, vscale; cbn [fst snd]. unfold vdot in U.
      replace (_ + _) with (Rsqr k); [apply sqrt_Rsqr_abs|]. unfold Rsqr.
      transitivity (k * k * (fst n * fst n + snd n * snd n)); [rewrite U; ring | ring].
  Qed.
End Normal.

(** ** C62 *)
Lemma abc_core (A B P0 Pn C0 C : pt) (w : R) : 0 < w -> 
  B = vadd (vscale w C0) (vscale (1 - w) A) -> on_line P0 Pn C0 -> lli4 A B P0 Pn = Some C -> C = C0.
Proof.
  intros W -> H0 HC. apply lli4_on in HC as (NP & H1 & H2).
  apply (lines_meet_once _ _ _ _ C C0 NP H1 H2); auto.
  exists (1 / w). destruct A as [ax ay], C0 as [cx' cy']. unfold along, vadd, vscale, vsub; cbn [fst snd]. f_equal; field; lra.
Qed.
Theorem getABC_spec (b : bezier R) (t : R) : (length (cps b) = 3 \/ length (cps b) = 4)%nat -> 0 < t < 1 ->
  exists A B c ratio h p0 pn, getABC b t = Ok (A, B, c, ratio, h) /\ get b t = Ok B /\ idx (cps b) 0 = Ok p0 /\ idx_last (cps b) = Ok pn /\
    h = hull b t /\ (c = None <-> parallel A B p0 pn) /\
    forall C, c = Some C -> on_line p0 pn C /\ vsub B C = vscale ratio (vsub A B).
Proof.
  intros L Ht. rewrite get_ok by lia. destruct b as [p u v]; cbn [cps] in *.
  destruct p as [|[x0 y0] [|[x1 y1] [|[x2 y2] [|[x3 y3] [|p4 r]]]]]; try (simpl in L; lia).
  - assert (W : 0 < 2 * t * t - 2 * t + 1) by nra.
    set (B := curve [(x0, y0); (x1, y1); (x2, y2)] t).
    exists (x1, y1), B, (lli4 (x1, y1) B (x0, y0) (x2, y2)), (2 * t * (1 - t) / (2 * t * t - 2 * t + 1)), (hull (mkBez [(x0, y0); (x1, y1); (x2, y2)] u v) t), (x0, y0), (x2, y2).
    split; [|repeat (split; [reflexivity|]); split; [apply lli4_None|]].
    + unfold getABC. replace (idx (hull _ t) 5) with (Ok B).
      * unfold order; cbn [cps length Nat.sub Nat.eqb idx nth_error bind].
        unfold quadraticRatio. numRg. rewrite ndivR by nra. cbn [bind].
        change (idx_last [(x0, y0); (x1, y1); (x2, y2)]) with (Ok (x2, y2)). cbn [bind].
        replace (Rabs _) with (2 * t * (1 - t) / (2 * t * t - 2 * t + 1)); [reflexivity|].
        replace ((2 * t * t - 2 * t) / (2 * t * t - 2 * t + 1)) with (- (2 * t * (1 - t) / (2 * t * t - 2 * t + 1))) by (field; lra).
        rewrite Rabs_Ropp, Rabs_right; auto. apply Rle_ge. unfold Rdiv. apply Rmult_le_pos; [nra|]. left. now apply Rinv_0_lt_compat.
      * cbn. unfold B. rewrite curve3. unfold idx; cbn. numRg. apply Ok_pair; cbn [fst snd]; ring.
    + intros C HC. set (C0 := along (x0, y0) (x2, y2) (t * t / (2 * t * t - 2 * t + 1))).
      assert (E : C = C0).
      { apply (abc_core (x1, y1) B (x0, y0) (x2, y2) C0 C (2 * t * t - 2 * t + 1)); auto; [|eexists; reflexivity].
        unfold B, C0. rewrite curve3. unfold along, vadd, vscale, vsub; cbn [fst snd]. f_equal; field; lra. }
      subst C. split; [eexists; reflexivity|]. unfold B, C0. rewrite curve3. unfold along, vadd, vscale, vsub; cbn [fst snd]. f_equal; field; lra.
  - assert (W : 0 < t ^ 3 + (1 - t) ^ 3) by (apply Rplus_lt_0_compat; apply pow_lt; lra).
    set (P := [(x0, y0); (x1, y1); (x2, y2); (x3, y3)]). set (B := curve P t).
    set (A := along (x1, y1) (x2, y2) t). set (rt := 3 * t * (1 - t) / (t ^ 3 + (1 - t) ^ 3)).
    exists A, B, (lli4 A B (x0, y0) (x3, y3)), rt, (hull (mkBez P u v) t), (x0, y0), (x3, y3).
    split; [|repeat (split; [reflexivity|]); split; [apply lli4_None|]].
    + unfold getABC. replace (idx (hull _ t) 9) with (Ok B). 1: replace (idx (hull _ t) 5) with (Ok A).
      * unfold order; cbn [cps P length Nat.sub Nat.eqb bind].
        unfold cubicRatio. numRg. rewrite ndivR by lra. cbn [bind].
        change (idx_last P) with (Ok (x3, y3)). change (idx P 0) with (Ok (x0, y0)). cbn [bind].
        replace (Rabs _) with rt; [reflexivity|]. unfold rt.
        replace ((t * t * t + (1 - t) * (1 - t) * (1 - t) - 1) / (t * t * t + (1 - t) * (1 - t) * (1 - t))) with (- (3 * t * (1 - t) / (t ^ 3 + (1 - t) ^ 3))) by (field; lra).
        rewrite Rabs_Ropp, Rabs_right; auto. apply Rle_ge. unfold Rdiv. apply Rmult_le_pos; [nra|]. left. now apply Rinv_0_lt_compat.
      * cbn. unfold A, along, vadd, vscale, vsub. unfold idx; cbn. numRg. reflexivity.
      * unfold P at 1. cbn. unfold B, P. rewrite curve4. unfold idx; cbn. numRg. apply Ok_pair; cbn [fst snd]; ring.
    + intros C HC. set (C0 := along (x0, y0) (x3, y3) (t ^ 3 / (t ^ 3 + (1 - t) ^ 3))).
      assert (E : C = C0).
      { apply (abc_core A B (x0, y0) (x3, y3) C0 C (t ^ 3 + (1 - t) ^ 3)); auto; [|eexists; reflexivity].
        unfold A, B, C0, P. rewrite curve4. unfold along, vadd, vscale, vsub; cbn [fst snd]. f_equal; field; lra. }
      subst C. split; [eexists; reflexivity|]. unfold A, B, C0, P, rt. rewrite curve4. unfold along, vadd, vscale, vsub; cbn [fst snd]. f_equal; field; lra.
Qed.
