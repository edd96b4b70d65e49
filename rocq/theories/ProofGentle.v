(** Curves reduce (Bezier.py 569-615) does not give up on. *)
From Coq Require Import List ZArith Bool Reals Lra Lia Psatz Sorting.Sorted.
From Verif Require Import Py Inst SpecGeom SpecMatrix SpecFit SpecUtil SpecBezier SpecOrder SpecBounds SpecCurve
  MTransform MBounds MBezUtil MPathUtil MBezier ProofMatrix ProofFit ProofUtil ProofBounds ProofBezier ProofBezier2 ProofBezier3 ProofBBox ProofInter ProofReduce ProofSelf.
Import ListNotations.
Local Open Scope R_scope.

Section Gentle.
  Context (rnd : R -> R).
  #[local] Hint Extern 0 (TrigOps R) => exact (RTrig rnd) : typeclass_instances.
  Lemma atan2_zero x : Ratan2 0 x = 0 \/ Ratan2 0 x = PI.
  Proof.
    unfold Ratan2. destruct (Rlt_dec 0 x) as [X|X]; [left; unfold Rdiv; rewrite Rmult_0_l; apply atan_0|].
    destruct (Rlt_dec x 0) as [Y|Y]; [|repeat destruct (Rlt_dec _ _); lra].
    destruct (Rle_dec 0 0); [|lra]. right. unfold Rdiv; rewrite Rmult_0_l, atan_0. lra.
  Qed.
  Lemma not_bent (b : bezier R) : bends_one_way (cps b) -> bent rnd b = false.
  Proof.
    unfold bends_one_way, bent, order. intros H. destruct (Nat.eqb_spec (length (cps b) - 1) 3) as [L|]; [|reflexivity]. specialize (H ltac:(lia)). cbv zeta in H.
    set (side := fun i => vcross (vsub (nth 3 (cps b) (0, 0)) (nth 0 (cps b) (0, 0))) (vsub (nth i (cps b) (0, 0)) (nth 0 (cps b) (0, 0)))) in *.
    assert (A : forall i, exists x, angle (nth 0 (cps b) (0, 0)) (nth 3 (cps b) (0, 0)) (nth i (cps b) (0, 0)) = Ratan2 (side i) x) by (intros i; eexists; reflexivity).
    destruct (A 1%nat) as (x1 & ->). destruct (A 2%nat) as (x2 & ->). change (vcross _ (vsub (nth 1 (cps b) (0, 0)) _)) with (side 1%nat) in H. change (vcross _ (vsub (nth 2 (cps b) (0, 0)) _)) with (side 2%nat) in H.
    apply orb_false_iff. pose proof PI_RGT_0.
    assert (Cs : (0 < side 1%nat /\ 0 < side 2%nat) \/ (side 1%nat < 0 /\ side 2%nat < 0) \/ (side 1%nat = 0 /\ side 2%nat = 0)).
    { destruct H as [H|H]; [|auto]. destruct (Rtotal_order (side 1%nat) 0) as [K|[K|K]]; [right; left|rewrite K in H; lra|left]; split; auto; nra. }
    destruct Cs as [[P1 P2]|[[P1 P2]|[P1 P2]]].
    - pose proof (atan2_pos _ x1 P1). pose proof (atan2_pos _ x2 P2). split; apply andb_false_iff; [right|left]; apply Rltb_false; lra.
    - pose proof (atan2_neg _ x1 P1). pose proof (atan2_neg _ x2 P2). split; apply andb_false_iff; [left|right]; apply Rltb_false; lra.
    - rewrite P1, P2. destruct (atan2_zero x1) as [-> | ->], (atan2_zero x2) as [-> | ->]; split; apply andb_false_iff;
        (left; apply Rltb_false; lra) || (right; apply Rltb_false; lra).
  Qed.
  Theorem simple_suff (b : bezier R) : (length (cps b) = 3 \/ length (cps b) = 4)%nat -> turns_little (cps b) -> bends_one_way (cps b) -> simple b = Ok true.
  Proof.
    intros L [(d0 & d1 & D0 & D1 & P0 & P1 & C) _] B. pose proof (not_bent b B) as Nb.
    destruct (simple_cases rnd b L) as [[K _]|[[_ [_ (t & Ht & K)]]|[_ (n1 & n2 & c & N1 & N2 & U1 & U2 & K & Hc)]]]; [congruence| |].
    - exfalso. destruct Ht as [-> | ->].
      + rewrite (is_deriv_unique _ _ _ _ D0 K) in P0. unfold vdot in P0. cbn [fst snd] in P0. lra.
      + rewrite (is_deriv_unique _ _ _ _ D1 K) in P1. unfold vdot in P1. cbn [fst snd] in P1. lra.
    - rewrite K. f_equal. apply Hc.
      assert (Nz : forall d, 0 < vdot d d -> d <> (0, 0)) by (intros d H ->; unfold vdot in H; cbn [fst snd] in H; lra).
      destruct (derivative_ok b 0 L) as (e0 & E0 & F0). destruct (derivative_ok b 1 L) as (e1 & E1 & F1).
      rewrite (is_deriv_unique _ _ _ _ F0 D0) in E0. rewrite (is_deriv_unique _ _ _ _ F1 D1) in E1.
      destruct (normal_of rnd b 0 d0 E0 (Nz _ P0)) as [Q0 G0]. destruct (normal_of rnd b 1 d1 E1 (Nz _ P1)) as [Q1 G1].
      rewrite N1 in G0. injection G0 as ->. rewrite N2 in G1. injection G1 as ->. fold (vdot d0 d0) in *. fold (vdot d1 d1) in *.
      set (q0 := sqrt (vdot d0 d0)) in *. set (q1 := sqrt (vdot d1 d1)) in *. unfold vdot. cbn [fst snd].
      replace (- snd d0 / q0 * (- snd d1 / q1) + fst d0 / q0 * (fst d1 / q1)) with (vdot d0 d1 / (q0 * q1)) by (unfold vdot; field; lra).
      assert (Q : 0 < q0 * q1) by nra. apply (Rmult_lt_reg_r (q0 * q1)); [exact Q|].
      replace (vdot d0 d1 / (q0 * q1) * (q0 * q1)) with (vdot d0 d1) by (field; lra). lra.
  Qed.

  Section Pieces.
    Variables (p1 : bezier R).
    Hypothesis (L : (length (cps p1) = 3 \/ length (cps p1) = 4)%nat).
    Hypothesis (G : forall j, (j < 100)%nat -> simple_at rnd p1 j (S j)).
    Lemma piece j i sg : (j < i <= 100)%nat -> split2curve p1 (tk j) (tk i) = Ok sg ->
      length (cps sg) = length (cps p1) /\ tk j < tk i /\ forall s, curve (cps sg) s = curve (cps p1) (tk j + s * (tk i - tk j)).
    Proof.
      intros I E. pose proof (tk_lt j i ltac:(lia)). pose proof rstep_val. pose proof (tk_pos j). pose proof (proj2 (tk_le1 i) ltac:(lia)).
      destruct (split2curve_ok p1 (tk j) (tk i) L) as (c & Ec & Lc & C); [lra|left; lra|]. assert (sg = c) by congruence. subst sg. split; [exact Lc|]. split; [lra|exact C].
    Qed.
    Lemma moves j d : (j <= 100)%nat -> is_deriv (curve (cps p1)) (tk j) d -> d <> (0, 0).
    Proof.
      intros J D. destruct (Nat.eq_dec j 100) as [->|N].
      - destruct (G 99 ltac:(lia)) as (sg & E & Si). destruct (piece 99 100 sg ltac:(lia) E) as (Ls & Lt & C).
        exact (ends_move rnd p1 sg _ _ _ d L Ls Lt C Si (or_intror eq_refl) D).
      - destruct (G j ltac:(lia)) as (sg & E & Si). destruct (piece j (S j) sg ltac:(lia) E) as (Ls & Lt & C).
        exact (ends_move rnd p1 sg _ _ _ d L Ls Lt C Si (or_introl eq_refl) D).
    Qed.
    Lemma no_error j i sg : (j < i <= 100)%nat -> split2curve p1 (tk j) (tk i) = Ok sg -> exists c, simple sg = Ok c.
    Proof.
      intros I E. destruct (piece j i sg I E) as (Ls & Lt & C).
      destruct (simple_cases rnd sg) as [[_ K]|[[_ [_ (t & Ht & K)]]|[_ (n1 & n2 & c & _ & _ & _ & _ & K & _)]]]; [rewrite Ls; exact L|eauto| |eauto].
      exfalso. assert (X : forall u d, is_deriv (curve (cps p1)) (tk j + u * (tk i - tk j)) d -> is_deriv (curve (cps sg)) u (0, 0) -> d = (0, 0)).
      { intros u [dx dy] D Z. pose proof (is_deriv_part (cps p1) (cps sg) (tk j) (tk i) u (dx, dy) Lt C D) as W. pose proof (is_deriv_unique _ _ _ _ W Z) as Q.
        cbn [fst snd] in Q. injection Q as Q1 Q2. apply Rmult_integral in Q1, Q2. f_equal; lra. }
      destruct Ht as [-> | ->].
      - pose proof (curve_deriv (cps p1) (tk j) ltac:(lia)) as D. refine (moves j _ ltac:(lia) D (X 0 _ _ K)). replace (tk j + 0 * (tk i - tk j)) with (tk j) by ring. exact D.
      - pose proof (curve_deriv (cps p1) (tk i) ltac:(lia)) as D. refine (moves i _ ltac:(lia) D (X 1 _ _ K)). replace (tk j + 1 * (tk i - tk j)) with (tk i) by ring. exact D.
    Qed.
    Lemma inner_goes_on j : (j < 100)%nat -> forall fuel i, (j < i <= 101)%nat -> (102 - i <= fuel)%nat -> (i = S j -> forall r, reduceInner fuel p1 (tk j) (tk i) = r -> r <> Ok RNone) /\
      (i <> S j -> reduceInner fuel p1 (tk j) (tk i) <> Ok RNone) /\ forall e, reduceInner fuel p1 (tk j) (tk i) <> Err e.
    Proof.
      intros J. induction fuel as [|f IH]; intros i I F; [lia|]. cbn [reduceInner]. numRg.
      destruct (Rleb_spec (tk i) 1) as [Le|Gt]; [|repeat split; intros; subst; discriminate].
      apply tk_le1 in Le. pose proof (tk_pos j). pose proof (tk_lt j i ltac:(lia)). pose proof rstep_val as RV. pose proof (proj2 (tk_le1 i) Le).
      destruct (split2curve_ok p1 (tk j) (tk i) L) as (c & E & Lc & _); [lra|left; lra|]. rewrite E. cbn [bind].
      destruct (no_error j i c ltac:(lia) E) as (o & So). rewrite So. cbn [bind]. destruct o.
      - rewrite <- tk_S. destruct (IH (S i) ltac:(lia) ltac:(lia)) as (_ & N & X). specialize (N ltac:(lia)). split; [intros _ r <-; exact N|]. split; [intros _; exact N|exact X].
      - destruct i as [|i']; [lia|]. replace (tk (S i') - rstep) with (tk i') by (rewrite tk_S; ring).
        destruct (Nat.eq_dec j i') as [->|Nj].
        + exfalso. destruct (G i' J) as (sg & Es & Ss). congruence.
        + pose proof (tk_lt j i' ltac:(lia)). pose proof (proj2 (tk_le1 i') ltac:(lia)).
          rewrite (proj2 (Rltb_false _ _)) by (unfold Rabs; destruct (Rcase_abs _); lra).
          destruct (split2curve_ok p1 (tk j) (tk i') L) as (c' & E' & _); [lra|left; lra|]. rewrite E'. cbn [bind]. rewrite !bmap01. cbn [bind].
          split; [intros; lia|]. split; intros; discriminate.
    Qed.
    Lemma outer_goes_on : forall fuel j acc, (j < 100)%nat -> (102 - j <= fuel)%nat -> exists x l, reduceOuter fuel p1 (tk j) (tk j) acc = Ok (Some (x, l)).
    Proof.
      induction fuel as [|f IH]; intros j acc J F; [lia|]. cbn [reduceOuter]. numRg.
      rewrite (proj2 (Rleb_true _ _) (proj2 (tk_le1 j) ltac:(lia))). rewrite <- tk_S.
      destruct (inner_goes_on j J (S f) (S j) ltac:(lia) ltac:(lia)) as (N & _ & X). specialize (N eq_refl _ eq_refl).
      pose proof (inner_spec rnd p1 j L J (S f) (S j) ltac:(lia) ltac:(lia) ltac:(intros; lia)) as In.
      destruct (reduceInner (S f) p1 (tk j) (tk (S j))) as [[|x sg|]|e]; cbn [bind]; [congruence| |eauto|now destruct (X e)].
      destruct In as (m & sg' & M & -> & _). apply IH; lia.
    Qed.
  End Pieces.
  Lemma pass2_goes_on o fuel : (length o = 3 \/ length o = 4)%nat -> (102 <= fuel)%nat -> forall ps a z acc, tiles o a z ps ->
    (forall p, In p ps -> forall j, (j < 100)%nat -> simple_at rnd p j (S j)) -> (ps <> [] \/ acc <> []) ->
    exists l, reducePass2 fuel ps acc = Ok l /\ l <> [].
  Proof.
    intros Lo F. induction ps as [|p1 ps IH]; intros a z acc T H Ne; cbn [reducePass2].
    - exists acc. split; [reflexivity|]. destruct Ne; congruence.
    - cbn [tiles] in T. destruct T as (B & Lt & Lp & C & T). rewrite <- B in Lt, C.
      assert (L : (length (cps p1) = 3 \/ length (cps p1) = 4)%nat) by (rewrite Lp; exact Lo).
      numRg. assert (Z0 : tk 0 = 0) by (unfold tk; simpl; lra).
      destruct (outer_goes_on p1 L (H p1 (or_introl eq_refl)) fuel 0 [] ltac:(lia) ltac:(lia)) as (x & l & E).
      pose proof (outer_spec rnd o p1 Lo Lp Lt C fuel 0 [] ltac:(lia) ltac:(lia)) as Ou. rewrite E in Ou. rewrite Z0 in E. rewrite E. cbn [bind].
      destruct Ou as (m & segs & -> & M & _). pose proof (tk_lt m 100 M) as Lm. rewrite tk_100 in Lm. pose proof rstep_val as RV.
      rewrite (proj2 (Rltb_true (tk m) 1)) by lra.
      destruct (split2curve_ok p1 (tk m) 1 L) as (c & -> & _); [lra|right; reflexivity|]. cbn [bind]. rewrite bmap01. cbn [bind].
      apply IH with (a := bt2 p1) (z := z); [exact T|intros p Hp; apply H; now right|]. right. intros K. apply app_eq_nil in K as [_ K]. apply app_eq_nil in K as [_ K]. discriminate.
  Qed.
  Theorem reduce_goes_on (b : bezier R) fuel : (length (cps b) = 3 \/ length (cps b) = 4)%nat -> (102 <= fuel)%nat -> gentle (cps b) ->
    exists l, reduce fuel b = Ok l /\ l <> [].
  Proof.
    intros L F A. unfold reduce, extrema.
    destruct (extremaDim_spec rnd b 0) as (e0 & E0 & I0 & _); [lia|]. destruct (extremaDim_spec rnd b 1) as (e1 & E1 & I1 & _); [lia|].
    rewrite E0. cbn [bind]. rewrite E1. cbn [bind ex2].
    destruct (dedup_sorted (sorted e0 ++ sorted e1)) as (S & I).
    destruct (addEnds_sorted _ S) as (r & -> & Sr & Last & Nr).
    { intros t Ht. apply I in Ht. apply in_app_or in Ht. rewrite !sorted_In in Ht. destruct Ht; auto. }
    cbn [idx nth_error bind tl]. unfold idx. cbn [nth_error bind].
    destruct (pass1_ok b L r 0) as (segs & -> & T & N); [lra|exact Sr| |].
    { intros t Ht. assert (G : forall l x, StronglySorted Rlt (x :: l) -> forall y, In y (x :: l) -> y <= last (x :: l) 0).
      { induction l as [|w l IH]; intros x Sx y Hy.
        - destruct Hy as [->|[]]. simpl. lra.
        - inversion Sx as [|? ? Sx' Fx]; subst. change (last (x :: w :: l) 0) with (last (w :: l) 0). destruct Hy as [->|Hy]; [|now apply IH].
          rewrite Forall_forall in Fx. pose proof (Fx w (or_introl eq_refl)). pose proof (IH w Sx' w (or_introl eq_refl)). lra. }
      rewrite <- Last. now apply G. }
    cbn [bind]. specialize (N Nr). rewrite Last in T.
    apply (pass2_goes_on (cps b) fuel L F segs 0 1); [exact T| |now left].
    intros p Hp j J. destruct (tiles_In rnd _ _ _ _ _ T Hp) as (A1 & B1 & C1 & Ls & Cs).
    assert (Lp : (length (cps p) = 3 \/ length (cps p) = 4)%nat) by (rewrite Ls; exact L).
    pose proof (tk_lt j (Datatypes.S j) ltac:(lia)) as Lt. pose proof rstep_val. pose proof (tk_pos j). pose proof (proj2 (tk_le1 (Datatypes.S j)) ltac:(lia)) as Le.
    assert (St : tk (Datatypes.S j) = tk j + 1 / 100) by (rewrite tk_S; lra).
    destruct (split2curve_ok p (tk j) (tk (Datatypes.S j)) Lp) as (sg & E & Lc & C); [lra|left; lra|]. exists sg. split; [exact E|].
    destruct (A (bt1 p + tk j * (bt2 p - bt1 p)) (bt1 p + tk (Datatypes.S j) * (bt2 p - bt1 p)) (cps sg)) as [Tl Bw]; [nra|nra|nra|rewrite St; nra|congruence| |].
    - intros u. rewrite C, Cs. f_equal. ring.
    - apply simple_suff; auto. rewrite Lc. exact Lp.
  Qed.
End Gentle.

(** ** A cubic with a loop *)
Definition loop : list pt := [(0, 0); (3, 3); (-2, 3); (1, 0)].
Lemma loop_curve t : curve loop t = (16 * t ^ 3 - 24 * t ^ 2 + 9 * t, 9 * t * (1 - t)).
Proof. unfold loop. rewrite curve4. cbn [fst snd]. f_equal; ring. Qed.
(** It passes through its crossing point twice. *)
Lemma loop_crosses : let w := sqrt 3 / 4 in 0 < 1 / 2 - w /\ 1 / 2 + w < 1 /\ curve loop (1 / 2 - w) = curve loop (1 / 2 + w).
Proof.
  intros w. assert (Q : w * w = 3 / 16) by (unfold w; replace (sqrt 3 / 4 * (sqrt 3 / 4)) with (sqrt 3 * sqrt 3 / 16) by field; rewrite sqrt_sqrt; lra).
  assert (P : 0 < w) by (unfold w; pose proof (sqrt_lt_R0 3 ltac:(lra)); lra).
  split; [nra|]. split; [nra|]. rewrite !loop_curve. f_equal; [|field].
  replace (16 * (1 / 2 - w) ^ 3 - 24 * (1 / 2 - w) ^ 2 + 9 * (1 / 2 - w)) with (1 / 2 - w * (16 * (w * w) - 3)) by field.
  replace (16 * (1 / 2 + w) ^ 3 - 24 * (1 / 2 + w) ^ 2 + 9 * (1 / 2 + w)) with (1 / 2 + w * (16 * (w * w) - 3)) by field.
  rewrite Q. lra.
Qed.
Lemma loop_deriv t : is_deriv (curve loop) t (48 * (t - 1 / 2) ^ 2 - 3, - 18 * (t - 1 / 2)).
Proof.
  pose proof (curve_deriv loop t ltac:(simpl; lia)) as D. replace (curve (dcLevel (diffStep (length loop - 1)) loop) t) with (48 * (t - 1 / 2) ^ 2 - 3, - 18 * (t - 1 / 2)) in D; [exact D|].
  unfold loop. cbn [length Nat.sub dcLevel]. unfold diffStep. numRg. cbn [Z.of_nat Pos.of_succ_nat Pos.succ fst snd]. rewrite curve3. cbn [fst snd]. f_equal; simpl; field.
Qed.
(** The control points of a part of the loop. *)
Lemma loop_sides t1 t2 p : length p = 4%nat -> (forall s, curve p s = curve loop (t1 + s * (t2 - t1))) ->
  let side := fun i => vcross (vsub (nth 3 p (0, 0)) (nth 0 p (0, 0))) (vsub (nth i p (0, 0)) (nth 0 p (0, 0))) in let h := t2 - t1 in let a := t1 - 1 / 2 in let b := t2 - 1 / 2 in
  side 1%nat = - 6 * (h * h * h) * (24 * (a * a) + 16 * (a * h) + 3 / 2) /\ side 2%nat = - 6 * (h * h * h) * (24 * (b * b) - 16 * (b * h) + 3 / 2).
Proof.
  intros L C side h a b. destruct p as [|[x0 y0] [|[x1 y1] [|[x2 y2] [|[x3 y3] [|q r]]]]]; try (simpl in L; lia).
  pose proof (C 0) as C0. pose proof (C 1) as C1. pose proof (C 2) as C2. pose proof (C (-1)) as C3. rewrite curve4, loop_curve in C0, C1, C2, C3. cbn [fst snd] in C0, C1, C2, C3.
  injection C0 as X0 Y0. injection C1 as X1 Y1. injection C2 as X2 Y2. injection C3 as X3 Y3.
  assert (E0 : x0 = 16 * t1 ^ 3 - 24 * t1 ^ 2 + 9 * t1) by lra.
  assert (E3 : x3 = 16 * t2 ^ 3 - 24 * t2 ^ 2 + 9 * t2) by lra.
  assert (E1 : x1 = x0 + h * (16 * a ^ 2 - 1)) by (unfold h, a; lra).
  assert (E2 : x2 = x3 - h * (16 * b ^ 2 - 1)) by (unfold h, b; lra).
  assert (F0 : y0 = 9 * t1 * (1 - t1)) by lra.
  assert (F3 : y3 = 9 * t2 * (1 - t2)) by lra.
  assert (F1 : y1 = y0 - 6 * h * a) by (unfold h, a; lra).
  assert (F2 : y2 = y3 + 6 * h * b) by (unfold h, b; lra).
  unfold side, vcross, vsub. cbn [nth fst snd]. rewrite E1, F1, E2, F2, E0, F0, E3, F3. unfold h, a, b. split; field.
Qed.
Theorem loop_gentle : gentle loop.
Proof.
  intros t1 t2 p P1 P2 P3 P4 L C. simpl in L.
  set (a := t1 - 1 / 2). set (b := t2 - 1 / 2).
  assert (D : forall t, is_deriv (curve p) t ((t2 - t1) * (48 * (t1 + t * (t2 - t1) - 1 / 2) ^ 2 - 3), (t2 - t1) * (- 18 * (t1 + t * (t2 - t1) - 1 / 2)))).
  { intros t. exact (is_deriv_part loop p t1 t2 t _ P2 C (loop_deriv _)). }
  assert (H : 0 < b - a <= 1 / 100) by (unfold a, b; lra).
  assert (Ra : -(1 / 2) <= a <= 1 / 2) by (unfold a; lra). assert (Rb : -(1 / 2) <= b <= 1 / 2) by (unfold b; lra).
  assert (Ab : - (1 / 40000) <= a * b).
  { replace (a * b) with (((a + b) * (a + b) - (b - a) * (b - a)) / 4) by field. pose proof (Rle_0_sqr (a + b)) as Sq; unfold Rsqr in Sq. assert ((b - a) * (b - a) <= 1 / 100 * (1 / 100)) by (apply Rmult_le_compat; lra). lra. }
  assert (Ac : a * b <= 1 / 4) by nra.
  set (h := b - a) in *. assert (Eh : t2 - t1 = h) by (unfold h, a, b; ring).
  split; [split|].
  - pose proof (D 0) as D0. pose proof (D 1) as D1. rewrite Eh in D0, D1.
    replace (t1 + 0 * h - 1 / 2) with a in D0 by (unfold a; ring). replace (t1 + 1 * h - 1 / 2) with b in D1 by (unfold h, a, b; ring).
    eexists _, _. split; [exact D0|]. split; [exact D1|].
    assert (Dot : 8 <= (48 * a ^ 2 - 3) * (48 * b ^ 2 - 3) + 324 * (a * b)).
    { replace ((48 * a ^ 2 - 3) * (48 * b ^ 2 - 3) + 324 * (a * b)) with (2304 * ((a * b) * (a * b)) + 36 * (a * b) + 9 - 144 * (h * h)) by (unfold h; ring). nra. }
    assert (Cr : 0 <= h * (48 * (a * b) + 3) <= 3 / 20) by nra.
    assert (Pos : forall x, 8 < (48 * x ^ 2 - 3) ^ 2 + 324 * (x * x)).
    { intros x. replace ((48 * x ^ 2 - 3) ^ 2 + 324 * (x * x)) with (2304 * ((x * x) * (x * x)) + 36 * (x * x) + 9) by ring. nra. }
    pose proof (Pos a) as Pa. pose proof (Pos b) as Pb.
    unfold vdot; cbn [fst snd].
    replace (h * (48 * a ^ 2 - 3) * (h * (48 * a ^ 2 - 3)) + h * (-18 * a) * (h * (-18 * a))) with (h * h * ((48 * a ^ 2 - 3) ^ 2 + 324 * (a * a))) by ring.
    replace (h * (48 * b ^ 2 - 3) * (h * (48 * b ^ 2 - 3)) + h * (-18 * b) * (h * (-18 * b))) with (h * h * ((48 * b ^ 2 - 3) ^ 2 + 324 * (b * b))) by ring.
    replace (h * (48 * a ^ 2 - 3) * (h * (48 * b ^ 2 - 3)) + h * (-18 * a) * (h * (-18 * b))) with (h * h * ((48 * a ^ 2 - 3) * (48 * b ^ 2 - 3) + 324 * (a * b))) by ring.
    assert (Hh : 0 < h * h) by nra. split; [nra|]. split; [nra|].
    rewrite <- sqrt_mult by nra.
    set (dt := (48 * a ^ 2 - 3) * (48 * b ^ 2 - 3) + 324 * (a * b)) in *.
    replace (2 * (h * h * dt)) with (sqrt ((2 * (h * h * dt)) * (2 * (h * h * dt)))) by (apply sqrt_square; nra).
    apply sqrt_lt_1; [nra|nra|].
    replace (h * h * ((48 * a ^ 2 - 3) ^ 2 + 324 * (a * a)) * (h * h * ((48 * b ^ 2 - 3) ^ 2 + 324 * (b * b)))) with ((h * h) * (h * h) * (dt * dt + 324 * ((h * (48 * (a * b) + 3)) * (h * (48 * (a * b) + 3))))) by (unfold dt, h; ring).
    set (w := h * (48 * (a * b) + 3)) in *. replace (2 * (h * h * dt) * (2 * (h * h * dt))) with ((h * h) * (h * h) * (4 * (dt * dt))) by ring.
    apply Rmult_lt_compat_l; [nra|]. nra.
  - intros _ side. destruct (loop_sides t1 t2 p L C) as [S1 S2]. cbv zeta in S1, S2. fold a b in S1, S2. rewrite Eh in S1, S2. unfold side. rewrite S1, S2.
    assert (0 < h * h * h) by (assert (0 < h * h) by nra; nra). assert (Pz : forall x, -(1 / 2) <= x <= 1 / 2 -> -(1 / 200) <= x * h <= 1 / 200 /\ 0 <= x * x) by (intros x X; split; [split|]; nra).
    pose proof (Pz a Ra). pose proof (Pz b Rb). set (u := 24 * (a * a) + 16 * (a * h) + 3 / 2). set (v := 24 * (b * b) - 16 * (b * h) + 3 / 2). assert (0 < u) by (unfold u; lra). assert (0 < v) by (unfold v; lra). set (k := h * h * h) in *. assert (0 < k * u) by nra. assert (0 < k * v) by nra. split; intros [K1 K2]; nra.
  - intros _ side. left. destruct (loop_sides t1 t2 p L C) as [S1 S2]. cbv zeta in S1, S2. fold a b in S1, S2. rewrite Eh in S1, S2. unfold side. rewrite S1, S2.
    assert (0 < h * h * h) by (assert (0 < h * h) by nra; nra). assert (Pz : forall x, -(1 / 2) <= x <= 1 / 2 -> -(1 / 200) <= x * h <= 1 / 200 /\ 0 <= x * x) by (intros x X; split; [split|]; nra).
    pose proof (Pz a Ra). pose proof (Pz b Rb). set (u := 24 * (a * a) + 16 * (a * h) + 3 / 2). set (v := 24 * (b * b) - 16 * (b * h) + 3 / 2). assert (0 < u) by (unfold u; lra). assert (0 < v) by (unfold v; lra). set (k := h * h * h) in *. assert (0 < k * u) by nra. assert (0 < k * v) by nra. nra.
Qed.
