(** Proofs: the quadrature of [Bezier.length] and the true length of a curve. *)
From Coq Require Import List ZArith Bool Reals Lra Lia Psatz.
From Coquelicot Require Import Coquelicot.
From Verif Require Import Py Inst SpecGeom SpecBezier SpecCurve SpecArc MTransform MBezUtil MBezier MTables MBezierObj ProofBezier ProofLength.
Import ListNotations.
Local Open Scope R_scope.

(** ** The rule integrates the powers of [2t - 1] up to the 47th. *)
Definition deg47 : R := / IZR (10 ^ 39).
Definition pwr (k : nat) (t : R) : R := (2 * t - 1) ^ k.
Definition mean (k : nat) : R := (1 + (-1) ^ k) / (2 * (INR k + 1)).
Definition zmean (k : nat) : Z := if Nat.even k then 2 else 0.
(** Powers of the nodes with fifty decimals, rounded down. *)
Definition fix50 : Z := 10 ^ 50.
Fixpoint apow (t : Z) (k : nat) : Z := match k with O => fix50 | S k => (apow t k * t / tableScale)%Z end.
Definition asum (k : nat) (l : list (Z * Z)) : Z := fold_right (fun tc s => (snd tc * apow (fst tc) k + s)%Z) 0%Z l.
Definition mom_ok (k : nat) (z : Z) : bool :=
  (Z.abs ((Z.of_nat k + 1) * z - zmean k * (tableScale * fix50)) * (2 * 10 ^ 39) <=? 2 * (Z.of_nat k + 1) * (tableScale * fix50))%Z.
Definition next (l : list ((Z * Z) * Z)) : list ((Z * Z) * Z) := map (fun x => (fst x, (snd x * fst (fst x) / tableScale)%Z)) l.
Definition dotc (l : list ((Z * Z) * Z)) : Z := fold_right (fun x s => (snd (fst x) * snd x + s)%Z) 0%Z l.
Fixpoint chk (n k : nat) (l : list ((Z * Z) * Z)) : bool :=
  match n with O => true | S n => mom_ok k (dotc l) && chk n (S k) (next l) end.
Definition stage (k : nat) : list ((Z * Z) * Z) := map (fun tc => (tc, apow (fst tc) k)) nodes.
Lemma next_stage k : next (stage k) = stage (S k).
Proof. unfold next, stage. rewrite map_map. reflexivity. Qed.
Lemma dotc_stage k : dotc (stage k) = asum k nodes.
Proof. unfold dotc, stage, asum. induction nodes as [|tc l IH]; cbn [map fold_right fst snd]; [reflexivity|]. now rewrite IH. Qed.
Lemma chk_all n : forall k, chk n k (stage k) = true -> forall j, (k <= j < k + n)%nat -> mom_ok j (asum j nodes) = true.
Proof.
  induction n as [|n IH]; intros k C j J; [lia|]. cbn [chk] in C. apply andb_true_iff in C as (C1 & C2). rewrite dotc_stage in C1. rewrite next_stage in C2.
  destruct (Nat.eq_dec j k) as [-> | N]; [exact C1|]. apply (IH (S k) C2). lia.
Qed.
Lemma moms_ok : chk 48 0 (stage 0) = true.
Proof. vm_compute. reflexivity. Qed.
Lemma fix_pos : 0 < IZR fix50. Proof. apply IZR_lt. reflexivity. Qed.
Lemma node_unit tc : node_ok tc = true -> Rabs (IZR (fst tc) / IZR tableScale) <= 1 /\ 0 <= IZR (snd tc) / IZR tableScale.
Proof.
  intros N. unfold node_ok in N. apply andb_true_iff in N as [N C]. apply andb_true_iff in N as [N1 N2]. apply Z.leb_le in C, N1, N2.
  apply IZR_le in C, N1, N2. rewrite opp_IZR in N1. pose proof scale_pos as P. pose proof (Rinv_0_lt_compat _ P) as P'. split; [|unfold Rdiv; nra].
  unfold Rdiv. rewrite Rabs_mult, (Rabs_pos_eq (/ IZR tableScale)) by lra. apply Rmult_le_reg_r with (IZR tableScale); [lra|].
  rewrite Rmult_assoc, Rinv_l by lra. rewrite Rmult_1_r, Rmult_1_l. now apply Rabs_le.
Qed.
Lemma apow_near t k : Rabs (IZR t / IZR tableScale) <= 1 -> Rabs ((IZR t / IZR tableScale) ^ k - IZR (apow t k) / IZR fix50) <= INR k / IZR fix50.
Proof.
  intros T. pose proof fix_pos as F. pose proof scale_pos as P. induction k as [|k IH].
  - cbn [apow pow INR]. replace (IZR fix50 / IZR fix50) with 1 by (field; lra). unfold Rminus, Rdiv. rewrite Rplus_opp_r, Rabs_R0. lra.
  - cbn [apow]. rewrite S_INR. cbn [pow]. set (x := IZR t / IZR tableScale) in *. set (a := apow t k) in *. set (y := IZR a / IZR fix50) in *.
    assert (Dv : exists u, 0 <= u < 1 /\ IZR (a * t / tableScale) = x * IZR a - u).
    { assert (PZ : (0 < tableScale)%Z) by reflexivity. pose proof (Z.div_mod (a * t) tableScale ltac:(lia)) as E. pose proof (Z.mod_pos_bound (a * t) tableScale PZ) as M.
      set (q := (a * t / tableScale)%Z) in *. set (m := ((a * t) mod tableScale)%Z) in *. exists (IZR m / IZR tableScale). clearbody q m.
      apply (f_equal IZR) in E. rewrite plus_IZR, !mult_IZR in E. destruct M as (M1 & M2). apply IZR_le in M1. apply IZR_lt in M2. split.
      - split; [unfold Rdiv; apply Rmult_le_pos; [lra | left; now apply Rinv_0_lt_compat]|]. apply Rmult_lt_reg_r with (IZR tableScale); [lra|]. unfold Rdiv. rewrite Rmult_assoc, Rinv_l by lra. lra.
      - unfold x. replace (IZR t / IZR tableScale * IZR a) with (IZR a * IZR t / IZR tableScale) by (field; lra). rewrite E. field. lra. }
    destruct Dv as (u & U & ->). replace (x * x ^ k - (x * IZR a - u) / IZR fix50) with (x * (x ^ k - y) + u / IZR fix50) by (unfold y; field; lra).
    eapply Rle_trans; [apply Rabs_triang|]. rewrite Rabs_mult. rewrite (Rabs_pos_eq (u / IZR fix50)) by (unfold Rdiv; apply Rmult_le_pos; [lra | left; now apply Rinv_0_lt_compat]).
    assert (u / IZR fix50 <= 1 / IZR fix50) by (apply Rmult_le_compat_r; [left; now apply Rinv_0_lt_compat | lra]).
    replace ((INR k + 1) / IZR fix50) with (INR k / IZR fix50 + 1 / IZR fix50) by (field; lra). apply Rplus_le_compat; [|lra].
    pose proof (Rabs_pos (x ^ k - y)). pose proof (Rabs_pos x). nra.
Qed.
Lemma gsum_near k l : List.Forall (fun tc => node_ok tc = true) l ->
  Rabs (gsum (pwr k) l - IZR (asum k l) / (IZR tableScale * IZR fix50)) <= INR k / IZR fix50 * gsum (fun _ => 1) l.
Proof.
  intros A. pose proof fix_pos as F. pose proof scale_pos as P. induction A as [|[t c] l N _ IH]; cbn [gsum asum fold_right fst snd].
  - unfold Rdiv. rewrite Rmult_0_l, Rminus_0_r, Rabs_R0. lra.
  - destruct (node_unit _ N) as (T & C). cbn [fst snd] in T, C. pose proof (apow_near t k T) as K. fold (asum k l).
    unfold pwr at 1. replace (2 * (IZR t / IZR tableScale * (1 / 2) + 1 / 2) - 1) with (IZR t / IZR tableScale) by (field; lra).
    rewrite plus_IZR, mult_IZR. set (x := (IZR t / IZR tableScale) ^ k) in *. set (y := IZR (apow t k)) in *. set (w := IZR c / IZR tableScale) in *.
    replace (w * x + gsum (pwr k) l - (IZR c * y + IZR (asum k l)) / (IZR tableScale * IZR fix50)) with
      (w * (x - y / IZR fix50) + (gsum (pwr k) l - IZR (asum k l) / (IZR tableScale * IZR fix50))) by (unfold w; field; lra).
    eapply Rle_trans; [apply Rabs_triang|]. rewrite Rabs_mult, (Rabs_pos_eq w) by exact C.
    assert (w * Rabs (x - y / IZR fix50) <= w * (INR k / IZR fix50)) by (apply Rmult_le_compat_l; lra). lra.
Qed.
Lemma zmean_mean k : IZR (zmean k) = 2 * (INR k + 1) * mean k.
Proof.
  unfold mean, zmean. pose proof (pos_INR k). replace (2 * (INR k + 1) * ((1 + (-1) ^ k) / (2 * (INR k + 1)))) with (1 + (-1) ^ k) by (field; lra).
  destruct (Nat.even k) eqn:E.
  - apply Nat.even_spec in E as (j & ->). rewrite pow_1_even. ring.
  - assert (O : Nat.odd k = true) by (unfold Nat.odd; now rewrite E). apply Nat.odd_spec in O as (j & ->). rewrite Nat.add_1_r, pow_1_odd. ring.
Qed.
Lemma half47 : 100 / IZR fix50 <= deg47 / 2.
Proof.
  unfold deg47, fix50. apply Rmult_le_reg_r with (IZR (10 ^ 50)); [apply IZR_lt; reflexivity|]. unfold Rdiv. rewrite Rmult_assoc, Rinv_l by (apply not_0_IZR; discriminate).
  replace (10 ^ 50)%Z with (10 ^ 39 * 10 ^ 11)%Z by reflexivity. rewrite (mult_IZR (10 ^ 39)). replace (/ IZR (10 ^ 39) * / 2 * (IZR (10 ^ 39) * IZR (10 ^ 11))) with (/ 2 * IZR (10 ^ 11)) by (field; apply not_0_IZR; discriminate).
  replace (IZR (10 ^ 11)) with 100000000000 by reflexivity. lra.
Qed.
Lemma gl_mean k : (k < 48)%nat -> Rabs (gl (pwr k) - mean k) <= deg47.
Proof.
  intros K. pose proof (chk_all 48 0 moms_ok k ltac:(lia)) as M.
  unfold mom_ok in M. apply Z.leb_le, IZR_le in M. rewrite !mult_IZR, abs_IZR, minus_IZR, !mult_IZR, plus_IZR, <- INR_IZR_INZ in M.
  pose proof (gsum_near k nodes nodes_ok) as G. pose proof gl_one as O. unfold near in O. replace (1 / 1) with 1 in O by field. unfold gl in O. apply Rabs_le_between' in O.
  unfold gl. pose proof half47 as H47. rewrite zmean_mean in M. pose proof scale_pos as P. pose proof fix_pos as F. pose proof (pos_INR k) as PK.
  set (W := IZR tableScale * IZR fix50) in *. assert (PW : 0 < W) by (unfold W; nra). set (z := IZR (asum k nodes)) in *. clearbody z W.
  assert (E1 : Rabs (z / (2 * W) - mean k) <= deg47 / 2).
  { unfold deg47. set (T := IZR (10 ^ 39)) in *. assert (PT : 0 < T) by (apply IZR_lt; reflexivity). clearbody T.
    set (n := INR k + 1) in *. assert (Pn : 0 < n) by (unfold n; lra). clearbody n. set (m := mean k) in *. clearbody m.
    replace (z / (2 * W) - m) with ((n * z - 2 * n * m * W) * / (2 * n * W)) by (field; lra).
    rewrite Rabs_mult, (Rabs_pos_eq (/ (2 * n * W))) by (left; apply Rinv_0_lt_compat; nra).
    apply Rmult_le_reg_r with (2 * n * W * (2 * T)); [repeat apply Rmult_lt_0_compat; lra|].
    replace (/ T / 2 * (2 * n * W * (2 * T))) with (2 * n * W) by (field; lra).
    replace (Rabs (n * z - 2 * n * m * W) * / (2 * n * W) * (2 * n * W * (2 * T))) with (Rabs (n * z - 2 * n * m * W) * (2 * T)) by (field; lra). exact M. }
  assert (T1 : ProofLength.tiny <= 1). { unfold ProofLength.tiny. rewrite <- Rinv_1. apply Rinv_le_contravar; [lra|]. apply IZR_le. discriminate. }
  set (g1 := gsum (fun _ => 1) nodes) in *. set (gk := gsum (pwr k) nodes) in *. clearbody g1 gk.
  assert (K48 : INR k <= 48). { replace 48 with (INR 48) by (cbn; ring). apply le_INR. lia. }
  assert (E2 : Rabs (1 / 2 * gk - z / (2 * W)) <= 100 / IZR fix50).
  { replace (1 / 2 * gk - z / (2 * W)) with (/ 2 * (gk - z / W)) by (field; lra). rewrite Rabs_mult, (Rabs_pos_eq (/ 2)) by lra.
    assert (INR k / IZR fix50 * g1 <= 48 / IZR fix50 * 4).
    { apply Rmult_le_compat; [unfold Rdiv; apply Rmult_le_pos; [lra | left; now apply Rinv_0_lt_compat] | lra | apply Rmult_le_compat_r; [left; now apply Rinv_0_lt_compat | lra] | lra]. }
    assert (0 < / IZR fix50) by now apply Rinv_0_lt_compat. unfold Rdiv in *. nra. }
  replace (1 / 2 * gk - mean k) with ((1 / 2 * gk - z / (2 * W)) + (z / (2 * W) - mean k)) by ring.
  eapply Rle_trans; [apply Rabs_triang|]. lra.
Qed.

(** ** Polynomials in [2t - 1]. *)
Fixpoint polyk (k : nat) (l : list R) (t : R) : R := match l with [] => 0 | a :: r => a * pwr k t + polyk (S k) r t end.
Fixpoint polym (k : nat) (l : list R) : R := match l with [] => 0 | a :: r => a * mean k + polym (S k) r end.
Lemma polyk_poly l : forall k t, polyk k l t = pwr k t * poly l (2 * t - 1).
Proof. induction l as [|a l IH]; intros k t; cbn [polyk poly]; [ring|]. rewrite IH. unfold pwr. cbn [pow]. ring. Qed.
Lemma gl_polyk l : forall k, (k + length l <= 48)%nat -> Rabs (gl (polyk k l) - polym k l) <= deg47 * coef_sum l.
Proof.
  induction l as [|a l IH]; intros k K; cbn [polym coef_sum].
  - replace (gl (polyk k [])) with 0; [rewrite Rminus_0_r, Rabs_R0; lra|]. rewrite (gl_ext _ (fun t => 0 * pwr 0 t)) by (intros; cbn [polyk]; ring). rewrite gl_scale. ring.
  - cbn [length] in K. rewrite (gl_ext _ (fun t => a * pwr k t + 1 * polyk (S k) l t)) by (intros; cbn [polyk]; ring). rewrite gl_lin.
    change (gl (fun t => pwr k t)) with (gl (pwr k)). change (gl (fun t => polyk (S k) l t)) with (gl (polyk (S k) l)).
    pose proof (gl_mean k ltac:(lia)) as G. pose proof (IH (S k) ltac:(lia)) as I.
    replace (a * gl (pwr k) + 1 * gl (polyk (S k) l) - (a * mean k + polym (S k) l)) with (a * (gl (pwr k) - mean k) + (gl (polyk (S k) l) - polym (S k) l)) by ring.
    eapply Rle_trans; [apply Rabs_triang|]. rewrite Rabs_mult. pose proof (Rabs_pos a). nra.
Qed.
Lemma int_pwr k : is_RInt (pwr k) 0 1 (mean k).
Proof.
  pose proof (pos_INR k) as PK. pose proof (S_INR k) as SK.
  replace (mean k) with (minus ((2 * 1 - 1) ^ (S k) / (2 * INR (S k))) ((2 * 0 - 1) ^ (S k) / (2 * INR (S k)))).
  - apply (is_RInt_derive (fun t => (2 * t - 1) ^ (S k) / (2 * INR (S k))) (pwr k)).
    + intros x _. unfold pwr. auto_derive; [trivial|]. change (match k with 0%nat => 1 | S _ => INR k + 1 end) with (INR (S k)). rewrite SK. unfold Rminus. field. lra.
    + intros x _. apply (@ex_derive_continuous R_AbsRing R_NormedModule). unfold pwr. auto_derive. trivial.
  - unfold minus, plus, opp; cbn -[pow INR]. unfold mean. rewrite SK. replace (2 * 1 - 1) with 1 by ring. replace (2 * 0 - 1) with (-1) by ring. rewrite pow1. cbn [pow]. field. lra.
Qed.
Lemma int_polyk l : forall k, is_RInt (polyk k l) 0 1 (polym k l).
Proof.
  induction l as [|a l IH]; intros k.
  - apply is_RInt_ext with (fun _ => 0); [intros; reflexivity|]. cbn [polym]. replace 0 with (scal (1 - 0) 0) at 2; [apply @is_RInt_const|]. unfold scal; cbn; unfold mult; cbn; ring.
  - apply is_RInt_ext with (fun t => plus (scal a (pwr k t)) (polyk (S k) l t)); [intros; reflexivity|].
    apply (is_RInt_plus (fun t => scal a (pwr k t)) (polyk (S k) l) 0 1 (a * mean k)); [|apply IH].
    apply (is_RInt_scal (pwr k) 0 1 a (mean k)), int_pwr.
Qed.

(** ** Functions close to a polynomial. *)
Lemma gl_diff f g e : (forall t, 0 <= t <= 1 -> Rabs (f t - g t) <= e) -> Rabs (gl f - gl g) <= e * (1 + ProofLength.tiny).
Proof.
  intros K. pose proof gl_one as O. unfold near in O. replace (1 / 1) with 1 in O by field. apply Rabs_le_between' in O.
  assert (0 <= e). { pose proof (K 0 ltac:(lra)). pose proof (Rabs_pos (f 0 - g 0)). lra. }
  assert (E : gl (fun t => e * 1) = e * gl (fun _ => 1)) by apply (gl_scale e (fun _ => 1)).
  assert (U : gl f <= gl (fun t => 1 * g t + 1 * (e * 1))). { apply gl_le. intros t T. specialize (K t T). apply Rabs_le_between' in K. lra. }
  assert (L : gl (fun t => 1 * g t + (-1) * (e * 1)) <= gl f). { apply gl_le. intros t T. specialize (K t T). apply Rabs_le_between' in K. lra. }
  rewrite gl_lin, E in U, L. change (gl (fun t => g t)) with (gl g) in U, L. apply Rabs_le. nra.
Qed.
Lemma int_diff (f g : R -> R) (e : R) : ex_RInt f 0 1 -> ex_RInt g 0 1 -> (forall t, 0 <= t <= 1 -> Rabs (f t - g t) <= e) -> Rabs (RInt f 0 1 - RInt g 0 1) <= e.
Proof.
  intros F G K. assert (C : forall c : R, ex_RInt (fun _ : R => c) 0 1) by (intros; apply @ex_RInt_const).
  assert (V : forall c : R, RInt (fun _ => c) 0 1 = c). { intros c. rewrite RInt_const. unfold scal; cbn; unfold mult; cbn; ring. }
  assert (U : RInt (fun t => minus (f t) (g t)) 0 1 <= RInt (fun _ => e) 0 1).
  { apply RInt_le; [lra | now apply @ex_RInt_minus | apply C|]. intros t T. pose proof (K t ltac:(lra)) as H. pose proof (Rle_abs (f t - g t)). unfold minus, plus, opp; cbn; lra. }
  assert (L : RInt (fun _ => - e) 0 1 <= RInt (fun t => minus (f t) (g t)) 0 1).
  { apply RInt_le; [lra | apply C | now apply @ex_RInt_minus|]. intros t T. pose proof (K t ltac:(lra)) as H. apply Rabs_le_between in H. unfold minus, plus, opp; cbn; lra. }
  assert (E : RInt (fun t => minus (f t) (g t)) 0 1 = RInt f 0 1 - RInt g 0 1) by exact (RInt_minus f g 0 1 F G).
  rewrite E in U, L. rewrite !V in *. apply Rabs_le. lra.
Qed.
Theorem near_polynomial f l e : ex_RInt f 0 1 -> (length l <= 48)%nat -> (forall t, 0 <= t <= 1 -> Rabs (f t - poly l (2 * t - 1)) <= e) ->
  Rabs (gl f - RInt f 0 1) <= e * (2 + ProofLength.tiny) + deg47 * coef_sum l.
Proof.
  intros F D K. assert (K' : forall t, 0 <= t <= 1 -> Rabs (f t - polyk 0 l t) <= e).
  { intros t T. rewrite polyk_poly. unfold pwr. cbn [pow]. rewrite Rmult_1_l. now apply K. }
  pose proof (gl_diff f (polyk 0 l) e K') as A. pose proof (gl_polyk l 0 ltac:(lia)) as B.
  pose proof (int_polyk l 0) as I. pose proof (is_RInt_unique _ _ _ _ I) as IU.
  pose proof (int_diff f (polyk 0 l) e F (ex_intro _ _ I) K') as C. rewrite IU in C.
  replace (gl f - RInt f 0 1) with ((gl f - gl (polyk 0 l)) + (gl (polyk 0 l) - polym 0 l) - (RInt f 0 1 - polym 0 l)) by ring.
  apply Rabs_le_between in A, B, C. apply Rabs_le. lra.
Qed.
