(** Proofs for C134. *)
From Coq Require Import List ZArith Bool Reals Lra Lia Binomial Arith.
From Verif Require Import Py Inst SpecGeom SpecMatrix SpecFit SpecMove SpecTurn SpecFitMove MTransform MMatrix MCurveFit ProofMatrix ProofFit ProofLsq ProofMove.
Import ListNotations.
Local Open Scope R_scope.

(** ** Columns *)
Lemma column_shape (M : list (list R)) n : shape n 1 M -> concat M = map (fun i => entry M i 0) (seq 0 n).
Proof.
  intros [L S]. subst n. induction S as [|r M Hr _ IH]; [reflexivity|].
  destruct r as [|x [|y r]]; simpl in Hr; try discriminate. cbn [length seq map concat]. rewrite IH. simpl app. f_equal.
  rewrite <- seq_shift, map_map. reflexivity.
Qed.
Lemma combine_map {A B C} (f : A -> B) (g : A -> C) l : combine (map f l) (map g l) = map (fun x => (f x, g x)) l.
Proof. induction l; simpl; congruence. Qed.
Lemma column_points_of Cx Cy n : shape n 1 Cx -> shape n 1 Cy ->
  column_points (Cx, Cy) = map (fun i => (entry Cx i 0, entry Cy i 0)) (seq 0 n).
Proof. intros SX SY. unfold column_points; cbn [fst snd]. rewrite (column_shape _ n SX), (column_shape _ n SY). apply combine_map. Qed.
Lemma columns_ext Cx Cy (l : list pt) n : shape n 1 Cx -> shape n 1 Cy -> length l = n ->
  (forall i, (i < n)%nat -> entry Cx i 0 = fst (ptn l i) /\ entry Cy i 0 = snd (ptn l i)) -> (Cx, Cy) = columns l.
Proof.
  intros SX SY L E. subst n. unfold columns. f_equal.
  - apply (mat_ext (length l) 1); auto using shape_column. intros i j Hi Hj. assert (j = 0%nat) as -> by lia.
    rewrite entry_column by auto. now apply E.
  - apply (mat_ext (length l) 1); auto using shape_column. intros i j Hi Hj. assert (j = 0%nat) as -> by lia.
    rewrite entry_column by auto. now apply E.
Qed.
Lemma columns_points (l : list pt) : column_points (columns l) = l.
Proof.
  unfold column_points, columns; cbn [fst snd]. induction l as [|[x y] l IH]; auto. cbn [map concat app combine]. now rewrite IH.
Qed.
Lemma ptn_map (f : pt -> pt) P i : (i < length P)%nat -> ptn (map f P) i = f (ptn P i).
Proof. intros Hi. unfold ptn. rewrite (nth_indep _ (0, 0) (f (0, 0))) by (now rewrite map_length). apply map_nth. Qed.
Lemma ptn_rev P i : (i < length P)%nat -> ptn (rev P) i = ptn P (length P - S i).
Proof. intros Hi. unfold ptn. now rewrite rev_nth. Qed.
Lemma ptn_mapseq (f : nat -> pt) n i : (i < n)%nat -> ptn (map f (seq 0 n)) i = f i.
Proof. intros Hi. unfold ptn. rewrite (nth_indep _ _ (f 0%nat)) by (now rewrite map_length, seq_length). rewrite map_nth, seq_nth; auto. Qed.
Lemma rsum_rev n f : rsum n f = rsum n (fun k => f (n - S k)%nat).
Proof.
  induction n as [|n IH]; auto.
  assert (X : forall m g, rsum (1 + m) g = g 0%nat + rsum m (fun k => g (S k))).
  { clear. induction m as [|m IH]; intros g; [simpl; ring|]. change (rsum (1 + S m) g) with (rsum (1 + m) g + g (S m)). rewrite IH. simpl. ring. }
  transitivity (rsum (1 + n) (fun k => f (1 + n - S k)%nat)); [|reflexivity].
  rewrite (X n (fun k => f (1 + n - S k)%nat)). change (rsum (S n) f) with (rsum n f + f n). rewrite IH.
  replace (1 + n - 1)%nat with n by lia.
  rewrite (rsum_ext n (fun k => f (1 + n - S (S k))%nat) (fun k => f (n - S k)%nat)) by (intros; f_equal; lia). ring.
Qed.
Lemma bernstein_sum N t : rsum (S N) (fun c => bernstein N c t) = 1.
Proof.
  transitivity ((t + (1 - t)) ^ N); [|replace (t + (1 - t)) with 1 by ring; apply pow1].
  rewrite Binomial.binomial, rsum_f_R0. reflexivity.
Qed.
Lemma bezier_const N e t : bezier_at N (fun _ => e) t = e.
Proof.
  unfold bezier_at. rewrite (rsum_ext _ _ (fun c => e * bernstein N c t)) by (intros; ring). rewrite rsum_scal, bernstein_sum. ring.
Qed.
Lemma bernstein_back N c t : (c <= N)%nat -> bernstein N (N - c) (1 - t) = bernstein N c t.
Proof.
  intros L. unfold bernstein. rewrite pascal_step1 by lia. replace (1 - (1 - t)) with t by ring.
  replace (N - (N - c))%nat with c by lia. ring.
Qed.
Lemma bezier_back N f t : bezier_at N (fun c => f (N - c)%nat) (1 - t) = bezier_at N f t.
Proof.
  unfold bezier_at. rewrite rsum_rev. apply rsum_ext. intros c Hc. replace (S N - S c)%nat with (N - c)%nat by lia.
  rewrite bernstein_back by lia. f_equal. f_equal. lia.
Qed.

(** ** bestFit *)
Section BestFit.
  Variables (P : list pt) (s : list R) (M : list (list R)) (n : nat).
  Hypothesis Hk : (0 < length P)%nat.
  Hypothesis Hn : (0 < n)%nat.
  Hypothesis Ls : length s = length P.
  Hypothesis SM : shape n n M.
  Hypothesis basis : forall c t, (c < n)%nat -> rsum n (fun r => t ^ r * entry M r c) = bernstein (n - 1) c t.
  Hypothesis lower : forall i j, (i < j)%nat -> (j < n)%nat -> entry M i j = 0.
  Hypothesis diag : forall i, (i < n)%nat -> entry M i i <> 0.
  Lemma bestFit_cases : (exists Cx Cy, bestFitN P M s n = Ok (Cx, Cy) /\ exists l, NoDup l /\ length l = n /\ incl l s) \/
    (bestFitN P M s n = Err TypeError /\ forall l, NoDup l -> incl l s -> (length l < n)%nat).
  Proof.
    set (l := nodup Req_EM_T s). destruct (Nat.lt_ge_cases (length l) n) as [L|L].
    - right. assert (X : forall l, NoDup l -> incl l s -> (length l < n)%nat).
      { intros l' N' I'. apply Nat.le_lt_trans with (length l); auto. apply NoDup_incl_length; auto.
        intros x Hx. apply nodup_In. auto. }
      split; auto. now apply lsq_fails.
    - left. assert (X : exists l, NoDup l /\ length l = n /\ incl l s).
      { exists (firstn n l). assert (ND : NoDup l) by apply NoDup_nodup. split; [|split].
        - rewrite <- (firstn_skipn n l) in ND. clear -ND. induction (firstn n l) as [|x m IH]; constructor.
          + inversion ND as [|? ? Nx _]; subst. intros I. apply Nx, in_or_app. auto.
          + apply IH. now inversion ND.
        - rewrite firstn_length. lia.
        - intros x Hx. apply (nodup_In Req_EM_T). fold l. rewrite <- (firstn_skipn n l). apply in_or_app. auto. }
      destruct X as (l' & N' & L' & I').
      destruct (lsq_succeeds P s M n Hk Hn Ls SM lower diag l' N' L' I') as ([Cx Cy] & E). exists Cx, Cy. split; eauto.
  Qed.
End BestFit.
Section Affine.
  Variables (P : list pt) (s : list R) (M : list (list R)) (n : nat).
  Hypothesis Hk : (0 < length P)%nat.
  Hypothesis Hn : (0 < n)%nat.
  Hypothesis Ls : length s = length P.
  Hypothesis SM : shape n n M.
  Hypothesis basis : forall c t, (c < n)%nat -> rsum n (fun r => t ^ r * entry M r c) = bernstein (n - 1) c t.
  Hypothesis lower : forall i j, (i < j)%nat -> (j < n)%nat -> entry M i j = 0.
  Hypothesis diag : forall i, (i < n)%nat -> entry M i i <> 0.
  Variables (a b c d : R) (v : pt).
  Let f := mapped a b c d v.
  Lemma mmul_lin k (A : nat -> nat -> R) (x y z : nat -> R) p q e i j :
    mmul k A (fun r _ => p * x r + q * y r + e * z r) i j = p * mmul k A (fun r _ => x r) i j + q * mmul k A (fun r _ => y r) i j + e * mmul k A (fun r _ => z r) i j.
  Proof.
    unfold mmul. rewrite <- !rsum_scal, <- !rsum_plus. apply rsum_ext. intros r Hr. ring.
  Qed.
  Lemma mmul_ext k (A : nat -> nat -> R) (x y : nat -> nat -> R) i j : (forall r, (r < k)%nat -> x r j = y r j) -> mmul k A x i j = mmul k A y i j.
  Proof. intros E. apply rsum_ext. intros r Hr. now rewrite E. Qed.
  Theorem bestFit_affine : bestFitN (map f P) M s n = answer (mapped_columns a b c d v) (bestFitN P M s n).
  Proof.
    assert (Hk' : (0 < length (map f P))%nat) by (now rewrite map_length).
    assert (Ls' : length s = length (map f P)) by (now rewrite map_length).
    destruct (bestFit_cases P s M n Hk Hn Ls SM lower diag) as [(Cx & Cy & E & l & ND & Ll & Il)|(E & Few)].
    2: { rewrite E. now apply lsq_fails. }
    destruct (lsq_succeeds (map f P) s M n Hk' Hn Ls' SM lower diag l ND Ll Il) as ([Dx Dy] & E').
    rewrite E, E'. cbn [answer]. f_equal.
    destruct (lsq_inv P s M n Hk Hn Ls SM Cx Cy E) as (M1 & G1 & IM & IM' & IG & IG' & SX & SY & EX & EY).
    destruct (lsq_inv (map f P) s M n Hk' Hn Ls' SM Dx Dy E') as (M2 & G2 & JM & JM' & JG & JG' & TX & TY & FX & FY).
    rewrite map_length in JG, JG', FX, FY.
    unfold mapped_columns. rewrite (column_points_of Cx Cy n) by auto. rewrite map_map.
    apply (columns_ext _ _ _ n); auto; [now rewrite map_length, seq_length|].
    intros i Hi. rewrite ptn_mapseq by auto. unfold mapped; cbn [fst snd].
    set (Tt := map (fun i => raiseRowPower s i) (seq 0 n)) in *.
    set (L1 := fun x : nat -> R => fun i => mmul n (entry M1) (mmul n (entry G1) (mmul (length P) (entry Tt) (fun i _ => x i))) i 0%nat).
    set (L2 := fun x : nat -> R => fun i => mmul n (entry M2) (mmul n (entry G2) (mmul (length P) (entry Tt) (fun i _ => x i))) i 0%nat).
    assert (U : forall x j, (j < n)%nat -> L2 x j = L1 x j).
    { intros x. 
      destruct (lsq_coord P s M n Hk Hn Ls basis M1 G1 x (L1 x) (L2 x) IM IM' IG IG') as (A1 & A2); [reflexivity|].
      destruct (lsq_coord P s M n Hk Hn Ls basis M2 G2 x (L2 x) (L1 x) JM JM' JG JG') as (B1 & B2); [reflexivity|].
      apply A2. lra. }
    assert (ONE : forall j, (j < n)%nat -> L1 (fun _ => 1) j = 1).
    { intros j Hj. symmetry.
      destruct (lsq_coord P s M n Hk Hn Ls basis M1 G1 (fun _ => 1) (L1 (fun _ => 1)) (fun _ => 1) IM IM' IG IG') as (A1 & A2); [reflexivity|].
      rewrite (rsum_0 _ (fun i => (bezier_at (n - 1) (fun _ => 1) (nth i s 0) - 1) ^ 2)) in A1, A2 by (intros; rewrite bezier_const; ring).
      apply (A2 ltac:(apply Rle_antisym; auto; apply rsum_nonneg; intros; apply pow2_ge_0) j Hj). }
    assert (LIN : forall (g : pt -> R) p q e, (forall x, g (f x) = p * fst x + q * snd x + e) ->
      mmul n (entry M2) (mmul n (entry G2) (mmul (length P) (entry Tt) (fun i _ => g (ptn (map f P) i)))) i 0%nat =
      p * L1 (fun i => fst (ptn P i)) i + q * L1 (fun i => snd (ptn P i)) i + e).
    { intros g p q e G.
      transitivity (L2 (fun i => p * fst (ptn P i) + q * snd (ptn P i) + e * 1) i).
      - apply mmul_ext. intros r Hr. apply mmul_ext. intros r' Hr'. apply mmul_ext. intros j Hj. rewrite ptn_map, G by auto. ring.
      - rewrite U by auto.
        unfold L1. 
        transitivity (mmul n (entry M1) (mmul n (entry G1) (fun r _ => p * mmul (length P) (entry Tt) (fun i _ => fst (ptn P i)) r 0%nat
            + q * mmul (length P) (entry Tt) (fun i _ => snd (ptn P i)) r 0%nat + e * mmul (length P) (entry Tt) (fun _ _ => 1) r 0%nat)) i 0%nat).
        { apply mmul_ext. intros r Hr. apply mmul_ext. intros r' Hr'. apply (mmul_lin (length P) (entry Tt)). }
        transitivity (mmul n (entry M1) (fun r _ => p * mmul n (entry G1) (mmul (length P) (entry Tt) (fun i _ => fst (ptn P i))) r 0%nat
            + q * mmul n (entry G1) (mmul (length P) (entry Tt) (fun i _ => snd (ptn P i))) r 0%nat + e * mmul n (entry G1) (mmul (length P) (entry Tt) (fun _ _ => 1)) r 0%nat) i 0%nat).
        { apply mmul_ext. intros r Hr. apply (mmul_lin n (entry G1)). }
        rewrite (mmul_lin n (entry M1)). 
        replace (mmul n (entry M1) (fun r _ => mmul n (entry G1) (mmul (length P) (entry Tt) (fun _ _ => 1)) r 0%nat) i 0%nat) with (L1 (fun _ => 1) i) by reflexivity.
        rewrite (ONE i Hi). rewrite Rmult_1_r. reflexivity. }
    rewrite FX, FY, EX, EY by auto. split.
    - apply (LIN fst). intros x. reflexivity.
    - apply (LIN snd). intros x. reflexivity.
  Qed.
End Affine.
(** ** The points in the opposite order *)
Lemma backward_nth s i : (i < length s)%nat -> nth i (backward_times s) 0 = 1 - nth (length s - S i) s 0.
Proof.
  intros Hi. unfold backward_times. rewrite (nth_indep _ 0 (1 - 0)) by (rewrite map_length, rev_length; auto).
  rewrite (map_nth (fun x => 1 - x)), rev_nth by auto. reflexivity.
Qed.
Lemma backward_length s : length (backward_times s) = length s.
Proof. unfold backward_times. now rewrite map_length, rev_length. Qed.
Lemma fit_error_back P s N f g : length s = length P ->
  fit_error (rev P) (backward_times s) N (fun c => f (N - c)%nat) (fun c => g (N - c)%nat) = fit_error P s N f g.
Proof.
  intros L. unfold fit_error. rewrite rev_length, rsum_rev. apply rsum_ext. intros i Hi.
  rewrite backward_nth, ptn_rev by lia. rewrite !bezier_back. rewrite L. replace (length P - S (length P - S i))%nat with i by lia. reflexivity.
Qed.
Lemma fit_error_ext P s N f g f' g' : (forall c, (c <= N)%nat -> f c = f' c /\ g c = g' c) -> fit_error P s N f g = fit_error P s N f' g'.
Proof.
  intros E. apply rsum_ext. intros i Hi. unfold bezier_at.
  rewrite (rsum_ext (S N) (fun c => bernstein N c (nth i s 0) * f c) (fun c => bernstein N c (nth i s 0) * f' c)) by (intros c Hc; f_equal; apply E; lia).
  rewrite (rsum_ext (S N) (fun c => bernstein N c (nth i s 0) * g c) (fun c => bernstein N c (nth i s 0) * g' c)) by (intros c Hc; f_equal; apply E; lia).
  reflexivity.
Qed.
Section Backward.
  Variables (P : list pt) (s : list R) (M : list (list R)) (n : nat).
  Hypothesis Hk : (0 < length P)%nat.
  Hypothesis Hn : (0 < n)%nat.
  Hypothesis Ls : length s = length P.
  Hypothesis SM : shape n n M.
  Hypothesis basis : forall c t, (c < n)%nat -> rsum n (fun r => t ^ r * entry M r c) = bernstein (n - 1) c t.
  Hypothesis lower : forall i j, (i < j)%nat -> (j < n)%nat -> entry M i j = 0.
  Hypothesis diag : forall i, (i < n)%nat -> entry M i i <> 0.
  Theorem bestFit_back : bestFitN (rev P) M (backward_times s) n = answer backward_columns (bestFitN P M s n).
  Proof.
    assert (Hk' : (0 < length (rev P))%nat) by (now rewrite rev_length).
    assert (Ls' : length (backward_times s) = length (rev P)) by (now rewrite rev_length, backward_length).
    assert (INJ : forall x y : R, 1 - x = 1 - y -> x = y) by (intros; lra).
    assert (ND1 : forall l, NoDup l -> NoDup (map (fun x : R => 1 - x) l)) by (intros l; apply FinFun.Injective_map_NoDup; exact INJ).
    destruct (bestFit_cases P s M n Hk Hn Ls SM lower diag) as [(Cx & Cy & E & l & ND & Ll & Il)|(E & Few)].
    2: { rewrite E. apply lsq_fails; auto. intros l ND Il. rewrite <- (map_length (fun x => 1 - x)). apply Few; auto.
         intros x Hx. apply in_map_iff in Hx as (y & <- & Hy). apply Il in Hy. unfold backward_times in Hy.
         apply in_map_iff in Hy as (z & <- & Hz). apply in_rev in Hz. now replace (1 - (1 - z)) with z by ring. }
    destruct (lsq_succeeds (rev P) (backward_times s) M n Hk' Hn Ls' SM lower diag (map (fun x => 1 - x) l)) as ([Dx Dy] & E').
    { auto. } { now rewrite map_length. }
    { intros x Hx. apply in_map_iff in Hx as (y & <- & Hy). unfold backward_times. apply in_map. rewrite <- in_rev. auto. }
    rewrite E, E'. cbn [answer]. f_equal.
    destruct (lsq_optimal P s M n Hk Hn Ls SM basis Cx Cy E) as (SX & SY & O).
    destruct (lsq_optimal (rev P) (backward_times s) M n Hk' Hn Ls' SM basis Dx Dy E') as (TX & TY & O').
    unfold backward_columns. rewrite (column_points_of Cx Cy n) by auto. set (l' := map _ _). assert (Ll' : length l' = n) by (unfold l'; now rewrite map_length, seq_length).
    apply (columns_ext _ _ _ n); auto; [now rewrite rev_length|].
    intros i Hi. rewrite ptn_rev, Ll' by lia. unfold l'. rewrite ptn_mapseq by lia. cbn [fst snd].
    specialize (O' (fun c => entry Cx (n - 1 - c) 0) (fun c => entry Cy (n - 1 - c) 0)). cbv zeta in O'.
    rewrite (fit_error_back P s (n - 1) (fun c => entry Cx c 0) (fun c => entry Cy c 0) Ls) in O'.
    specialize (O (fun c => entry Dx (n - 1 - c) 0) (fun c => entry Dy (n - 1 - c) 0)). cbv zeta in O.
    rewrite <- (fit_error_back P s (n - 1) (fun c => entry Dx (n - 1 - c) 0) (fun c => entry Dy (n - 1 - c) 0) Ls) in O.
    rewrite (fit_error_ext (rev P) (backward_times s) _ _ _ (fun c => entry Dx c 0) (fun c => entry Dy c 0)) in O
      by (intros c Hc; split; f_equal; lia).
    destruct O as [O _]. destruct O' as [O1 O2].
    destruct (O2 ltac:(lra) i Hi) as [A B]. replace (n - S i)%nat with (n - 1 - i)%nat by lia. now rewrite A, B.
  Qed.
End Backward.
(** Points that lie on a curve of the right degree give its control points back. *)
Theorem bestFit_reproduces (s : list R) (M : list (list R)) (Q : list pt) : 
  let n := length Q in let P := map (fun t => (bezier_at (n - 1) (fun c => fst (ptn Q c)) t, bezier_at (n - 1) (fun c => snd (ptn Q c)) t)) s in
  (0 < n)%nat -> (0 < length s)%nat -> shape n n M ->
  (forall c t, (c < n)%nat -> rsum n (fun r => t ^ r * entry M r c) = bernstein (n - 1) c t) ->
  (forall i j, (i < j)%nat -> (j < n)%nat -> entry M i j = 0) -> (forall i, (i < n)%nat -> entry M i i <> 0) ->
  (exists l, NoDup l /\ length l = n /\ incl l s) -> bestFitN P M s n = Ok (columns Q).
Proof.
  intros n P Hn Hs SM basis lower diag (l & ND & Ll & Il).
  assert (Hk : (0 < length P)%nat) by (unfold P; now rewrite map_length).
  assert (Ls : length s = length P) by (unfold P; now rewrite map_length).
  destruct (lsq_succeeds P s M n Hk Hn Ls SM lower diag l ND Ll Il) as ([Cx Cy] & E). rewrite E. f_equal.
  destruct (lsq_optimal P s M n Hk Hn Ls SM basis Cx Cy E) as (SX & SY & O).
  apply (columns_ext _ _ _ n); auto. intros i Hi.
  destruct (O (fun c => fst (ptn Q c)) (fun c => snd (ptn Q c))) as [A B].
  assert (Z : fit_error P s (n - 1) (fun c => fst (ptn Q c)) (fun c => snd (ptn Q c)) = 0).
  { apply rsum_0. intros j Hj.
    assert (PJ : ptn P j = (bezier_at (n - 1) (fun c => fst (ptn Q c)) (nth j s 0), bezier_at (n - 1) (fun c => snd (ptn Q c)) (nth j s 0))).
    { unfold P. set (h := fun t : R => (_, _)). unfold ptn. rewrite (nth_indep _ (0, 0) (h 0)) by (rewrite map_length; lia). apply map_nth. }
    rewrite PJ; cbn [fst snd]. ring. }
  rewrite Z in A, B.
  assert (N : 0 <= fit_error P s (n - 1) (fun c => entry Cx c 0) (fun c => entry Cy c 0)).
  { apply rsum_nonneg. intros j Hj. apply Rplus_le_le_0_compat; apply pow2_ge_0. }
  destruct (B ltac:(lra) i Hi). split; congruence.
Qed.

(** ** The parameters *)
Section Times.
Context (rnd : R -> R).
#[local] Hint Extern 0 (TrigOps R) => exact (RTrig rnd) : typeclass_instances.
Lemma dist_similar a b c d k v (p q : pt) : similarity a b c d k -> dist (mapped a b c d v p) (mapped a b c d v q) = k * dist p q.
Proof.
  intros (K & A & B & C). rewrite !(dist_vdist rnd). unfold vdist. rewrite <- sqrt_scale by auto. f_equal.
  unfold dist2, mapped; cbn [fst snd]. destruct p as [px py], q as [qx qy]; cbn [fst snd].
  transitivity ((a * a + c * c) * (px - qx) ^ 2 + (b * b + d * d) * (py - qy) ^ 2 + 2 * (a * b + c * d) * ((px - qx) * (py - qy))); [ring|].
  rewrite A, B, C. ring.
Qed.
Lemma chordLengths_similar a b c d k v (p : list pt) n : similarity a b c d k ->
  chordLengths (map (mapped a b c d v) p) n = answer (map (Rmult k)) (chordLengths p n).
Proof.
  intros S. unfold chordLengths.
  assert (X : forall l x, foldM (fun (d0 : list R) (i : nat) => let* di := idx d0 (i - 1) in let* a0 := idx (map (mapped a b c d v) p) (i - 1) in
      let* b0 := idx (map (mapped a b c d v) p) i in Ok (d0 ++ [(di + dist a0 b0)%num])) l (map (Rmult k) x) =
    answer (map (Rmult k)) (foldM (fun (d0 : list R) (i : nat) => let* di := idx d0 (i - 1) in let* a0 := idx p (i - 1) in
      let* b0 := idx p i in Ok (d0 ++ [(di + dist a0 b0)%num])) l x)).
  { induction l as [|i l IH]; intros x; [reflexivity|]. cbn [foldM]. rewrite !idx_answer, bind_answer.
    destruct (idx x (i - 1)) as [di|]; [|reflexivity]. cbn [bind]. rewrite bind_answer.
    destruct (idx p (i - 1)) as [p1|]; [|reflexivity]. cbn [bind]. rewrite bind_answer.
    destruct (idx p i) as [p2|]; [|reflexivity]. cbn [bind]. rewrite <- IH. f_equal.
    rewrite map_app. f_equal. cbn [map]. f_equal. rewrite (dist_similar _ _ _ _ k v) by auto. numRg. ring. }
  rewrite <- X. f_equal. cbn [map]. f_equal. numRg. ring.
Qed.
Theorem times_similar a b c d k v (p : list pt) n : similarity a b c d k ->
  computeTimeValuesN (map (mapped a b c d v) p) n true = computeTimeValuesN p n true.
Proof.
  intros S. unfold computeTimeValuesN. rewrite map_length. cbv zeta. rewrite (chordLengths_similar _ _ _ _ k) by auto. rewrite bind_answer.
  apply bind_ext. intros l _.
  assert (E : (match orLen n (length p) with O => idx_last (map (Rmult k) l) | S j => idx (map (Rmult k) l) j end) =
    answer (Rmult k) (match orLen n (length p) with O => idx_last l | S j => idx l j end)).
  { destruct (orLen n (length p)); [apply idx_last_answer|apply idx_answer]. }
  rewrite E, bind_answer. apply bind_ext. intros x _.
  assert (K : 0 < k) by apply S. clear - K. induction l as [|y l IH]; [reflexivity|]. cbn [map mapM]. rewrite IH.
  apply (f_equal (fun r => bind r _)). apply (ndiv_sc k K).
Qed.
Lemma times_uniform_any (p q : list pt) n : length p = length q -> computeTimeValuesN p n false = computeTimeValuesN q n false.
Proof. intros L. unfold computeTimeValuesN. now rewrite L. Qed.
Lemma vdist_sym (p q : pt) : vdist p q = vdist q p.
Proof. unfold vdist, dist2. f_equal. ring. Qed.
Lemma chord_back (p : list pt) i : (i < length p)%nat -> chord (rev p) i = chord p (length p - 1) - chord p (length p - 1 - i).
Proof.
  induction i as [|i IH]; intros Hi.
  - rewrite Nat.sub_0_r. change (chord (rev p) 0) with 0. ring.
  - rewrite chord_step, IH by lia. rewrite !ptn_rev by lia. rewrite vdist_sym.
    replace (length p - 1 - i)%nat with (S (length p - 1 - S i)) by lia. rewrite chord_step.
    replace (length p - S (S i))%nat with (length p - 1 - S i)%nat by lia. replace (length p - S i)%nat with (S (length p - 1 - S i)) by lia. ring.
Qed.
Theorem times_back (p : list pt) b : p <> [] -> computeTimeValues (rev p) b = answer backward_times (computeTimeValues p b).
Proof.
  intros Np. destruct b.
  - destruct (Req_EM_T (chord p (length p - 1)) 0) as [Z|Z].
    + assert (A : forall i, (i < length p)%nat -> ptn p i = ptn p 0) by (intros i Hi; apply (chord_0_all p (length p - 1)); auto; lia).
      rewrite (times_coincide rnd p A). rewrite (times_coincide rnd (rev p)); [reflexivity|].
      rewrite rev_length. intros i Hi. rewrite !ptn_rev by lia. rewrite A by lia. symmetry. apply A. lia.
    + assert (X : forall q : list pt, q <> [] -> chord q (length q - 1) <> 0 ->
        computeTimeValues q true = Ok (map (fun v => v / chord q (length q - 1)) (map (chord q) (seq 0 (length q))))).
      { intros q Nq Zq. unfold computeTimeValues, computeTimeValuesN. change (orLen 0 (length q)) with (length q). cbv zeta.
        rewrite (chordLengths_ok rnd) by auto. cbn [bind]. destruct (length q) as [|j] eqn:Lq; [destruct q; [congruence|discriminate]|].
        rewrite (idx_nth _ j (chord q 0)) by (rewrite map_length, seq_length; lia). rewrite map_nth, seq_nth by lia. cbn [bind plus].
        replace (S j - 1)%nat with j in * by lia. now apply ndiv_all. }
      assert (Lp : (0 < length p)%nat) by (destruct p; [congruence|simpl; lia]).
      assert (T : chord (rev p) (length (rev p) - 1) = chord p (length p - 1)).
      { rewrite rev_length, chord_back by lia. rewrite Nat.sub_diag. change (chord p 0) with 0. ring. }
      rewrite (X p Np Z). rewrite (X (rev p)); [|intros E; apply Np; rewrite <- (rev_involutive p), E; reflexivity|now rewrite T].
      cbn [answer]. f_equal. rewrite T, rev_length, !map_map. set (tot := chord p (length p - 1)) in *.
      apply (nth_ext _ _ 0 0); [rewrite backward_length, !map_length; reflexivity|]. intros i Hi. rewrite map_length, seq_length in Hi.
      rewrite backward_nth by (now rewrite map_length, seq_length). rewrite map_length, seq_length.
      assert (Y : forall (h : nat -> R) j, (j < length p)%nat -> nth j (map h (seq 0 (length p))) 0 = h j).
      { intros h j Hj. rewrite (nth_indep _ 0 (h 0%nat)) by (now rewrite map_length, seq_length). rewrite map_nth, seq_nth; auto. }
      rewrite !Y by lia. rewrite chord_back by auto. fold tot. replace (length p - S i)%nat with (length p - 1 - i)%nat by lia. field. auto.
  - assert (Lp : (0 < length p)%nat) by (destruct p; [congruence|simpl; lia]).
    destruct (times_uniform rnd p) as [U1 U2]. destruct (times_uniform rnd (rev p)) as [V1 V2]. rewrite rev_length in V1, V2.
    destruct (Nat.eq_dec (length p) 1) as [L|L]; [rewrite U1, V1 by auto; reflexivity|].
    rewrite U2, V2 by lia. cbn [answer]. f_equal.
    apply (nth_ext _ _ 0 0); [rewrite backward_length, !map_length; reflexivity|]. intros i Hi. rewrite map_length, seq_length in Hi.
    rewrite backward_nth by (now rewrite map_length, seq_length). rewrite map_length, seq_length.
    assert (Y : forall (h : nat -> R) j, (j < length p)%nat -> nth j (map h (seq 0 (length p))) 0 = h j).
    { intros h j Hj. rewrite (nth_indep _ 0 (h 0%nat)) by (now rewrite map_length, seq_length). rewrite map_nth, seq_nth; auto. }
    rewrite !Y by lia. replace (length p - S i)%nat with (length p - 1 - i)%nat by lia. rewrite (minus_INR (length p - 1) i) by lia. field.
    apply not_0_INR. lia.
Qed.
(** ** fit *)
Lemma bestFit_n (P : list pt) M s : P <> [] -> bestFit P M s = bestFitN P M s (length P).
Proof. intros N. unfold bestFit, bestFitN. destruct P; [congruence|]. reflexivity. Qed.
Theorem fit_moved lut a b c d v (P : list pt) poly : good_lut lut -> (poly = true -> exists k, similarity a b c d k) ->
  fit lut (map (mapped a b c d v) P) poly = answer (on_fit (fun s => s) (mapped_columns a b c d v)) (fit lut P poly).
Proof.
  intros G S. destruct P as [|p0 P0].
  - cbn [map]. unfold fit. cbn [length]. destruct (basisMatrix lut 0) as [[l m]|]; [|reflexivity]. cbn [bind]. rewrite answer_bind.
    apply bind_ext. intros s ES. destruct poly.
    + exfalso. rewrite (times_coincide rnd []) in ES by (simpl; lia). discriminate.
    + cbn in ES. injection ES as <-. reflexivity.
  - set (P := p0 :: P0). assert (Np : P <> []) by discriminate. assert (Lp : (0 < length P)%nat) by (simpl; lia).
    unfold fit. rewrite map_length.
    destruct (basisMatrix_full _ (length P) G) as (lut' & m & EB & _ & _ & SM & LOW & BM).
    destruct (basisMatrix_spec _ (length P) G) as (lut2 & m2 & EB2 & _ & _ & _ & BM2). rewrite EB in EB2. injection EB2 as <- <-.
    rewrite EB. cbn [bind].
    assert (ET : computeTimeValues (map (mapped a b c d v) P) poly = computeTimeValues P poly).
    { destruct poly; [destruct (S eq_refl) as (k & K); exact (times_similar a b c d k v P 0 K)|]. apply times_uniform_any. apply map_length. }
    rewrite ET, answer_bind. apply bind_ext. intros s ES. rewrite !bestFit_n by (auto; discriminate). rewrite map_length.
    rewrite (bestFit_affine P s m (length P)); auto.
    + rewrite bind_answer, answer_bind. apply bind_ext. intros [Cx Cy] _. reflexivity.
    + exact (times_length rnd P poly s Np ES).
    + intros i Hi. rewrite BM2 by auto. now apply basis_diag.
Qed.
Theorem fit_back lut (P : list pt) poly : good_lut lut ->
  fit lut (rev P) poly = answer (on_fit backward_times backward_columns) (fit lut P poly).
Proof.
  intros G. destruct P as [|p0 P0].
  - cbn [rev]. unfold fit. cbn [length]. destruct (basisMatrix lut 0) as [[l m]|]; [|reflexivity]. cbn [bind]. rewrite answer_bind.
    apply bind_ext. intros s ES. destruct poly.
    + exfalso. rewrite (times_coincide rnd []) in ES by (simpl; lia). discriminate.
    + cbn in ES. injection ES as <-. reflexivity.
  - set (P := p0 :: P0). assert (Np : P <> []) by discriminate. assert (Lp : (0 < length P)%nat) by (simpl; lia).
    assert (Nr : rev P <> []) by (intros E; apply Np; rewrite <- (rev_involutive P), E; reflexivity).
    unfold fit. rewrite rev_length.
    destruct (basisMatrix_full _ (length P) G) as (lut' & m & EB & _ & _ & SM & LOW & BM).
    destruct (basisMatrix_spec _ (length P) G) as (lut2 & m2 & EB2 & _ & _ & _ & BM2). rewrite EB in EB2. injection EB2 as <- <-.
    rewrite EB. cbn [bind]. rewrite times_back by auto. rewrite bind_answer, answer_bind.
    apply bind_ext. intros s ES. rewrite !bestFit_n by auto. rewrite rev_length.
    rewrite (bestFit_back P s m (length P)); auto.
    + rewrite bind_answer, answer_bind. apply bind_ext. intros [Cx Cy] _. reflexivity.
    + exact (times_length rnd P poly s Np ES).
    + intros i Hi. rewrite BM2 by auto. now apply basis_diag.
Qed.
End Times.

(** With the basis matrix of the module. *)
Theorem bestFit_affine_basis calls (P : list pt) (s : list R) n a b c d v : (0 < n)%nat -> (0 < length P)%nat -> length s = length P ->
  exists lut' m, basisMatrix (binomialHistory calls) n = Ok (lut', m) /\
    bestFitN (map (mapped a b c d v) P) m s n = answer (mapped_columns a b c d v) (bestFitN P m s n) /\
    bestFitN (rev P) m (backward_times s) n = answer backward_columns (bestFitN P m s n).
Proof.
  intros Hn Hk Ls. destruct (history_good calls) as (GL & _).
  destruct (basisMatrix_full _ n GL) as (lut' & m & EB & _ & _ & SM & LOW & BM).
  destruct (basisMatrix_spec _ n GL) as (lut2 & m2 & EB2 & _ & _ & _ & BM2). rewrite EB in EB2. injection EB2 as <- <-.
  assert (DG : forall i, (i < n)%nat -> entry m i i <> 0) by (intros i Hi; rewrite BM2 by auto; now apply basis_diag).
  exists lut', m. split; auto. split; [now apply bestFit_affine|now apply bestFit_back].
Qed.
Theorem bestFit_reproduces_basis calls (s : list R) (Q : list pt) : Q <> [] ->
  (exists l, NoDup l /\ length l = length Q /\ incl l s) ->
  exists lut' m, basisMatrix (binomialHistory calls) (length Q) = Ok (lut', m) /\
    bestFitN (map (curve_through Q) s) m s (length Q) = Ok (columns Q).
Proof.
  intros NQ X. destruct (history_good calls) as (GL & _).
  destruct (basisMatrix_full _ (length Q) GL) as (lut' & m & EB & _ & _ & SM & LOW & BM).
  destruct (basisMatrix_spec _ (length Q) GL) as (lut2 & m2 & EB2 & _ & _ & _ & BM2). rewrite EB in EB2. injection EB2 as <- <-.
  assert (DG : forall i, (i < length Q)%nat -> entry m i i <> 0) by (intros i Hi; rewrite BM2 by auto; now apply basis_diag).
  assert (LQ : (0 < length Q)%nat) by (destruct Q; [congruence|simpl; lia]).
  exists lut', m. split; auto. apply bestFit_reproduces; auto.
  destruct X as (l & _ & Ll & Il). destruct s as [|x s]; [|simpl; lia]. destruct l as [|y l]; [simpl in Ll; lia|]. destruct (Il y). simpl; auto.
Qed.
