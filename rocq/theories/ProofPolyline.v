(** Proofs for C143: lookup tables as polylines. *)
From Coq Require Import List ZArith Bool Reals Lra Lia Psatz.
From Verif Require Import Py Inst SpecGeom SpecMatrix SpecBezier SpecCurve SpecContour SpecPolyline MTransform MBounds MBezUtil MBezier MBezierObj MContour
  ProofMatrix ProofBezier ProofBezier2 ProofInter ProofLut ProofLength ProofContour ProofClosest ProofConvex.
Import ListNotations.
Local Open Scope R_scope.

(** ** The sag of a chord *)
Lemma convex_mvt (h h' : R -> R) a b lam : a <= b -> 0 <= lam <= 1 -> (forall t, a <= t <= b -> derivable_pt_lim h t (h' t)) ->
  (forall u v, a <= u -> u <= v -> v <= b -> h' u <= h' v) -> h ((1 - lam) * a + lam * b) <= (1 - lam) * h a + lam * h b.
Proof.
  intros AB L D M. set (t := (1 - lam) * a + lam * b).
  destruct (Req_dec lam 0) as [Z|Z]; [unfold t; subst lam; replace ((1 - 0) * a + 0 * b) with a by ring; lra|].
  destruct (Req_dec lam 1) as [Z1|Z1]; [unfold t; subst lam; replace ((1 - 1) * a + 1 * b) with b by ring; lra|].
  destruct (Req_dec a b) as [E|E]; [unfold t; subst b; replace ((1 - lam) * a + lam * a) with a by ring; lra|].
  assert (T1 : t - a = lam * (b - a)) by (unfold t; ring). assert (T2 : b - t = (1 - lam) * (b - a)) by (unfold t; ring).
  assert (P1 : 0 < lam * (b - a)) by (apply Rmult_lt_0_compat; lra). assert (P2 : 0 < (1 - lam) * (b - a)) by (apply Rmult_lt_0_compat; lra).
  destruct (MVT_cor2 h h' a t ltac:(lra)) as (c1 & E1 & C1); [intros; apply D; lra|].
  destruct (MVT_cor2 h h' t b ltac:(lra)) as (c2 & E2 & C2); [intros; apply D; lra|].
  pose proof (M c1 c2 ltac:(lra) ltac:(lra) ltac:(lra)) as K. rewrite T1 in E1. rewrite T2 in E2.
  assert (Q : 0 <= (h' c2 - h' c1) * (lam * (1 - lam) * (b - a))) by (repeat apply Rmult_le_pos; lra).
  assert (X1 : (1 - lam) * (h t - h a) = h' c1 * (lam * (1 - lam) * (b - a))) by (rewrite E1; ring).
  assert (X2 : lam * (h b - h t) = h' c2 * (lam * (1 - lam) * (b - a))) by (rewrite E2; ring). lra.
Qed.
Lemma bez_sag N f a b lam D : 0 <= a -> a <= b -> b <= 1 -> 0 <= lam <= 1 -> 0 <= D -> (forall i, (S i < N)%nat -> - D <= f (S (S i)) - 2 * f (S i) + f i) ->
  bez N f ((1 - lam) * a + lam * b) <= (1 - lam) * bez N f a + lam * bez N f b + INR N * INR (N - 1) * D * (lam * (1 - lam)) * (b - a) ^ 2 / 2.
Proof.
  intros A AB B L D0 H. destruct N as [|[|n]]; [simpl; lra | simpl; unfold shift; lra|].
  set (K := INR (S (S n)) * INR (S n) * D). replace (S (S n) - 1)%nat with (S n) by lia.
  set (h := fun t => bez (S (S n)) f t + K / 2 * (t * t)).
  set (h1 := fun t => INR (S (S n)) * bez (S n) (fun i => f (S i) - f i) t + K / 2 * (1 * t + t * 1)).
  pose proof (pos_INR (S (S n))) as N2. pose proof (pos_INR (S n)) as N1.
  assert (G : h ((1 - lam) * a + lam * b) <= (1 - lam) * h a + lam * h b).
  { apply (convex_mvt h h1 a b lam AB L).
    - intros t _. unfold h, h1. apply derivable_pt_lim_plus; [apply (bez_deriv (S (S n)))|].
      apply (derivable_pt_lim_scal (fun t => t * t)). apply (derivable_pt_lim_mult (fun t => t) (fun t => t)); apply derivable_pt_lim_id.
    - intros u v U UV V. destruct (Req_dec u v) as [->|NE]; [lra|].
      destruct (MVT_cor2 h1 (fun t => INR (S (S n)) * (INR (S n) * bez n (fun i => f (S (S i)) - f (S i) - (f (S i) - f i)) t) + K / 2 * (1 + 1)) u v ltac:(lra)) as (c & E & C).
      + intros t _. unfold h1. apply derivable_pt_lim_plus; [apply (derivable_pt_lim_scal (bez (S n) (fun i => f (S i) - f i))); apply (bez_deriv (S n))|].
        apply (derivable_pt_lim_scal (fun t => 1 * t + t * 1)). replace (1 + 1) with ((0 * t + 1 * 1) + (1 * 1 + t * 0)) by ring.
        apply (derivable_pt_lim_plus (fun t => 1 * t) (fun t => t * 1)).
        * apply (derivable_pt_lim_mult (fun _ => 1) (fun t => t)); [apply derivable_pt_lim_const | apply derivable_pt_lim_id].
        * apply (derivable_pt_lim_mult (fun t => t) (fun _ => 1)); [apply derivable_pt_lim_id | apply derivable_pt_lim_const].
      + destruct (fun_max (fun i => f (S (S i)) - f (S i) - (f (S i) - f i)) n) as (hi & Hi).
        assert (P : - D <= bez n (fun i => f (S (S i)) - f (S i) - (f (S i) - f i)) c).
        { apply (bez_bound n _ c (- D) hi ltac:(lra)). intros i I. split; [|now apply Hi]. specialize (H i ltac:(lia)). lra. }
        assert (Q : 0 <= INR (S (S n)) * (INR (S n) * (bez n (fun i => f (S (S i)) - f (S i) - (f (S i) - f i)) c + D))) by (repeat apply Rmult_le_pos; lra).
        assert (W : 0 <= (INR (S (S n)) * (INR (S n) * bez n (fun i => f (S (S i)) - f (S i) - (f (S i) - f i)) c) + K / 2 * (1 + 1)) * (v - u)) by (apply Rmult_le_pos; unfold K; lra). lra. }
  unfold h in G. fold K.
  replace (K * (lam * (1 - lam)) * (b - a) ^ 2 / 2) with (K / 2 * ((1 - lam) * (a * a) + lam * (b * b) - ((1 - lam) * a + lam * b) * ((1 - lam) * a + lam * b))) by field. lra.
Qed.
Lemma bent_nth D p i : bent D p -> (S (S i) < length p)%nat ->
  norm (vadd (vsub (nth (S (S i)) p (0, 0)) (vscale 2 (nth (S i) p (0, 0)))) (nth i p (0, 0))) <= D.
Proof.
  intros H L.
  assert (X : exists pre post, p = pre ++ nth i p (0, 0) :: nth (S i) p (0, 0) :: nth (S (S i)) p (0, 0) :: post).
  { clear H. revert i L. induction p as [|u p IH]; intros i L; [simpl in L; lia|]. destruct i as [|i].
    - destruct p as [|v [|w r]]; simpl in L; try lia. exists [], r. reflexivity.
    - destruct (IH i ltac:(simpl in L; lia)) as (pre & post & E). exists (u :: pre), post. cbn [nth app]. now rewrite <- E. }
  destruct X as (pre & post & E). specialize (H _ _ _ _ _ E). set (a := nth i p (0, 0)) in *. set (b := nth (S i) p (0, 0)) in *. set (c := nth (S (S i)) p (0, 0)) in *.
  eapply Rle_trans; [|exact H]. right. replace (2 * vdist b (part_way (1 / 2) a c)) with (norm (vscale 2 (vsub (part_way (1 / 2) a c) b))) by (rewrite norm_scale, norm_vdist, Rabs_pos_eq by lra; reflexivity). f_equal.
  unfold vadd, vsub, vscale, part_way. cbn [fst snd]. f_equal; field.
Qed.
Theorem curve_sag p a b lam D : 0 <= a -> a <= b -> b <= 1 -> 0 <= lam <= 1 -> bent D p -> 0 <= D ->
  let n := INR (length p - 1) in
  vdist (curve p ((1 - lam) * a + lam * b)) (part_way lam (curve p a) (curve p b)) <= n * (n - 1) / 8 * D * (b - a) ^ 2.
Proof.
  intros A AB B L H D0 n. set (x := curve p _). set (y := part_way _ _ _).
  set (e := vsub x y). assert (Ne : vdist x y = norm e) by (unfold e; rewrite dist_sym; symmetry; apply norm_vdist).
  rewrite Ne. pose proof (norm_pos e) as P.
  assert (NN : n * (n - 1) = INR (length p - 1) * INR (length p - 1 - 1)).
  { unfold n. destruct (length p - 1)%nat as [|m]; [simpl; lra|]. replace (S m - 1)%nat with m by lia. rewrite S_INR. ring. }
  assert (NP : 0 <= n * (n - 1)) by (rewrite NN; apply Rmult_le_pos; apply pos_INR).
  assert (Sq : 0 <= (b - a) ^ 2) by apply pow2_ge_0.
  assert (R0 : 0 <= n * (n - 1) / 8 * D * (b - a) ^ 2) by (apply Rmult_le_pos; [apply Rmult_le_pos; lra | exact Sq]).
  destruct (Req_dec (norm e) 0) as [Z|Z]; [lra|].
  pose proof (bez_sag (length p - 1) (fun i => f_of (fst e) (snd e) (nth i p (0, 0))) a b lam (norm e * D) A AB B L ltac:(apply Rmult_le_pos; lra)) as G.
  rewrite <- !curve_f in G. fold x in G.
  assert (I : f_of (fst e) (snd e) x - ((1 - lam) * f_of (fst e) (snd e) (curve p a) + lam * f_of (fst e) (snd e) (curve p b)) = norm e * norm e).
  { rewrite norm_sq. unfold f_of, vdot, e, y, part_way, vsub. cbn [fst snd]. ring. }
  rewrite <- NN in G.
  assert (LL : lam * (1 - lam) <= / 4) by (pose proof (Rle_0_sqr (lam - / 2)); unfold Rsqr in *; lra).
  assert (LP : 0 <= lam * (1 - lam)) by (apply Rmult_le_pos; lra).
  assert (F : norm e * norm e <= n * (n - 1) * (norm e * D) * (lam * (1 - lam)) * (b - a) ^ 2 / 2).
  { cut (f_of (fst e) (snd e) x <= (1 - lam) * f_of (fst e) (snd e) (curve p a) + lam * f_of (fst e) (snd e) (curve p b) + n * (n - 1) * (norm e * D) * (lam * (1 - lam)) * (b - a) ^ 2 / 2); [lra|].
    apply G. intros i Hi. pose proof (bent_nth D p i H ltac:(lia)) as Bn. set (d := vadd _ _) in Bn.
    replace (f_of (fst e) (snd e) (nth (S (S i)) p (0, 0)) - 2 * f_of (fst e) (snd e) (nth (S i) p (0, 0)) + f_of (fst e) (snd e) (nth i p (0, 0))) with (vdot e d) by (unfold f_of, vdot, d, vadd, vsub, vscale; cbn [fst snd]; ring).
    pose proof (dot_abs e d) as DA. apply Rabs_le_inv in DA. assert (norm e * norm d <= norm e * D) by (apply Rmult_le_compat_l; lra). lra. }
  apply Rmult_le_reg_l with (norm e); [lra|].
  assert (M : n * (n - 1) * (norm e * D) * (lam * (1 - lam)) * (b - a) ^ 2 <= n * (n - 1) * (norm e * D) * / 4 * (b - a) ^ 2).
  { apply Rmult_le_compat_r; [exact Sq|]. apply Rmult_le_compat_l; [apply Rmult_le_pos; [exact NP | apply Rmult_le_pos; lra] | exact LL]. }
  lra.
Qed.

(** ** The way along a polyline *)
Lemma walk_nth : forall p i, (S i < length p)%nat -> walk (firstn (S (S i)) p) = walk (firstn (S i) p) + vdist (nth i p (0, 0)) (nth (S i) p (0, 0)).
Proof.
  induction p as [|a p IH]; intros i L; [simpl in L; lia|]. destruct i as [|i].
  - destruct p as [|b p]; [simpl in L; lia|]. simpl. ring.
  - destruct p as [|b p]; [simpl in L; lia|]. pose proof (IH i ltac:(simpl in L |- *; lia)) as E.
    change (firstn (S (S (S i))) (a :: b :: p)) with (a :: firstn (S (S i)) (b :: p)). change (firstn (S (S i)) (a :: b :: p)) with (a :: firstn (S i) (b :: p)).
    change (nth (S i) (a :: b :: p) (0, 0)) with (nth i (b :: p) (0, 0)). change (nth (S (S i)) (a :: b :: p) (0, 0)) with (nth (S i) (b :: p) (0, 0)).
    transitivity (vdist a b + walk (firstn (S (S i)) (b :: p))); [reflexivity|]. rewrite E. transitivity (vdist a b + walk (firstn (S i) (b :: p)) + vdist (nth i (b :: p) (0, 0)) (nth (S i) (b :: p) (0, 0))); [ring | reflexivity].
Qed.
Lemma vdist_pos a b : 0 <= vdist a b.
Proof. apply sqrt_pos. Qed.
Lemma walk_pos p : 0 <= walk p.
Proof. induction p as [|a [|b p] IH]; [simpl; lra | simpl; lra|]. change (0 <= vdist a b + walk (b :: p)). pose proof (vdist_pos a b). lra. Qed.
Definition gauge (p : list pt) (t : R) : R := bez (length p - 1) (fun i => walk (firstn (S i) p)) t.
Lemma gauge_step p u v : (1 <= length p)%nat -> 0 <= u -> u <= v -> v <= 1 -> vdist (curve p u) (curve p v) <= gauge p v - gauge p u.
Proof.
  intros N U UV V. set (e := vsub (curve p v) (curve p u)). rewrite <- norm_vdist. fold e. pose proof (norm_pos e) as P.
  assert (G : 0 <= gauge p v - gauge p u).
  { unfold gauge. pose proof (bez_mono (length p - 1) (fun i => walk (firstn (S i) p)) u v) as M. cut (bez (length p - 1) (fun i => walk (firstn (S i) p)) u <= bez (length p - 1) (fun i => walk (firstn (S i) p)) v); [lra|].
    apply M; auto. intros i Hi. rewrite walk_nth by lia. pose proof (vdist_pos (nth i p (0, 0)) (nth (S i) p (0, 0))). lra. }
  destruct (Req_dec (norm e) 0) as [Z|Z]; [lra|]. apply Rmult_le_reg_l with (norm e); [lra|]. rewrite norm_sq.
  pose proof (bez_mono (length p - 1) (fun i => norm e * walk (firstn (S i) p) + -1 * f_of (fst e) (snd e) (nth i p (0, 0))) u v) as M. rewrite !bez_lin in M.
  change (bez (length p - 1) (fun i => walk (firstn (S i) p)) u) with (gauge p u) in M. change (bez (length p - 1) (fun i => walk (firstn (S i) p)) v) with (gauge p v) in M.
  rewrite <- !curve_f in M.
  assert (I : vdot e e = f_of (fst e) (snd e) (curve p v) - f_of (fst e) (snd e) (curve p u)) by (unfold vdot, f_of, e, vsub; cbn [fst snd]; ring). rewrite I.
  cut (norm e * gauge p u + -1 * f_of (fst e) (snd e) (curve p u) <= norm e * gauge p v + -1 * f_of (fst e) (snd e) (curve p v)); [lra|]. apply M; auto.
  intros i Hi. rewrite walk_nth by lia. rewrite <- norm_vdist. set (w := vsub (nth (S i) p (0, 0)) (nth i p (0, 0))).
  assert (E : f_of (fst e) (snd e) (nth (S i) p (0, 0)) = f_of (fst e) (snd e) (nth i p (0, 0)) + vdot e w) by (unfold vdot, f_of, w, vsub; cbn [fst snd]; ring). rewrite E.
  pose proof (dot_le e w). lra.
Qed.
Lemma gauge_ends p : (1 <= length p)%nat -> gauge p 0 = 0 /\ gauge p 1 = walk p.
Proof.
  intros N. unfold gauge. rewrite bez_0, bez_1. split; [destruct p; reflexivity|]. replace (S (length p - 1)) with (length p) by lia. now rewrite firstn_all.
Qed.
Lemma gauge_mono p u v : (1 <= length p)%nat -> 0 <= u -> u <= v -> v <= 1 -> gauge p u <= gauge p v.
Proof. intros N U UV V. pose proof (gauge_step p u v N U UV V). pose proof (vdist_pos (curve p u) (curve p v)). lra. Qed.
Lemma walk_samples p (f : nat -> R) : (1 <= length p)%nat -> forall n k, (forall i, (k <= i <= k + n)%nat -> 0 <= f i <= 1) -> (forall i, (k <= i < k + n)%nat -> f i <= f (S i)) ->
  walk (map (fun i => curve p (f i)) (seq k (S n))) <= gauge p (f (k + n)%nat) - gauge p (f k).
Proof.
  intros N. induction n as [|n IH]; intros k U M; [simpl; replace (k + 0)%nat with k by lia; lra|].
  specialize (IH (S k)). replace (S k + n)%nat with (k + S n)%nat in IH by lia.
  assert (IH' : walk (map (fun i => curve p (f i)) (seq (S k) (S n))) <= gauge p (f (k + S n)%nat) - gauge p (f (S k))) by (apply IH; intros; [apply U | apply M]; lia).
  change (vdist (curve p (f k)) (curve p (f (S k))) + walk (map (fun i => curve p (f i)) (seq (S k) (S n))) <= gauge p (f (k + S n)%nat) - gauge p (f k)).
  pose proof (gauge_step p (f k) (f (S k)) N (proj1 (U k ltac:(lia))) (M k ltac:(lia)) (proj2 (U (S k) ltac:(lia)))). lra.
Qed.
Lemma walk_chord : forall p, (1 <= length p)%nat -> vdist (hd (0, 0) p) (last p (0, 0)) <= walk p.
Proof.
  induction p as [|a [|b p] IH]; intros L; [simpl in L; lia| |].
  - cbn [hd last walk]. rewrite <- norm_vdist. unfold norm, vdot, vsub. cbn [fst snd]. replace (_ + _) with 0 by ring. rewrite sqrt_0. lra.
  - specialize (IH ltac:(simpl; lia)). change (last (a :: b :: p) (0, 0)) with (last (b :: p) (0, 0)). change (walk (a :: b :: p)) with (vdist a b + walk (b :: p)).
    cbn [hd] in *. pose proof (dist_tri a b (last (b :: p) (0, 0))). lra.
Qed.

(** ** The table *)
Section Table.
  Variables (b : bezier R) (s : Z) (l : list pt).
  Hypothesis Hb : (1 <= length (cps b))%nat.
  Hypothesis Hs : (2 <= s)%Z.
  Hypothesis Hl : getLUT b s = Ok l.
  Let n := Z.to_nat (s - 1).
  Lemma n_s : IZR (s - 1) = INR n.
  Proof. unfold n. rewrite INR_IZR_INZ. f_equal. lia. Qed.
  Lemma n_pos1 : 0 < INR n.
  Proof. rewrite <- n_s. apply IZR_lt. lia. Qed.
  Lemma table_is : l = map (fun i => curve (cps b) (INR i / INR n)) (seq 0 (S n)).
  Proof.
    pose proof (sample_ok b s Hb Hs) as E. assert (Q : getLUT b s = sampleLUT b s) by (unfold getLUT; destruct (Z.eqb_spec s 0); [lia | reflexivity]).
    rewrite Q, E in Hl. injection Hl as <-. replace (Z.to_nat s) with (S n) by (unfold n; lia). apply map_ext. intros i. now rewrite n_s.
  Qed.
  Lemma table_at i : (i <= n)%nat -> nth i l (0, 0) = curve (cps b) (INR i / INR n).
  Proof. intros Hi. rewrite table_is. rewrite (nth_map_seq (fun i => curve (cps b) (INR i / INR n))) by lia. reflexivity. Qed.
  Lemma in_unit i : (i <= n)%nat -> 0 <= INR i / INR n <= 1.
  Proof.
    intros Hi. pose proof n_pos1. apply le_INR in Hi. pose proof (pos_INR i). split; [apply Rmult_le_pos; [lra | left; now apply Rinv_0_lt_compat]|].
    apply Rmult_le_reg_r with (INR n); [lra|]. unfold Rdiv. rewrite Rmult_assoc, Rinv_l by lra. lra.
  Qed.
  Lemma up i : INR i / INR n <= INR (S i) / INR n.
  Proof. pose proof n_pos1. apply Rmult_le_compat_r; [left; now apply Rinv_0_lt_compat|]. rewrite S_INR. lra. Qed.
  Theorem table_sag D i lam : bent D (cps b) -> 0 <= D -> (S i < length l)%nat -> 0 <= lam <= 1 ->
    let m := INR (length (cps b) - 1) in
    vdist (curve (cps b) ((INR i + lam) / IZR (s - 1))) (part_way lam (nth i l (0, 0)) (nth (S i) l (0, 0))) <= m * (m - 1) / 8 * D / (IZR (s - 1)) ^ 2.
  Proof.
    intros H D0 Hi L m. assert (Ln : length l = S n) by (rewrite table_is, map_length, seq_length; reflexivity). rewrite Ln in Hi.
    rewrite !table_at by lia. rewrite n_s. pose proof n_pos1 as P. pose proof (in_unit i ltac:(lia)) as [U1 _]. pose proof (in_unit (S i) ltac:(lia)) as [_ U2]. pose proof (up i) as U3.
    pose proof (curve_sag (cps b) _ _ lam D U1 U3 U2 L H D0) as G. cbv zeta in G. fold m in G.
    replace ((1 - lam) * (INR i / INR n) + lam * (INR (S i) / INR n)) with ((INR i + lam) / INR n) in G by (rewrite S_INR; field; lra).
    replace (m * (m - 1) / 8 * D / INR n ^ 2) with (m * (m - 1) / 8 * D * (INR (S i) / INR n - INR i / INR n) ^ 2) by (rewrite S_INR; field; lra). exact G.
  Qed.
  Theorem table_walk : vdist (hd (0, 0) (cps b)) (last (cps b) (0, 0)) <= walk l <= walk (cps b).
  Proof.
    destruct (sample_spec b s Hb Hs) as (l' & E & _ & _ & Eh & El). assert (Q : getLUT b s = sampleLUT b s) by (unfold getLUT; destruct (Z.eqb_spec s 0); [lia | reflexivity]).
    rewrite Q in Hl. rewrite Hl in E. assert (l' = l) by congruence. subst l'. rewrite <- Q in Hl. rewrite <- Eh, <- El. split.
    - apply walk_chord. rewrite table_is, map_length, seq_length. lia.
    - rewrite table_is. eapply Rle_trans; [apply (walk_samples (cps b) (fun i => INR i / INR n) Hb n 0)|].
      + intros i Hi. apply in_unit. lia.
      + intros i _. apply up.
      + cbn [Nat.add INR]. replace (0 / INR n) with 0 by (unfold Rdiv; ring). replace (INR n / INR n) with 1 by (pose proof n_pos1; field; lra). destruct (gauge_ends (cps b) Hb) as [-> ->]. lra.
  Qed.
End Table.

(** More steps. *)
Lemma walk_sum : forall p, walk p = rsum (length p - 1) (fun i => vdist (nth i p (0, 0)) (nth (S i) p (0, 0))).
Proof.
  induction p as [|a [|c p] IH]; [reflexivity | reflexivity|]. change (walk (a :: c :: p)) with (vdist a c + walk (c :: p)). rewrite IH.
  replace (length (a :: c :: p) - 1)%nat with (S (length (c :: p) - 1)) by (simpl; lia). rewrite rsum_shift1. reflexivity.
Qed.
Lemma rsum_le n f g : (forall i, (i < n)%nat -> f i <= g i) -> rsum n f <= rsum n g.
Proof. induction n; intros H; [simpl; lra|]. simpl. pose proof (H n ltac:(lia)). assert (rsum n f <= rsum n g) by (apply IHn; intros; apply H; lia). lra. Qed.
Lemma rsum_add a c f : rsum (a + c) f = rsum a f + rsum c (fun i => f (a + i)%nat).
Proof. induction c; [rewrite Nat.add_0_r; simpl; ring|]. rewrite Nat.add_succ_r. simpl. rewrite IHc. ring. Qed.
Lemma rsum_blocks k n f : rsum (n * k) f = rsum n (fun i => rsum k (fun j => f (i * k + j)%nat)).
Proof. induction n; [reflexivity|]. cbn [Nat.mul rsum]. rewrite Nat.add_comm, rsum_add, IHn. reflexivity. Qed.
Lemma block_tri (x : nat -> pt) o k : vdist (x o) (x (o + k)%nat) <= rsum k (fun j => vdist (x (o + j)%nat) (x (S (o + j)))).
Proof.
  induction k as [|k IH]; [rewrite Nat.add_0_r; cbn [rsum]; rewrite <- norm_vdist; unfold norm, vdot, vsub; cbn [fst snd]; replace (_ + _) with 0 by ring; rewrite sqrt_0; lra|].
  cbn [rsum]. rewrite Nat.add_succ_r. pose proof (dist_tri (x o) (x (o + k)%nat) (x (S (o + k)))). lra.
Qed.
Theorem table_finer (b : bezier R) (s k : Z) l l' : (1 <= length (cps b))%nat -> (2 <= s)%Z -> (1 <= k)%Z -> getLUT b s = Ok l -> getLUT b (k * (s - 1) + 1) = Ok l' -> walk l <= walk l'.
Proof.
  intros Hb Hs Hk E E'. assert (Hs' : (2 <= k * (s - 1) + 1)%Z) by nia.
  pose proof (table_is b s l Hb Hs E) as I. pose proof (table_is b _ l' Hb Hs' E') as I'. replace (k * (s - 1) + 1 - 1)%Z with (k * (s - 1))%Z in I' by ring.
  set (n := Z.to_nat (s - 1)) in *. set (q := Z.to_nat k). replace (Z.to_nat (k * (s - 1))) with (n * q)%nat in I' by (unfold n, q; rewrite Z2Nat.inj_mul by lia; lia).
  assert (Pn : 0 < INR n) by (apply lt_0_INR; unfold n; lia). assert (Pq : 0 < INR q) by (apply lt_0_INR; unfold q; lia).
  rewrite !walk_sum. replace (length l - 1)%nat with n by (rewrite I, map_length, seq_length; lia). replace (length l' - 1)%nat with (n * q)%nat by (rewrite I', map_length, seq_length; lia).
  rewrite rsum_blocks. apply rsum_le. intros i Hi.
  set (x := fun j => curve (cps b) (INR j / INR (n * q))).
  assert (X' : forall j, (j <= n * q)%nat -> nth j l' (0, 0) = x j) by (intros j Hj; rewrite I'; rewrite (nth_map_seq x) by lia; reflexivity).
  assert (X : forall j, (j <= n)%nat -> nth j l (0, 0) = x (j * q)%nat).
  { intros j Hj. rewrite I. rewrite (nth_map_seq (fun i => curve (cps b) (INR i / INR n))) by lia. unfold x. f_equal. rewrite !mult_INR. field. lra. }
  rewrite !X by lia. replace (S i * q)%nat with (i * q + q)%nat by lia. eapply Rle_trans; [apply block_tri|]. apply rsum_le. intros j Hj.
  assert (i * q + S j <= n * q)%nat by nia. rewrite !X' by lia. lra.
Qed.

(** ** Splitting *)
Lemma leg_mix lam a b : 0 <= lam <= 1 -> vdist a (part_way lam a b) = lam * vdist a b /\ vdist (part_way lam a b) b = (1 - lam) * vdist a b.
Proof.
  intros L. rewrite <- !norm_vdist. split.
  - rewrite <- (Rabs_pos_eq lam) at 2 by lra. rewrite <- norm_scale. f_equal. unfold part_way, vsub, vscale. cbn [fst snd]. f_equal; ring.
  - rewrite <- (Rabs_pos_eq (1 - lam)) at 1 by lra. rewrite <- norm_scale. f_equal. unfold part_way, vsub, vscale. cbn [fst snd]. f_equal; ring.
Qed.
Lemma level_shrinks lam a b c : 0 <= lam <= 1 -> vdist (part_way lam a b) (part_way lam b c) <= (1 - lam) * vdist a b + lam * vdist b c.
Proof.
  intros L. destruct (leg_mix lam a b L) as [_ E1]. destruct (leg_mix lam b c L) as [E2 _]. rewrite <- E1, <- E2. apply dist_tri.
Qed.
Lemma lerp_between (t : R) (a b : pt) : lerp t a b = part_way t a b.
Proof. destruct a, b. unfold lerp, part_way. numRg. cbn [fst snd]. f_equal; ring. Qed.
Theorem split_walk (b l r : bezier R) t h : (length (cps b) = 3 \/ length (cps b) = 4)%nat -> 0 <= t <= 1 -> split1 b t = Ok (l, r, h) -> walk (cps l) + walk (cps r) <= walk (cps b).
Proof.
  destruct b as [p u v]. cbn [cps]. intros L T. destruct L as [L|L].
  - destruct p as [|p0 [|p1 [|p2 [|]]]]; try discriminate. unfold split1, hull, order. cbn [cps length Nat.sub Nat.eqb hullLoop dcLevel Nat.ltb Nat.leb app idx nth_error bind]. rewrite !lerp_between.
    rewrite !newBezier_ok by (cbn; lia). cbn [bind]. intros E. repeat (match type of E with bind ?x _ = _ => destruct x; cbn [bind] in E; [|discriminate] end). assert (El : cps l = [p0; part_way t p0 p1; part_way t (part_way t p0 p1) (part_way t p1 p2)]) by (symmetry; exact (f_equal (fun x : res (bezier R * bezier R * list pt) => match x with Ok (y, _, _) => cps y | Err _ => [] end) E)).
    assert (Er : cps r = [part_way t (part_way t p0 p1) (part_way t p1 p2); part_way t p1 p2; p2]) by (symmetry; exact (f_equal (fun x : res (bezier R * bezier R * list pt) => match x with Ok (_, y, _) => cps y | Err _ => [] end) E)). rewrite El, Er. cbn [walk].
    destruct (leg_mix t p0 p1 T) as [A1 A2]. destruct (leg_mix t p1 p2 T) as [B1 B2]. destruct (leg_mix t (part_way t p0 p1) (part_way t p1 p2) T) as [C1 C2]. pose proof (level_shrinks t p0 p1 p2 T). rewrite A1, B2, C1, C2. lra.
  - destruct p as [|p0 [|p1 [|p2 [|p3 [|]]]]]; try discriminate. unfold split1, hull, order. cbn [cps length Nat.sub Nat.eqb hullLoop dcLevel Nat.ltb Nat.leb app idx nth_error bind]. rewrite !lerp_between.
    rewrite !newBezier_ok by (cbn; lia). cbn [bind]. set (a := part_way t p0 p1). set (m := part_way t p1 p2). set (c := part_way t p2 p3). set (d := part_way t a m). set (e := part_way t m c). set (f := part_way t d e). intros E. repeat (match type of E with bind ?x _ = _ => destruct x; cbn [bind] in E; [|discriminate] end).
    assert (El : cps l = [p0; a; d; f]) by (symmetry; exact (f_equal (fun x : res (bezier R * bezier R * list pt) => match x with Ok (y, _, _) => cps y | Err _ => [] end) E)). assert (Er : cps r = [f; e; c; p3]) by (symmetry; exact (f_equal (fun x : res (bezier R * bezier R * list pt) => match x with Ok (_, y, _) => cps y | Err _ => [] end) E)). rewrite El, Er. cbn [walk].
    destruct (leg_mix t p0 p1 T) as [A1 _]. destruct (leg_mix t p2 p3 T) as [_ B2]. destruct (leg_mix t a m T) as [C1 _]. destruct (leg_mix t m c T) as [_ D2]. destruct (leg_mix t d e T) as [F1 F2].
    pose proof (level_shrinks t p0 p1 p2 T) as G1. pose proof (level_shrinks t p1 p2 p3 T) as G2. pose proof (level_shrinks t a m c T) as G3. fold a m in G1. fold m c in G2. fold d e in G3. fold a in A1. fold c in B2. fold d in C1. fold e in D2. fold f in F1, F2. rewrite A1, B2, C1, D2, F1, F2.
    assert (t * vdist a m <= t * ((1 - t) * vdist p0 p1 + t * vdist p1 p2)) by (apply Rmult_le_compat_l; lra).
    assert ((1 - t) * vdist a m <= (1 - t) * ((1 - t) * vdist p0 p1 + t * vdist p1 p2)) by (apply Rmult_le_compat_l; lra).
    assert (t * vdist m c <= t * ((1 - t) * vdist p1 p2 + t * vdist p2 p3)) by (apply Rmult_le_compat_l; lra).
    assert ((1 - t) * vdist m c <= (1 - t) * ((1 - t) * vdist p1 p2 + t * vdist p2 p3)) by (apply Rmult_le_compat_l; lra). lra.
Qed.

(** ** The closest point *)
Lemma table_near (c : list (list pt)) s m t M : (2 <= s)%Z -> Forall drawable c -> (m < length c)%nat -> 0 <= t <= 1 -> speed (nth m c []) <= M ->
  exists x, In x (table s c) /\ forall p, vdist x p <= vdist (curve (nth m c []) t) p + M / IZR (s - 1).
Proof.
  intros S F Hm T HM. set (N := IZR (s - 1)). assert (NP : 0 < N) by (apply IZR_lt; lia).
  assert (D : drawable (nth m c [])) by (rewrite Forall_forall in F; apply F, nth_In, Hm).
  (* the sample at the upper end of the step that holds t, never the first one *)
  assert (J : exists j, (1 <= j < Z.to_nat s)%nat /\ Rabs (INR j / N - t) <= 1 / N /\ 0 <= INR j / N <= 1).
  { destruct (archimed (t * N)) as [A1 A2]. set (z := Rdefinitions.up (t * N)) in *. assert (TN : 0 <= t * N) by (apply Rmult_le_pos; lra). assert (TN1 : t * N <= N) by (assert (t * N <= 1 * N) by (apply Rmult_le_compat_r; lra); lra).
    assert (Z1 : (1 <= z)%Z) by (apply le_IZR; assert (0 < IZR z) by lra; apply lt_IZR in H; apply IZR_le; lia).
    set (y := Z.min z (s - 1)). assert (Y : (1 <= y <= s - 1)%Z) by (unfold y; lia). exists (Z.to_nat y). split; [lia|]. rewrite INR_IZR_INZ, Z2Nat.id by lia.
    assert (YR : 1 <= IZR y <= N) by (split; apply IZR_le; lia).
    assert (B : - 1 <= IZR y - t * N <= 1) by (unfold y; destruct (Z.min_spec z (s - 1)) as [[_ ->]|[Hz ->]]; [lra|]; apply IZR_le in Hz; fold N in Hz |- *; lra).
    assert (IN : 0 < / N) by (now apply Rinv_0_lt_compat).
    split.
    - replace (IZR y / N - t) with ((IZR y - t * N) * / N) by (field; lra). rewrite Rabs_mult, (Rabs_pos_eq (/ N)) by lra. unfold Rdiv. apply Rmult_le_compat_r; [lra|]. apply Rabs_le. exact B.
    - split; [apply Rmult_le_pos; lra|]. apply Rmult_le_reg_r with N; [exact NP|]. unfold Rdiv. rewrite Rmult_assoc, Rinv_l by lra. lra. }
  destruct J as (j & Hj & B & U). exists (curve (nth m c []) (INR j / N)). split.
  - unfold N. rewrite <- (table_nth1 s c m j) by (auto; lia). apply nth_In. rewrite table_length by (try lia; intros ->; simpl in Hm; lia). nia.
  - intros p. pose proof (dist_lip (nth m c []) (INR j / N) t D U T) as L. pose proof (dist_tri (curve (nth m c []) (INR j / N)) (curve (nth m c []) t) p) as Tr.
    assert (SP : 0 <= speed (nth m c [])).
    { unfold speed. apply Rmult_le_pos; [apply pos_INR|]. clear. generalize (nth m c []). intros q. induction q as [|a [|e q] IH]; [simpl; lra | simpl; lra|]. cbn [taxi_length]. pose proof (Rabs_pos (fst e - fst a)). pose proof (Rabs_pos (snd e - snd a)). cbn [taxi_length] in IH. lra. }
    assert (speed (nth m c []) * Rabs (INR j / N - t) <= M * (1 / N)) by (apply Rmult_le_compat; auto using Rabs_pos). unfold Rdiv in *. lra.
Qed.
