(** Proofs for C141: Descartes' rule of signs, and curves of every order. *)
From Coq Require Import List ZArith Bool Reals Lra Lia Psatz Permutation.
From Verif Require Import Py Inst SpecGeom SpecMatrix SpecBezier SpecFit SpecCurve SpecConvex SpecCross MBezUtil MBezier ProofMatrix ProofFit ProofBezier ProofBezier2 ProofConvex.
Import ListNotations.
Local Open Scope R_scope.

(** ** Changes of sign *)
Fixpoint wl (w : nat -> R) (l : list R) : list R := match l with [] => [] | x :: r => w 0%nat * x :: wl (fun i => w (S i)) r end.
Lemma same_changes : forall l s u w, (forall i, 0 < u * w i) -> changes_from (u * s) (wl w l) = changes_from s l.
Proof.
  induction l as [|x l IH]; intros s u w W; [reflexivity|]. cbn [wl changes_from]. pose proof (W 0%nat) as W0.
  assert (N0 : w 0%nat <> 0) by (intros E; rewrite E in W0; lra). assert (U0 : u <> 0) by (intros E; rewrite E in W0; lra).
  destruct (Req_EM_T x 0) as [->|X]; [destruct (Req_EM_T (w 0%nat * 0) 0) as [_|K]; [|exfalso; apply K; ring]; apply IH; intros i; apply (W (S i))|].
  destruct (Req_EM_T (w 0%nat * x) 0) as [K|_]; [exfalso; apply Rmult_integral in K; tauto|].
  rewrite (IH x (w 0%nat)).
  - f_equal. replace (u * s * (w 0%nat * x)) with (u * w 0%nat * (s * x)) by ring. destruct (Rlt_dec (s * x) 0), (Rlt_dec (u * w 0%nat * (s * x)) 0); auto; exfalso; nra.
  - intros i. pose proof (W (S i)) as Wi. assert (0 < (u * w 0%nat) * (u * w (S i))) by (apply Rmult_lt_0_compat; assumption). assert (0 < u * u) by nra.
    replace (u * w 0%nat * (u * w (S i))) with (u * u * (w 0%nat * w (S i))) in H by ring. nra.
Qed.
Lemma one_less : forall l s k, changes_from s l = S k -> exists m, forall w u, u < 0 -> (forall i, (i < m)%nat -> w i < 0) -> (forall i, (m <= i)%nat -> 0 < w i) ->
  changes_from (u * s) (wl w l) = k.
Proof.
  induction l as [|x l IH]; intros s k; [discriminate|]. cbn [changes_from]. destruct (Req_EM_T x 0) as [->|X].
  - intros E. destruct (IH s k E) as (m & H). exists (S m). intros w u U A B. cbn [wl changes_from]. destruct (Req_EM_T (w 0%nat * 0) 0) as [_|K]; [|exfalso; apply K; ring].
    apply H; [exact U | intros i Hi; apply A; lia | intros i Hi; apply B; lia].
  - destruct (Rlt_dec (s * x) 0) as [C|C].
    + intros E. exists 0%nat. intros w u U _ B. cbn [wl changes_from]. pose proof (B 0%nat ltac:(lia)) as W0. destruct (Req_EM_T (w 0%nat * x) 0) as [K|_]; [exfalso; nra|].
      assert (uw : u * w 0%nat < 0) by nra. destruct (Rlt_dec (u * s * (w 0%nat * x)) 0) as [K|_]; [exfalso; replace (u * s * (w 0%nat * x)) with (u * w 0%nat * (s * x)) in K by ring; nra|].
      rewrite same_changes by (intros i; apply Rmult_lt_0_compat; apply B; lia). injection E as E. exact E.
    + intros E. destruct (IH x k E) as (m & H). exists (S m). intros w u U A B. cbn [wl changes_from]. pose proof (A 0%nat ltac:(lia)) as W0. destruct (Req_EM_T (w 0%nat * x) 0) as [K|_]; [exfalso; nra|].
      assert (uw : 0 < u * w 0%nat) by nra. destruct (Rlt_dec (u * s * (w 0%nat * x)) 0) as [K|_]; [exfalso; replace (u * s * (w 0%nat * x)) with (u * w 0%nat * (s * x)) in K by ring; nra|].
      cbn [Nat.add]. apply H; [exact W0 | intros i Hi; apply A; lia | intros i Hi; apply B; lia].
Qed.

(** ** Polynomials *)
Fixpoint pv (l : list R) (x : R) : R := match l with [] => 0 | c :: r => c + x * pv r x end.
Fixpoint dpv (l : list R) (x : R) : R := match l with [] => 0 | c :: r => pv r x + x * dpv r x end.
Lemma pv_deriv : forall l x, derivable_pt_lim (pv l) x (dpv l x).
Proof.
  induction l as [|c l IH]; intros x; cbn [dpv]; [apply derivable_pt_lim_const|].
  replace (pv l x + x * dpv l x) with (0 + (1 * pv l x + x * dpv l x)) by ring. apply (derivable_pt_lim_plus (fun _ => c) (fun y => y * pv l y)); [apply derivable_pt_lim_const|].
  apply (derivable_pt_lim_mult (fun y => y) (pv l)); [apply derivable_pt_lim_id | apply IH].
Qed.
Lemma wl_ext : forall m f g, (forall i, f i = g i) -> wl f m = wl g m.
Proof. induction m as [|y m IH]; intros f g H; cbn [wl]; [reflexivity|]. rewrite H. f_equal. apply IH. intros. apply H. Qed.
Lemma pv_weighted a x : forall l j, pv (wl (fun i => INR (i + j) - a) l) x = x * dpv l x + (INR j - a) * pv l x.
Proof.
  induction l as [|c l IH]; intros j; cbn [wl pv dpv]; [ring|].
  rewrite (wl_ext l _ (fun i => INR (i + S j) - a)) by (intros i; now replace (S i + j)%nat with (i + S j)%nat by lia).
  rewrite IH, S_INR. cbn [Nat.add]. ring.
Qed.
Lemma no_change_sign x : 0 < x -> forall l s, s <> 0 -> changes_from s l = 0%nat -> 0 <= s * pv l x.
Proof.
  intros X. induction l as [|c l IH]; intros s S0; cbn [changes_from pv]; [intros _; lra|]. destruct (Req_EM_T c 0) as [->|C].
  - intros E. specialize (IH s S0 E). nra.
  - destruct (Rlt_dec (s * c) 0) as [K|K]; [discriminate|]. cbn [Nat.add]. intros E. specialize (IH c C E). assert (P : 0 < s * c) by (apply Rnot_lt_le in K; destruct K as [K|K]; [exact K | exfalso; symmetry in K; apply Rmult_integral in K; tauto]).
    assert (Q : 0 <= s * pv l x). { assert (0 <= (s * c) * (c * pv l x)) by (apply Rmult_le_pos; lra). replace (s * c * (c * pv l x)) with (c * c * (s * pv l x)) in H by ring. assert (0 < c * c) by nra. nra. }
    nra.
Qed.
Lemma no_change_root x : 0 < x -> forall l, changes l = 0%nat -> (exists c, In c l /\ c <> 0) -> pv l x <> 0.
Proof.
  intros X. unfold changes. induction l as [|c l IH]; intros E (d & I & D); [destruct I|]. cbn [changes_from] in E. cbn [pv]. destruct (Req_EM_T c 0) as [->|C].
  - destruct I as [<-|I]; [congruence|]. specialize (IH E (ex_intro _ d (conj I D))). intros K. apply IH. rewrite Rplus_0_l in K. apply Rmult_integral in K. destruct K; [lra | assumption].
  - rewrite Rmult_0_l in E. destruct (Rlt_dec 0 0) as [K|_]; [lra|]. pose proof (no_change_sign x X l c C E) as P. intros K. assert (c * (c + x * pv l x) = 0) by (rewrite K; ring). assert (0 < c * c) by nra. nra.
Qed.
Fixpoint chain (a : R) (l : list R) : Prop := match l with [] => True | x :: r => a < x /\ chain x r end.
Lemma chain_le a b l : a <= b -> chain b l -> chain a l.
Proof. destruct l; cbn [chain]; [tauto|]. intros L [H K]. split; [lra | exact K]. Qed.
Lemma between p q a b : 0 < a -> a < b -> pv p a = 0 -> pv p b = 0 -> forall al, (forall x, 0 < x -> pv q x = x * dpv p x - al * pv p x) -> exists c, a < c < b /\ pv q c = 0.
Proof.
  intros A AB Pa Pb al Q.
  destruct (MVT_cor2 (fun x => exp (- al * ln x) * pv p x) (fun x => exp (- al * ln x) * (- al * / x) * pv p x + exp (- al * ln x) * dpv p x) a b AB) as (c & E & C).
  - intros x Hx. apply (derivable_pt_lim_mult (fun x => exp (- al * ln x)) (pv p)); [|apply pv_deriv].
    apply (derivable_pt_lim_comp (fun x => - al * ln x) exp); [|apply derivable_pt_lim_exp]. apply (derivable_pt_lim_scal ln (- al)). apply derivable_pt_lim_ln. lra.
  - exists c. split; [exact C|]. rewrite Pa, Pb in E. rewrite Q by lra. pose proof (exp_pos (- al * ln c)) as X. set (e := exp (- al * ln c)) in *.
    assert (Z : (e * (- al * / c) * pv p c + e * dpv p c) * (b - a) = 0) by lra. apply Rmult_integral in Z. destruct Z as [Z|Z]; [|lra].
    apply (Rmult_eq_reg_l (e / c)); [|apply Rgt_not_eq; apply Rdiv_lt_0_compat; lra]. rewrite Rmult_0_r, <- Z. field. lra.
Qed.
Lemma rolled p q al : (forall x, 0 < x -> pv q x = x * dpv p x - al * pv p x) -> forall l a, 0 < a -> chain a l -> pv p a = 0 -> (forall x, In x l -> pv p x = 0) ->
  exists l', length l' = length l /\ chain a l' /\ forall x, In x l' -> pv q x = 0.
Proof.
  intros Q. induction l as [|b l IH]; intros a A C Pa P; [exists []; repeat split; intros x []|]. destruct C as [AB C].
  destruct (between p q a b A AB Pa (P b (or_introl eq_refl)) al Q) as (c & [C1 C2] & Z). destruct (IH b ltac:(lra) C (P b (or_introl eq_refl)) (fun x I => P x (or_intror I))) as (l' & L & K & R).
  exists (c :: l'). split; [simpl; congruence|]. split; [split; [exact C1 | apply (chain_le c b); [lra | exact K]]|]. intros x [<-|I]; [exact Z | now apply R].
Qed.
Lemma wl_nonzero : forall l w, (forall i, w i <> 0) -> (exists c, In c l /\ c <> 0) -> exists c, In c (wl w l) /\ c <> 0.
Proof.
  induction l as [|x l IH]; intros w W (c & I & C); [destruct I|]. cbn [wl]. destruct I as [<-|I].
  - exists (w 0%nat * x). split; [now left|]. intros K. apply Rmult_integral in K. destruct K; [now apply (W 0%nat) | tauto].
  - destruct (IH (fun i => w (S i)) (fun i => W (S i)) (ex_intro _ c (conj I C))) as (d & J & D). exists d. split; [now right | exact D].
Qed.
Theorem descartes : forall k l rs, changes l = k -> (exists c, In c l /\ c <> 0) -> chain 0 rs -> (forall x, In x rs -> pv l x = 0) -> (length rs <= k)%nat.
Proof.
  induction k as [|k IH]; intros l rs E N C P; (destruct rs as [|a rs]; [simpl; lia|]); destruct C as [A C].
  - exfalso. apply (no_change_root a A l E N). apply P. now left.
  - unfold changes in E. destruct (one_less l 0 k E) as (m & H). set (w := fun i => INR (i + 0) - (INR m - / 2)).
    assert (Wm : forall i, (i < m)%nat -> w i < 0). { intros i Hi. unfold w. rewrite Nat.add_0_r. assert (INR (S i) <= INR m) by (apply le_INR; lia). rewrite S_INR in H0. lra. }
    assert (Wp : forall i, (m <= i)%nat -> 0 < w i). { intros i Hi. unfold w. rewrite Nat.add_0_r. assert (INR m <= INR i) by (apply le_INR; lia). lra. }
    specialize (H w (-1) ltac:(lra) Wm Wp). rewrite Rmult_0_r in H.
    destruct (rolled l (wl w l) (INR m - / 2) ltac:(intros x _; unfold w; rewrite pv_weighted; cbn [INR]; ring) rs a A C (P a (or_introl eq_refl)) (fun x I => P x (or_intror I))) as (l' & L' & C' & R').
    assert (B : (length l' <= k)%nat). { apply (IH (wl w l)); [exact H | apply wl_nonzero; [|exact N] | apply (chain_le 0 a); [lra | exact C'] | exact R'].
      intros i. destruct (le_lt_dec m i) as [K|K]; [specialize (Wp i K) | specialize (Wm i K)]; lra. }
    simpl. lia.
Qed.

(** ** Curves *)
Lemma pv_map x (h : nat -> R) : forall n j, pv (map h (seq j n)) x = rsum n (fun i => h (i + j)%nat * x ^ i).
Proof.
  induction n as [|n IH]; intros j; [reflexivity|]. cbn [seq map pv]. rewrite IH, rsum_shift1. cbn [Nat.add pow]. rewrite Rmult_1_r. f_equal.
  rewrite <- rsum_scal. apply rsum_ext. intros k _. cbn [pow]. replace (k + S j)%nat with (S (k + j)) by lia. ring.
Qed.
Lemma wl_map w (g : nat -> R) : forall n j, wl (fun i => w (i + j)%nat) (map g (seq j n)) = map (fun i => w i * g i) (seq j n).
Proof.
  induction n as [|n IH]; intros j; [reflexivity|]. cbn [seq map wl Nat.add]. f_equal. rewrite <- IH. apply wl_ext. intros i. f_equal. lia.
Qed.
Lemma bern_pv N g t : 0 < t < 1 -> bezier_at N g t = (1 - t) ^ N * pv (map (fun i => Binomial.C N i * g i) (seq 0 (S N))) (t / (1 - t)).
Proof.
  intros T. rewrite pv_map, <- rsum_scal. unfold bezier_at. apply rsum_ext. intros k Hk. unfold bernstein. rewrite Nat.add_0_r.
  replace ((1 - t) ^ N) with ((1 - t) ^ (N - k) * (1 - t) ^ k) by (rewrite <- pow_add; f_equal; lia).
  replace (t ^ k) with ((t / (1 - t)) ^ k * (1 - t) ^ k) by (rewrite <- Rpow_mult_distr; f_equal; field; lra). ring.
Qed.
Lemma C_pos N i : (i <= N)%nat -> 0 < Binomial.C N i.
Proof. intros H. unfold Binomial.C. apply Rdiv_lt_0_compat; [apply INR_fact_lt_0 | apply Rmult_lt_0_compat; apply INR_fact_lt_0]. Qed.
Lemma bern_changes N g : changes (map (fun i => Binomial.C N i * g i) (seq 0 (S N))) = changes (map g (seq 0 (S N))).
Proof.
  set (w := fun i => if le_lt_dec i N then Binomial.C N i else 1). rewrite (map_ext_in _ (fun i => w i * g i)).
  - rewrite <- wl_map. unfold changes. replace 0 with (1 * 0) at 1 by ring. apply same_changes. intros i. rewrite Rmult_1_l. unfold w. destruct (le_lt_dec _ N); [now apply C_pos | lra].
  - intros i I. apply in_seq in I. unfold w. destruct (le_lt_dec i N); [reflexivity | lia].
Qed.
Lemma chain_unit : forall ts a, 0 <= a < 1 -> chain a ts -> (forall t, In t ts -> t < 1) -> chain (a / (1 - a)) (map (fun t => t / (1 - t)) ts).
Proof.
  induction ts as [|t ts IH]; intros a A C H; cbn [map chain]; [exact I|]. destruct C as [AT C]. pose proof (H t (or_introl eq_refl)) as T1. split; [|apply IH; [lra | exact C | intros u U; apply H; now right]].
  apply Rminus_gt_0_lt. replace (t / (1 - t) - a / (1 - a)) with ((t - a) / ((1 - t) * (1 - a))) by (field; lra). apply Rdiv_lt_0_compat; [lra|]. apply Rmult_lt_0_compat; lra.
Qed.
Lemma chain_low : forall ts a, chain a ts -> forall t, In t ts -> a < t.
Proof. induction ts as [|u ts IH]; intros a C t; [intros []|]. destruct C as [A C]. intros [<-|I]; [exact A|]. specialize (IH u C t I). lra. Qed.
Theorem bern_zeros N g ts : (exists i, (i <= N)%nat /\ g i <> 0) -> chain 0 ts -> (forall t, In t ts -> t < 1 /\ bezier_at N g t = 0) ->
  (length ts <= changes (map g (seq 0 (S N))))%nat.
Proof.
  intros (i & Hi & G) C H. rewrite <- bern_changes, <- (map_length (fun t => t / (1 - t)) ts). apply (descartes _ (map (fun i => Binomial.C N i * g i) (seq 0 (S N)))); [reflexivity| | |].
  - exists (Binomial.C N i * g i). split; [apply in_map_iff; exists i; split; [reflexivity | apply in_seq; lia]|]. intros K. apply Rmult_integral in K. pose proof (C_pos N i Hi). destruct K; [lra | tauto].
  - replace 0 with (0 / (1 - 0)) by field. apply chain_unit; [lra | exact C | intros t I; apply (H t I)].
  - intros x I. apply in_map_iff in I as (t & <- & I). destruct (H t I) as [T1 E]. pose proof (chain_low ts 0 C t I) as T0. rewrite bern_pv in E by lra. apply Rmult_integral in E. destruct E as [E|E]; [|exact E]. exfalso. revert E. apply pow_nonzero. lra.
Qed.
(** Distinct numbers can be put in order. *)
Lemma insert_chain x : forall l a, chain a l -> a < x -> ~ In x l -> exists l', Permutation (x :: l) l' /\ chain a l'.
Proof.
  induction l as [|y l IH]; intros a C A N; [exists [x]; split; [reflexivity | split; [exact A | exact I]]|]. destruct C as [AY C]. destruct (Rlt_dec x y) as [L|L].
  - exists (x :: y :: l). split; [reflexivity|]. repeat split; auto.
  - assert (y < x). { apply Rnot_lt_le in L. destruct L as [L|L]; [exact L | exfalso; apply N; now left]. }
    destruct (IH y C H (fun I => N (or_intror I))) as (l' & P & K). exists (y :: l'). split; [|split; [exact AY | exact K]]. rewrite perm_swap. now apply perm_skip.
Qed.
Lemma sort_chain a : forall l, NoDup l -> (forall x, In x l -> a < x) -> exists l', Permutation l l' /\ chain a l'.
Proof.
  induction l as [|x l IH]; intros D H; [exists []; split; [reflexivity | exact I]|]. inversion_clear D as [|? ? N D']. destruct (IH D' (fun y I => H y (or_intror I))) as (l' & P & C).
  destruct (insert_chain x l' a C (H x (or_introl eq_refl)) (fun I => N (Permutation_in _ (Permutation_sym P) I))) as (l2 & P2 & C2). exists l2. split; [|exact C2]. rewrite P. exact P2.
Qed.
Lemma side_curve a b c (p : list pt) t : side a b c (curve p t) = bezier_at (length p - 1) (fun i => side a b c (nth i p (0, 0))) t.
Proof.
  unfold side. rewrite bezier_at_bez. change (a * fst (curve p t) + b * snd (curve p t)) with (f_of a b (curve p t)). rewrite curve_f.
  rewrite (bez_ext _ (fun i => a * fst (nth i p (0, 0)) + b * snd (nth i p (0, 0)) - c) (fun i => 1 * f_of a b (nth i p (0, 0)) + -1 * c)) by (intros i _; unfold f_of; ring).
  rewrite bez_lin, bez_const. ring.
Qed.
Lemma map_nth_seq {A B} (f : A -> B) (p : list A) d : map (fun i => f (nth i p d)) (seq 0 (length p)) = map f p.
Proof. induction p as [|x p IH]; [reflexivity|]. cbn [length seq map nth]. f_equal. rewrite <- seq_shift, map_map. exact IH. Qed.
Theorem curve_crossings a b c (p : list pt) ts : (exists q, In q p /\ side a b c q <> 0) -> NoDup ts -> (forall t, In t ts -> 0 < t < 1 /\ side a b c (curve p t) = 0) ->
  (length ts <= crossings a b c p)%nat.
Proof.
  intros (q & Iq & Q) D H. destruct (sort_chain 0 ts D (fun t I => proj1 (proj1 (H t I)))) as (l & P & C). rewrite (Permutation_length P). unfold crossings. rewrite <- (map_nth_seq (side a b c) p (0, 0)).
  assert (L : length p = S (length p - 1)) by (destruct p; [destruct Iq | simpl; lia]). rewrite L. apply bern_zeros; [|exact C|].
  - apply (In_nth p q (0, 0)) in Iq as (i & Hi & <-). exists i. split; [lia | exact Q].
  - intros t I. apply (Permutation_in _ (Permutation_sym P)) in I. destruct (H t I) as [T E]. split; [lra|]. rewrite <- side_curve. exact E.
Qed.
Theorem get_crossings a b c (z : bezier R) ts : (exists q, In q (cps z) /\ side a b c q <> 0) -> NoDup ts ->
  (forall t, In t ts -> 0 < t < 1 /\ exists q, get z t = Ok q /\ side a b c q = 0) -> (length ts <= crossings a b c (cps z))%nat.
Proof.
  intros N D H. apply curve_crossings; auto. intros t I. destruct (H t I) as (T & q & E & S0). split; [exact T|]. destruct N as (q' & I' & _). rewrite get_ok in E by (destruct (cps z); [destruct I' | simpl; lia]).
  assert (q = curve (cps z) t) by congruence. now subst q.
Qed.
