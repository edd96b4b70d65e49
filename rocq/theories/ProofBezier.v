(** Proofs about evaluation, hull, split and derivatives of Bezier curves. *)
From Coq Require Import List ZArith Bool Reals Lra Lia Binomial.
From Verif Require Import Py Inst SpecGeom SpecMatrix SpecFit SpecBezier MTransform MBounds MBezUtil MPathUtil MBezier ProofMatrix ProofFit.
Import ListNotations.
Local Open Scope R_scope.

(** ** The Bernstein form by recursion *)
Definition shift (f : nat -> R) (i : nat) : R := f (S i).
Fixpoint bez (N : nat) (f : nat -> R) (t : R) : R :=
  match N with O => f 0%nat | S n => (1 - t) * bez n f t + t * bez n (shift f) t end.
Lemma bez_ext N : forall f g t, (forall i, (i <= N)%nat -> f i = g i) -> bez N f t = bez N g t.
Proof.
  induction N as [|N IH]; intros f g t E; simpl; [apply E; lia|].
  rewrite (IH f g), (IH (shift f) (shift g)); auto; unfold shift; intros; apply E; lia.
Qed.
Lemma rsum_shift1 n f : rsum (S n) f = f 0%nat + rsum n (fun k => f (S k)).
Proof.
  induction n; [simpl; ring|]. change (rsum (S (S n)) f) with (rsum (S n) f + f (S n)). rewrite IHn. simpl. ring.
Qed.
Lemma bernstein_rec N c t : (c <= S N)%nat ->
  bernstein (S N) c t = (if Nat.leb c N then (1 - t) * bernstein N c t else 0)
                      + match c with O => 0 | S k => t * bernstein N k t end.
Proof.
  intros Hc. unfold bernstein. destruct c as [|k].
  - simpl Nat.leb. cbv iota. rewrite !C_n0, !Nat.sub_0_r. simpl. ring.
  - destruct (Nat.leb_spec (S k) N) as [L|L].
    + rewrite <- (pascal N k) by lia. replace (S N - S k)%nat with (S (N - S k)) by lia.
      replace (N - k)%nat with (S (N - S k)) by lia. simpl. ring.
    + assert (k = N) by lia. subst. rewrite !C_nn, !Nat.sub_diag. simpl. ring.
Qed.
Theorem bezier_at_bez N : forall f t, bezier_at N f t = bez N f t.
Proof.
  induction N as [|N IH]; intros f t.
  - unfold bezier_at, bernstein. simpl. rewrite C_n0. ring.
  - simpl bez. rewrite <- !IH. unfold bezier_at.
    rewrite (rsum_ext (S (S N)) _ (fun c => (if Nat.leb c N then (1 - t) * bernstein N c t * f c else 0)
      + match c with O => 0 | S k => t * bernstein N k t * f (S k) end)).
    2: { intros k Hk. rewrite bernstein_rec by lia. destruct (Nat.leb k N), k; ring. }
    rewrite rsum_plus. f_equal.
    + change (rsum (S (S N)) ?g) with (rsum (S N) g + g (S N)). cbv beta.
      destruct (Nat.leb_spec (S N) N); [lia|]. rewrite Rplus_0_r, <- rsum_scal. apply rsum_ext. intros k Hk.
      destruct (Nat.leb_spec k N); [ring|lia].
    + rewrite rsum_shift1, Rplus_0_l, <- rsum_scal. apply rsum_ext. intros k Hk. unfold shift. ring.
Qed.
Definition cv (p : list pt) (t : R) : pt := (bez (length p - 1) (cx p) t, bez (length p - 1) (cy p) t).
Lemma curve_cv p t : curve p t = cv p t.
Proof. unfold curve, cv. now rewrite !bezier_at_bez. Qed.
(** Explicit low degrees. *)
Ltac cv_simpl := cbn [length Nat.sub bez cx cy shift nth fst snd].
Lemma curve2 p0 p1 t : curve [p0; p1] t = ((1 - t) * fst p0 + t * fst p1, (1 - t) * snd p0 + t * snd p1).
Proof. rewrite curve_cv. unfold cv, cx, cy. simpl. unfold shift; simpl. reflexivity. Qed.
Lemma curve3 p0 p1 p2 t : curve [p0; p1; p2] t =
  ((1 - t) ^ 2 * fst p0 + 2 * (1 - t) * t * fst p1 + t ^ 2 * fst p2, (1 - t) ^ 2 * snd p0 + 2 * (1 - t) * t * snd p1 + t ^ 2 * snd p2).
Proof. rewrite curve_cv. unfold cv, cx, cy. simpl. unfold shift; simpl. f_equal; ring. Qed.
Lemma curve4 p0 p1 p2 p3 t : curve [p0; p1; p2; p3] t =
  ((1 - t) ^ 3 * fst p0 + 3 * (1 - t) ^ 2 * t * fst p1 + 3 * (1 - t) * t ^ 2 * fst p2 + t ^ 3 * fst p3,
   (1 - t) ^ 3 * snd p0 + 3 * (1 - t) ^ 2 * t * snd p1 + 3 * (1 - t) * t ^ 2 * snd p2 + t ^ 3 * snd p3).
Proof. rewrite curve_cv. unfold cv, cx, cy. simpl. unfold shift; simpl. f_equal; ring. Qed.
(** Bernstein sums at the ends, affine images, convexity. *)
Lemma bez_0 N : forall f, bez N f 0 = f 0%nat.
Proof. induction N; intros f; simpl; auto. rewrite IHN. ring. Qed.
Lemma bez_1 N : forall f, bez N f 1 = f N.
Proof. induction N; intros f; simpl; auto. rewrite IHN, IHN. unfold shift. ring. Qed.
Lemma bez_lin N : forall a b f g t, bez N (fun i => a * f i + b * g i) t = a * bez N f t + b * bez N g t.
Proof.
  induction N as [|N IH]; intros a b f g t; simpl; auto. rewrite IH.
  replace (bez N (shift (fun i => a * f i + b * g i)) t) with (bez N (fun i => a * shift f i + b * shift g i) t) by reflexivity.
  rewrite IH. ring.
Qed.
Lemma bez_const N : forall c t, bez N (fun _ => c) t = c.
Proof.
  induction N as [|N IH]; intros c t; simpl; auto. change (shift (fun _ => c)) with (fun _ : nat => c). rewrite IH. ring.
Qed.
Lemma bez_bound N : forall f t lo hi, 0 <= t <= 1 -> (forall i, (i <= N)%nat -> lo <= f i <= hi) -> lo <= bez N f t <= hi.
Proof.
  induction N as [|N IH]; intros f t lo hi Ht B; simpl; [apply B; lia|].
  assert (B1 : lo <= bez N f t <= hi) by (apply IH; auto). 
  assert (B2 : lo <= bez N (shift f) t <= hi) by (apply IH; auto; intros; apply B; lia).
  split; nra.
Qed.

(** ** Differences and derivatives *)
Lemma bez_diff N : forall f t, bez N (fun i => f (S i) - f i) t = bez N (shift f) t - bez N f t.
Proof.
  intros f t. rewrite (bez_ext N _ (fun i => 1 * shift f i + (-1) * f i)).
  - rewrite bez_lin. ring.
  - intros. unfold shift. ring.
Qed.
Lemma bez_deriv N : forall f t, derivable_pt_lim (bez N f) t (match N with O => 0 | S n => INR N * bez n (fun i => f (S i) - f i) t end).
Proof.
  induction N as [|N IH]; intros f t.
  - apply (derivable_pt_lim_ext (fun _ => f 0%nat)); [reflexivity | apply derivable_pt_lim_const].
  - set (D n g t := match n with O => 0 | S m => INR n * bez m (fun i : nat => g (S i) - g i) t end) in *.
    assert (E : INR (S N) * bez N (fun i => f (S i) - f i) t =
      (- 1) * bez N f t + (1 - t) * D N f t + (1 * bez N (shift f) t + t * D N (shift f) t)).
    { rewrite S_INR. pose proof (bez_diff N f t) as A. unfold D. destruct N as [|M]; [simpl in *; unfold shift in *; lra|].
      change (fun i : nat => shift f (S i) - shift f i) with (shift (fun i => f (S i) - f i)).
      assert (B : bez (S M) (fun i => f (S i) - f i) t = (1 - t) * bez M (fun i => f (S i) - f i) t + t * bez M (shift (fun i => f (S i) - f i)) t) by reflexivity.
      rewrite Rmult_plus_distr_r. rewrite A at 2. rewrite B. ring. }
    rewrite E. simpl bez. 
    apply (derivable_pt_lim_plus (fun t => (1 - t) * bez N f t) (fun t => t * bez N (shift f) t)).
    + apply (derivable_pt_lim_mult (fun t => 1 - t) (bez N f)); [|apply IH].
      apply (derivable_pt_lim_ext ((fun _ => 1) - id)%F); [reflexivity|].
      replace (-1) with (0 - 1) by ring. apply derivable_pt_lim_minus; [apply derivable_pt_lim_const | apply derivable_pt_lim_id].
    + apply (derivable_pt_lim_mult id (bez N (shift f))); [apply derivable_pt_lim_id | apply IH].
Qed.

(** ** de Casteljau levels *)
Section Levels.
  Context {A : Type} (g : (A * A)%type -> (A * A)%type -> (A * A)%type).
  Lemma dcLevel_length (p : list (A * A)) : length (dcLevel g p) = (length p - 1)%nat.
  Proof. induction p as [|a [|b r] IH]; simpl in *; auto. rewrite IH. simpl. lia. Qed.
  Lemma dcLevel_nth d (p : list (A * A)) : forall i, (S i < length p)%nat -> nth i (dcLevel g p) d = g (nth i p d) (nth (S i) p d).
  Proof.
    induction p as [|a [|b r] IH]; intros i Hi; [simpl in Hi; lia | simpl in Hi; lia |].
    destruct i as [|i]; [reflexivity|]. change (nth (S i) (dcLevel g (a :: b :: r)) d) with (nth i (dcLevel g (b :: r)) d).
    rewrite IH by (simpl in *; lia). reflexivity.
  Qed.
End Levels.
Definition is_step (t : R) (g : pt -> pt -> pt) : Prop :=
  forall a b, fst (g a b) = (1 - t) * fst a + t * fst b /\ snd (g a b) = (1 - t) * snd a + t * snd b.
Lemma step_dcStep t : is_step t (dcStep t).
Proof. intros a b. unfold dcStep; numRg; cbn [fst snd]. split; ring. Qed.
Lemma step_lerp t : is_step t (lerp t).
Proof. intros [ax ay] [bx by']. unfold lerp; numRg; cbn [fst snd]. split; ring. Qed.
Lemma cv_step t g p : is_step t g -> (2 <= length p)%nat -> cv (dcLevel g p) t = cv p t.
Proof.
  intros G L. unfold cv. rewrite dcLevel_length. destruct (length p) as [|[|n]] eqn:E; try lia.
  replace (S (S n) - 1)%nat with (S n) by lia. replace (S n - 1)%nat with n by lia. simpl bez. f_equal.
  - rewrite (bez_ext n _ (fun i => (1 - t) * cx p i + t * shift (cx p) i)); [apply bez_lin|].
    intros i Hi. unfold cx. rewrite dcLevel_nth by lia. apply G.
  - rewrite (bez_ext n _ (fun i => (1 - t) * cy p i + t * shift (cy p) i)); [apply bez_lin|].
    intros i Hi. unfold cy. rewrite dcLevel_nth by lia. apply G.
Qed.
Lemma cv_one p t : length p = 1%nat -> cv p t = nth 0 p (0, 0).
Proof. intros L. unfold cv. rewrite L. simpl. unfold cx, cy. now destruct (nth 0 p (0, 0)). Qed.
Lemma dcLoop_ok t : forall fuel p, (0 < length p <= fuel)%nat -> dcLoop fuel t p = Ok (cv p t).
Proof.
  induction fuel as [|f IH]; intros p L; [lia|]. simpl. destruct (Nat.ltb_spec 1 (length p)).
  - rewrite IH by (rewrite dcLevel_length; lia). f_equal. apply cv_step; [apply step_dcStep | lia].
  - rewrite (idx_nth p 0 (0, 0)) by lia. f_equal. symmetry. apply cv_one. lia.
Qed.
Lemma cv_0 p : cv p 0 = nth 0 p (0, 0).
Proof. unfold cv. rewrite !bez_0. unfold cx, cy. now destruct (nth 0 p (0, 0)). Qed.
Lemma cv_1 p : cv p 1 = nth (length p - 1) p (0, 0).
Proof. unfold cv. rewrite !bez_1. unfold cx, cy. now destruct (nth _ p (0, 0)). Qed.

(** C37 *)
Theorem get_ok (b : bezier R) t : (1 <= length (cps b))%nat -> get b t = Ok (curve (cps b) t).
Proof.
  intros L. destruct b as [p u v]. rewrite curve_cv. unfold get, order; cbn [cps] in *; numRg.
  destruct (Reqb_spec t 0) as [->|N0]; [rewrite cv_0; apply idx_nth; lia|].
  destruct (Reqb_spec t 1) as [->|N1]; [rewrite cv_1; apply idx_nth; lia|].
  destruct p as [|p0 [|p1 [|p2 [|p3 [|p4 r]]]]]; try (simpl in L; lia).
  - rewrite cv_one by reflexivity. reflexivity.
  - simpl. rewrite <- curve_cv, curve2. apply Ok_pair; ring.
  - simpl. rewrite <- curve_cv, curve3. apply Ok_pair; ring.
  - simpl. rewrite <- curve_cv, curve4. apply Ok_pair; ring.
  - set (p := p0 :: p1 :: p2 :: p3 :: p4 :: r) in *. change (length p - 1)%nat with (S (S (S (S (length r))))).
    cbn [Nat.eqb Nat.ltb Nat.leb]. apply dcLoop_ok. lia.
Qed.
Theorem get_nil (b : bezier R) t : cps b = [] -> get b t = Err IndexError.
Proof. destruct b as [p u v]; cbn [cps]; intros ->. unfold get; cbn [cps]. numRg. destruct (Reqb t 0), (Reqb t 1); reflexivity. Qed.

(** ** C44: hull *)
Fixpoint levels (n : nat) (t : R) (p : list pt) : list (list pt) :=
  match n with O => [] | S k => p :: levels k t (dcLevel (lerp t) p) end.
Lemma hullLoop_levels t : forall fuel p q, (0 < length p <= fuel)%nat ->
  hullLoop fuel t p q = q ++ concat (tl (levels (length p) t p)).
Proof.
  induction fuel as [|f IH]; intros p q L; [lia|]. cbn [hullLoop]. destruct (Nat.ltb_spec 1 (length p)).
  - rewrite IH by (rewrite dcLevel_length; lia). rewrite dcLevel_length.
    destruct (length p) as [|[|n]]; try lia. replace (S (S n) - 1)%nat with (S n) by lia.
    cbn [levels tl concat]. now rewrite app_assoc.
  - replace (length p) with 1%nat by lia. simpl. now rewrite app_nil_r.
Qed.
Lemma hull_levels (b : bezier R) t : (1 <= length (cps b))%nat -> hull b t = concat (levels (length (cps b)) t (cps b)).
Proof.
  intros L. unfold hull. rewrite hullLoop_levels by lia. destruct (length (cps b)); [lia|]. reflexivity.
Qed.
Lemma levels_length t : forall n p, length (levels n t p) = n.
Proof. induction n; intros p; simpl; auto. Qed.
Lemma levels_nth t : forall n p k, length p = n -> (k < n)%nat ->
  length (nth k (levels n t p) []) = (n - k)%nat /\ cv (nth k (levels n t p) []) t = cv p t.
Proof.
  induction n as [|n IH]; intros p k L Hk; [lia|]. destruct k as [|k]; [split; [simpl; lia | reflexivity]|]. cbn [levels nth].
  destruct (IH (dcLevel (lerp t) p) k) as [A B]; [rewrite dcLevel_length; lia | lia |].
  split; [lia|]. rewrite B. apply cv_step; [apply step_lerp | lia].
Qed.
Lemma levels_step t : forall n p k i, length p = n -> (S k < n)%nat -> (S (S k) + i <= n)%nat -> (i < n - S k)%nat ->
  nth i (nth (S k) (levels n t p) []) (0, 0) = along (nth i (nth k (levels n t p) []) (0, 0)) (nth (S i) (nth k (levels n t p) []) (0, 0)) t.
Proof.
  induction n as [|n IH]; intros p k i L Hk Hi Hi'; [lia|]. destruct k as [|k].
  - cbn [levels nth]. destruct n; [lia|]. cbn [levels nth]. rewrite dcLevel_nth by lia.
    unfold along, vadd, vscale, vsub, lerp; numRg. destruct (nth i p (0, 0)), (nth (S i) p (0, 0)). simpl. f_equal; ring.
  - cbn [levels]. change (nth (S (S k)) (p :: ?l)) with (nth (S k) l). change (nth (S k) (p :: ?l)) with (nth k l).
    apply IH; [rewrite dcLevel_length; lia | lia | lia | lia].
Qed.
Lemma concat_length_sum {A} (l : list (list A)) : length (concat l) = fold_right (fun x n => (length x + n)%nat) 0%nat l.
Proof. induction l; simpl; auto. rewrite app_length; lia. Qed.
Lemma levels_total t : forall n p, length p = n -> (2 * length (concat (levels n t p)) = n * (n + 1))%nat.
Proof.
  induction n as [|n IH]; intros p L; auto. cbn [levels concat]. rewrite app_length, Nat.mul_add_distr_l.
  rewrite IH by (rewrite dcLevel_length; lia). lia.
Qed.
Lemma last_concat {A} (l : list (list A)) d : forall x, last l [] = [x] -> last (concat l) d = x.
Proof.
  induction l as [|a l IH]; intros x E; simpl in E; [discriminate|]. destruct l as [|b l].
  - subst a. reflexivity.
  - simpl concat. simpl concat in IH. specialize (IH x E).
    assert (N : b ++ concat l <> []).
    { clear IH. revert b E. induction l as [|c l IHl]; intros b E; [simpl in E; subst; discriminate|].
      intros K. apply app_eq_nil in K as [_ K]. apply (IHl c E K). }
    destruct (exists_last N) as (l' & y & Ey). rewrite Ey in *. rewrite last_last in IH. subst y. rewrite app_assoc. apply last_last.
Qed.
Theorem hull_full (b : bezier R) t : (1 <= length (cps b))%nat ->
  exists lv : list (list pt), hull b t = concat lv /\ length lv = length (cps b) /\ nth 0 lv [] = cps b /\
    (forall k, (k < length (cps b))%nat -> length (nth k lv []) = (length (cps b) - k)%nat) /\
    (forall k i, (S k < length (cps b))%nat -> (i < length (nth (S k) lv []))%nat ->
       nth i (nth (S k) lv []) (0, 0) = along (nth i (nth k lv []) (0, 0)) (nth (S i) (nth k lv []) (0, 0)) t) /\
    (2 * length (hull b t) = length (cps b) * (length (cps b) + 1))%nat /\
    last (hull b t) (0, 0) = curve (cps b) t.
Proof.
  intros L. exists (levels (length (cps b)) t (cps b)). set (n := length (cps b)) in *.
  split; [apply hull_levels; auto|]. split; [apply levels_length|].
  split; [destruct n; [lia|reflexivity]|].
  split; [intros k Hk; apply levels_nth; auto|].
  split.
  { intros k i Hk Hi. rewrite (proj1 (levels_nth t n (cps b) (S k) eq_refl Hk)) in Hi. apply levels_step; auto; lia. }
  split; [rewrite hull_levels by auto; apply levels_total; auto|].
  rewrite hull_levels by auto. fold n. apply last_concat.
  destruct (levels_nth t n (cps b) (n - 1) eq_refl ltac:(lia)) as [A B].
  assert (E : last (levels n t (cps b)) [] = nth (n - 1) (levels n t (cps b)) []).
  { pose proof (levels_length t n (cps b)) as LL. destruct (levels n t (cps b)) as [|x l] using rev_ind; [simpl in LL; lia|].
    rewrite last_last, app_nth2 by (rewrite app_length in LL; simpl in LL; lia).
    rewrite app_length in LL; simpl in LL. replace (n - 1 - length l)%nat with 0%nat by lia. reflexivity. }
  rewrite E. rewrite curve_cv, <- B. destruct (nth (n - 1) _ []) as [|x [|y r]] eqn:X; try (simpl in A; lia).
  rewrite cv_one by reflexivity. reflexivity.
Qed.
Lemma hull_starts (b : bezier R) t : exists r, hull b t = cps b ++ r.
Proof.
  destruct (cps b) as [|x l] eqn:E.
  - exists (hull b t). reflexivity.
  - rewrite hull_levels by (rewrite E; simpl; lia). rewrite E. simpl. eexists; reflexivity.
Qed.
