(** Proofs for C137: hulls, ABC points and raised polygons in double precision. *)
From Coq Require Import List ZArith Bool Reals Lra Lia Psatz.
From Flocq Require Import Core BinarySingleNaN.
From Verif Require Import Py Inst InstFloat SpecGeom SpecBezier SpecDouble MBezUtil MBezier MContour ProofBezier ProofBezier2 ProofDouble ProofDouble2 ProofDouble9 ProofDouble11 ProofDouble17 ProofDouble20.
Import ListNotations.
Local Open Scope R_scope.

(** ** Small numbers *)
Definition nearS (x : b64) (X k : R) : Prop := fin x /\ Rabs (val x - X) <= k * ulp1.
Lemma ulp1_e12 : ulp1 <= / 1000000000000.
Proof. unfold ulp1. apply Rinv_le_contravar; lra. Qed.
Lemma under_top (x : R) : Rabs x <= 1024 -> Rabs (fl x) < ProofDouble.top.
Proof. intros H. eapply Rle_lt_trans; [apply (fl_pow x 10); [lia | lra] | apply below_top; lia]. Qed.
Lemma nearS_le x X k k' : nearS x X k -> k <= k' -> nearS x X k'.
Proof. intros [F E] L. split; [exact F|]. pose proof ulp1_pos. eapply Rle_trans; [exact E|]. apply Rmult_le_compat_r; lra. Qed.
Lemma fl_small (z X B k : R) : Rabs (z - X) <= k * ulp1 -> 0 <= k <= 1000 -> Rabs X <= B -> B <= 8 -> Rabs (fl z - X) <= (k + B + / 100) * ulp1 /\ Rabs z <= 1024.
Proof.
  intros E K L L8. pose proof ulp1_pos as P. pose proof ulp1_e12 as P12. pose proof tiny_small as T. pose proof (fl_err z) as F.
  assert (KU : k * ulp1 <= 1000 * / 1000000000000) by (apply Rmult_le_compat; lra).
  assert (Z : Rabs z <= B + k * ulp1). { replace z with (X + (z - X)) by ring. eapply Rle_trans; [apply Rabs_triang|]. lra. }
  split; [|lra]. replace (fl z - X) with ((fl z - z) + (z - X)) by ring. eapply Rle_trans; [apply Rabs_triang|].
  assert (ulp1 * Rabs z <= ulp1 * (B + 1000 * / 1000000000000)) by (apply Rmult_le_compat_l; lra). lra.
Qed.
Lemma addS x y X Y k l B : nearS x X k -> nearS y Y l -> 0 <= k <= 100 -> 0 <= l <= 100 -> Rabs (X + Y) <= B -> B <= 8 -> nearS (nadd x y) (X + Y) (k + l + B + / 100).
Proof.
  intros [Fx Ex] [Fy Ey] K L HB H8.
  assert (E : Rabs ((val x + val y) - (X + Y)) <= (k + l) * ulp1) by (replace ((val x + val y) - (X + Y)) with ((val x - X) + (val y - Y)) by ring; eapply Rle_trans; [apply Rabs_triang|]; lra).
  destruct (fl_small _ _ B (k + l) E) as [G Z]; [lra|exact HB|exact H8|]. destruct (plus_fl x y Fx Fy (under_top _ Z)) as [F V]. split; [exact F | now rewrite V].
Qed.
Lemma subS x y X Y k l B : nearS x X k -> nearS y Y l -> 0 <= k <= 100 -> 0 <= l <= 100 -> Rabs (X - Y) <= B -> B <= 8 -> nearS (nsub x y) (X - Y) (k + l + B + / 100).
Proof.
  intros [Fx Ex] [Fy Ey] K L HB H8.
  assert (E : Rabs ((val x - val y) - (X - Y)) <= (k + l) * ulp1).
  { replace ((val x - val y) - (X - Y)) with ((val x - X) + - (val y - Y)) by ring. eapply Rle_trans; [apply Rabs_triang|]. rewrite Rabs_Ropp. lra. }
  destruct (fl_small _ _ B (k + l) E) as [G Z]; [lra|exact HB|exact H8|]. destruct (minus_fl x y Fx Fy (under_top _ Z)) as [F V]. split; [exact F | now rewrite V].
Qed.
Lemma mulS x y X Y k l A C : nearS x X k -> nearS y Y l -> 0 <= k <= 100 -> 0 <= l <= 100 -> Rabs X <= A -> Rabs Y <= C -> A <= 2 -> C <= 2 ->
  nearS (nmul x y) (X * Y) (k * C + l * A + A * C + / 50).
Proof.
  intros [Fx Ex] [Fy Ey] K L HA HC A2 C2. pose proof ulp1_pos as P. pose proof ulp1_e12 as P12. pose proof (Rabs_pos X). pose proof (Rabs_pos Y).
  assert (E : Rabs (val x * val y - X * Y) <= (k * C + l * A + / 100) * ulp1).
  { replace (val x * val y - X * Y) with ((val x - X) * Y + X * (val y - Y) + (val x - X) * (val y - Y)) by ring.
    eapply Rle_trans; [apply Rabs_triang|]. eapply Rle_trans; [apply Rplus_le_compat_r, Rabs_triang|]. rewrite !Rabs_mult.
    assert (Rabs (val x - X) * Rabs Y <= (k * ulp1) * C) by (apply Rmult_le_compat; auto using Rabs_pos).
    assert (Rabs X * Rabs (val y - Y) <= A * (l * ulp1)) by (apply Rmult_le_compat; auto using Rabs_pos).
    assert (Rabs (val x - X) * Rabs (val y - Y) <= (k * ulp1) * (l * ulp1)) by (apply Rmult_le_compat; auto using Rabs_pos).
    assert (KU : k * ulp1 <= 100 * / 1000000000000) by (apply Rmult_le_compat; lra). assert (LU : l * ulp1 <= 100 * ulp1) by (apply Rmult_le_compat_r; lra).
    assert (0 <= l * ulp1) by (apply Rmult_le_pos; lra).
    assert ((k * ulp1) * (l * ulp1) <= (100 * / 1000000000000) * (100 * ulp1)) by (apply Rmult_le_compat; try apply Rmult_le_pos; lra). lra. }
  assert (AC : Rabs (X * Y) <= A * C) by (rewrite Rabs_mult; apply Rmult_le_compat; lra).
  assert (AC4 : A * C <= 4) by (replace 4 with (2 * 2) by ring; apply Rmult_le_compat; lra).
  assert (k * C <= 100 * 2) by (apply Rmult_le_compat; lra). assert (l * A <= 100 * 2) by (apply Rmult_le_compat; lra).
  assert (0 <= k * C) by (apply Rmult_le_pos; lra). assert (0 <= l * A) by (apply Rmult_le_pos; lra).
  destruct (fl_small _ _ (A * C) _ E) as [G Z]; [lra|exact AC|lra|].
  destruct (mult_fl x y Fx Fy (under_top _ Z)) as [F V]. split; [exact F|]. rewrite V. eapply Rle_trans; [exact G|]. apply Rmult_le_compat_r; lra.
Qed.
Lemma divS x y X Y k l r m : nearS x X k -> nearS y Y l -> 0 <= k <= 100 -> 0 <= l <= 100 -> / 4 <= m -> m <= Y -> Rabs (X / Y) <= r -> r <= 3 ->
  ndiv x y = Ok (nquot x y) /\ nearS (nquot x y) (X / Y) (1001 / 1000 * (k + r * l) / m + r + / 100).
Proof.
  intros [Fx Ex] [Fy Ey] K L Hm HY HR R3. pose proof ulp1_pos as P. pose proof ulp1_e12 as P12. pose proof (Rabs_pos (X / Y)).
  assert (LU : l * ulp1 <= 100 * / 1000000000000) by (apply Rmult_le_compat; lra).
  assert (Vy : m * (1000 / 1001) <= val y) by (apply Rabs_le_inv in Ey; lra). assert (Vp : 0 < val y) by lra.
  assert (RL : 0 <= r * l <= 300) by (split; [apply Rmult_le_pos; lra | replace 300 with (3 * 100) by ring; apply Rmult_le_compat; lra]).
  assert (E : Rabs (val x / val y - X / Y) <= (1001 / 1000 * (k + r * l) / m) * ulp1).
  { assert (Q : val x / val y - X / Y = ((val x - X) - (X / Y) * (val y - Y)) / val y) by (field; lra). rewrite Q. unfold Rdiv at 1. rewrite Rabs_mult, (Rabs_pos_eq (/ val y)) by (left; now apply Rinv_0_lt_compat).
    assert (Nm : Rabs (val x - X - X / Y * (val y - Y)) <= (k + r * l) * ulp1).
    { unfold Rminus at 1. eapply Rle_trans; [apply Rabs_triang|]. rewrite Rabs_Ropp, Rabs_mult.
      assert (Rabs (X / Y) * Rabs (val y - Y) <= r * (l * ulp1)) by (apply Rmult_le_compat; auto using Rabs_pos). lra. }
    assert (Dm : / val y <= 1001 / 1000 * / m).
    { replace (1001 / 1000 * / m) with (/ (m * (1000 / 1001))) by (field; lra). apply Rinv_le_contravar; lra. }
    replace (1001 / 1000 * (k + r * l) / m * ulp1) with ((k + r * l) * ulp1 * (1001 / 1000 * / m)) by (field; lra).
    apply Rmult_le_compat; auto using Rabs_pos. left. now apply Rinv_0_lt_compat. }
  assert (KK : 0 <= 1001 / 1000 * (k + r * l) / m <= 2000 - 380).
  { split; [apply Rmult_le_pos; [|left; apply Rinv_0_lt_compat]; lra|]. apply Rmult_le_reg_r with m; [lra|]. unfold Rdiv. rewrite Rmult_assoc, Rinv_l, Rmult_1_r by lra. lra. }
  assert (G : Rabs (fl (val x / val y) - X / Y) <= (1001 / 1000 * (k + r * l) / m + r + / 100) * ulp1 /\ Rabs (val x / val y) <= 1024).
  { revert E KK. generalize (1001 / 1000 * (k + r * l) / m). intros q E KK. pose proof tiny_small as T. pose proof (fl_err (val x / val y)) as Fe.
    assert (KU : q * ulp1 <= 1620 * / 1000000000000) by (apply Rmult_le_compat; lra). assert (Z : Rabs (val x / val y) <= r + q * ulp1).
    { replace (val x / val y) with (X / Y + (val x / val y - X / Y)) by ring. eapply Rle_trans; [apply Rabs_triang|]. lra. }
    split; [|lra]. replace (fl (val x / val y) - X / Y) with ((fl (val x / val y) - val x / val y) + (val x / val y - X / Y)) by ring. eapply Rle_trans; [apply Rabs_triang|].
    assert (ulp1 * Rabs (val x / val y) <= ulp1 * (r + 1620 * / 1000000000000)) by (apply Rmult_le_compat_l; lra). lra. }
  destruct G as [G Z]. split; [apply ndiv_ok; [exact Fy | lra]|]. destruct (div_fl x y Fx ltac:(lra) (under_top _ Z)) as [F V]. split; [exact F | now rewrite V].
Qed.
Lemma exactS x : fin x -> nearS x (val x) 0.
Proof. intros F. split; [exact F|]. rewrite Rminus_eq_0, Rabs_R0. lra. Qed.
Lemma intS z : (Z.abs z < 2 ^ 53)%Z -> nearS (nofZ z) (IZR z) 0.
Proof. intros L. destruct (val_int z L) as [F V]. change (@nofZ b64 _ z) with (bofZ z). rewrite <- V. now apply exactS. Qed.
Lemma absS x X k : nearS x X k -> nearS (nabs x) (Rabs X) k.
Proof. intros [F E]. destruct (abs_val x F) as [F' V]. split; [exact F'|]. rewrite V. eapply Rle_trans; [apply Rabs_triang_inv2 | exact E]. Qed.

Lemma div_bounds (a d lo hi : R) : 0 < d -> lo * d <= a <= hi * d -> lo <= a / d <= hi.
Proof. intros D [L H]. split; apply Rmult_le_reg_r with d; auto; unfold Rdiv; rewrite Rmult_assoc, Rinv_l, Rmult_1_r by lra; assumption. Qed.

(** ** The ratios *)
Theorem quad_ratio (t : b64) : fin t -> 0 <= val t <= 1 ->
  exists r, quadraticRatio t = Ok r /\ fin r /\ let s := val t in Rabs (val r - (2 * s * (1 - s)) / (1 - 2 * s * (1 - s))) <= 32 * ulp1.
Proof.
  intros F T. pose proof (exactS t F) as Nt. set (s := val t) in *. unfold quadraticRatio.
  assert (Q : 0 <= s * (1 - s) <= / 4) by (pose proof (Rle_0_sqr (s - / 2)) as SQ; unfold Rsqr in SQ; split; [apply Rmult_le_pos; lra | lra]).
  pose proof (mulS _ _ _ _ _ _ 2 1 (intS 2 ltac:(lia)) Nt ltac:(lra) ltac:(lra) ltac:(rewrite Rabs_pos_eq; lra) ltac:(rewrite Rabs_pos_eq; lra) ltac:(lra) ltac:(lra)) as N2.
  set (t2 := nmul (nofZ 2) t) in *. apply (nearS_le _ _ _ (202 / 100)) in N2; [|lra].
  pose proof (mulS _ _ _ _ _ _ 2 1 N2 Nt ltac:(lra) ltac:(lra) ltac:(rewrite Rabs_pos_eq; lra) ltac:(rewrite Rabs_pos_eq; lra) ltac:(lra) ltac:(lra)) as N3.
  apply (nearS_le _ _ _ (404 / 100)) in N3; [|lra].
  assert (B1 : Rabs (2 * s * s - 2 * s) <= / 2) by (apply Rabs_le; lra).
  pose proof (subS _ _ _ _ _ _ (/ 2) N3 N2 ltac:(lra) ltac:(lra) B1 ltac:(lra)) as N4. apply (nearS_le _ _ _ (657 / 100)) in N4; [|lra].
  assert (B2 : Rabs (2 * s * s - 2 * s + 1) <= 1) by (apply Rabs_le; lra).
  pose proof (addS _ _ _ _ _ _ 1 N4 (intS 1 ltac:(lia)) ltac:(lra) ltac:(lra) B2 ltac:(lra)) as N5. apply (nearS_le _ _ _ (758 / 100)) in N5; [|lra].
  assert (BR' : -1 <= (2 * s * s - 2 * s) / (2 * s * s - 2 * s + 1) <= 0) by (apply div_bounds; lra).
  assert (BR : Rabs ((2 * s * s - 2 * s) / (2 * s * s - 2 * s + 1)) <= 1) by (apply Rabs_le; lra).
  destruct (divS _ _ _ _ _ _ 1 (/ 2) N4 N5 ltac:(lra) ltac:(lra) ltac:(lra) ltac:(lra) BR ltac:(lra)) as [E N6].
  cbv zeta. rewrite E. cbn [bind]. eexists. split; [reflexivity|]. apply absS in N6. apply (nearS_le _ _ _ 32) in N6; [|lra]. destruct N6 as [F6 E6]. split; [exact F6|].
  replace (2 * s * (1 - s) / (1 - 2 * s * (1 - s))) with (Rabs ((2 * s * s - 2 * s) / (2 * s * s - 2 * s + 1))); [exact E6|].
  rewrite Rabs_left1 by lra. field. lra.
Qed.
Theorem cubic_ratio (t : b64) : fin t -> 0 <= val t <= 1 ->
  exists r, cubicRatio t = Ok r /\ fin r /\ let s := val t in Rabs (val r - (1 - s ^ 3 - (1 - s) ^ 3) / (s ^ 3 + (1 - s) ^ 3)) <= 140 * ulp1.
Proof.
  intros F T. pose proof (exactS t F) as Nt. set (s := val t) in *. unfold cubicRatio.
  assert (Q : 0 <= s * (1 - s) <= / 4) by (pose proof (Rle_0_sqr (s - / 2)) as SQ; unfold Rsqr in SQ; split; [apply Rmult_le_pos; lra | lra]). assert (AB : forall x, 0 <= x <= 1 -> Rabs x <= 1) by (intros; rewrite Rabs_pos_eq; lra).
  assert (S2 : 0 <= s * s <= 1) by nra. assert (M2 : 0 <= (1 - s) * (1 - s) <= 1) by nra.
  pose proof (subS _ _ _ _ _ _ 1 (intS 1 ltac:(lia)) Nt ltac:(lra) ltac:(lra) ltac:(apply AB; lra) ltac:(lra)) as Nm. apply (nearS_le _ _ _ (101 / 100)) in Nm; [|lra].
  set (mt := nsub (nofZ 1) t) in *.
  pose proof (mulS _ _ _ _ _ _ 1 1 Nt Nt ltac:(lra) ltac:(lra) ltac:(apply AB; lra) ltac:(apply AB; lra) ltac:(lra) ltac:(lra)) as N2. apply (nearS_le _ _ _ (102 / 100)) in N2; [|lra].
  pose proof (mulS _ _ _ _ _ _ 1 1 N2 Nt ltac:(lra) ltac:(lra) ltac:(apply AB; lra) ltac:(apply AB; lra) ltac:(lra) ltac:(lra)) as N3. apply (nearS_le _ _ _ (204 / 100)) in N3; [|lra].
  pose proof (mulS _ _ _ _ _ _ 1 1 Nm Nm ltac:(lra) ltac:(lra) ltac:(apply AB; lra) ltac:(apply AB; lra) ltac:(lra) ltac:(lra)) as P2. apply (nearS_le _ _ _ (304 / 100)) in P2; [|lra].
  pose proof (mulS _ _ _ _ _ _ 1 1 P2 Nm ltac:(lra) ltac:(lra) ltac:(apply AB; lra) ltac:(apply AB; lra) ltac:(lra) ltac:(lra)) as P3. apply (nearS_le _ _ _ (507 / 100)) in P3; [|lra].
  assert (C : s * s * s + (1 - s) * (1 - s) * (1 - s) = 1 - 3 * (s * (1 - s))) by ring.
  assert (B1 : Rabs (s * s * s + (1 - s) * (1 - s) * (1 - s)) <= 1) by (apply AB; lra).
  pose proof (addS _ _ _ _ _ _ 1 N3 P3 ltac:(lra) ltac:(lra) B1 ltac:(lra)) as N4. apply (nearS_le _ _ _ (812 / 100)) in N4; [|lra].
  assert (B2 : Rabs (s * s * s + (1 - s) * (1 - s) * (1 - s) - 1) <= 3 / 4) by (apply Rabs_le; lra).
  pose proof (subS _ _ _ _ _ _ (3 / 4) N4 (intS 1 ltac:(lia)) ltac:(lra) ltac:(lra) B2 ltac:(lra)) as N5. apply (nearS_le _ _ _ (889 / 100)) in N5; [|lra].
  set (D := s * s * s + (1 - s) * (1 - s) * (1 - s)) in *. assert (DB : / 4 <= D <= 1) by lra.
  assert (BR : -3 <= (D - 1) / D <= 0) by (apply div_bounds; lra).
  destruct (divS _ _ _ _ _ _ 3 (/ 4) N5 N4 ltac:(lra) ltac:(lra) ltac:(lra) ltac:(lra) ltac:(apply Rabs_le; lra) ltac:(lra)) as [E N6].
  cbv zeta. rewrite E. cbn [bind]. eexists. split; [reflexivity|]. apply absS in N6. apply (nearS_le _ _ _ 140) in N6; [|lra]. destruct N6 as [F6 E6]. split; [exact F6|].
  replace ((1 - s ^ 3 - (1 - s) ^ 3) / (s ^ 3 + (1 - s) ^ 3)) with (Rabs ((D - 1) / D)); [exact E6|].
  rewrite Rabs_left1 by lra. replace (s ^ 3 + (1 - s) ^ 3) with D by (unfold D; ring). replace (1 - s ^ 3 - (1 - s) ^ 3) with (1 - D) by (unfold D; ring). field. lra.
Qed.

(** ** hull *)
Definition vbez (b : bezier b64) : bezier R := mkBez (map vpt (cps b)) 0 1.
Lemma sized_pos M (b : bezier b64) : (1 <= length (cps b))%nat -> Forall (sized M) (cps b) -> 0 <= M.
Proof.
  intros L A. destruct (cps b) as [|x p]; [simpl in L; lia|]. inversion A as [|? ? (_ & _ & B & _)]. pose proof (Rabs_pos (val (fst x))). lra.
Qed.
Lemma hull_off (b : bezier b64) (t : b64) (M : R) : (1 <= length (cps b))%nat -> INR (order b) <= 2 ^ 40 -> Forall (sized M) (cps b) -> M <= 2 ^ 1020 ->
  fin t -> 0 <= val t <= 1 ->
  Forall2 (off (7 * INR (order b) * ulp1 * M + 5 * INR (order b) * tiny)) (hull b t) (hull (vbez b) (val t)).
Proof.
  intros L NB A MT Ft T. pose proof (sized_pos M b L A) as M0.
  assert (MT' : 16 * M <= ProofDouble.top).
  { rewrite top_1024. replace (2 ^ 1024) with (16 * 2 ^ 1020) by (change 1024%nat with (4 + 1020)%nat; rewrite pow_add; lra). lra. }
  destruct (err_bounds M (order b) M0 MT' NB) as [LB Er].
  assert (H : Forall2 (tracks M (err M (order b))) (hull b t) (hull (vbez b) (val t))).
  { unfold hull, vbez. cbn [cps]. rewrite map_length. pose proof (start_tracks M (cps b) A) as S0.
    apply (hull_near t Ft T M (order b) M0 LB _ 0); [exact S0 | lia | unfold order; lia|].
    eapply Forall2_imp; [|exact S0]. intros u v Huv. eapply tracks_le; [exact Huv|]. apply err_mono; [exact M0 | lia]. }
  eapply Forall2_imp; [|exact H]. intros u v [(F1 & F2 & E1 & E2) _]. repeat split; auto; lra.
Qed.
Theorem hull_double (b : bezier b64) (t : b64) (M : R) : (1 <= length (cps b))%nat -> INR (order b) <= 2 ^ 40 -> Forall (sized M) (cps b) -> M <= 2 ^ 1020 ->
  fin t -> 0 <= val t <= 1 ->
  let n := length (cps b) in let e := 7 * INR (order b) * ulp1 * M + 5 * INR (order b) * tiny in
  exists lv : list (list pt), Forall2 (off e) (hull b t) (concat lv) /\ length lv = n /\ nth 0 lv [] = map vpt (cps b) /\
    (forall k, (k < n)%nat -> length (nth k lv []) = (n - k)%nat) /\
    (forall k i, (S k < n)%nat -> (i < n - S k)%nat ->
       nth i (nth (S k) lv []) (0, 0) = along (nth i (nth k lv []) (0, 0)) (nth (S i) (nth k lv []) (0, 0)) (val t)) /\
    off e (last (hull b t) (bofZ 0, bofZ 0)) (curve (map vpt (cps b)) (val t)).
Proof.
  intros L NB A MT Ft T n e. pose proof (hull_off b t M L NB A MT Ft T) as H. fold e in H.
  assert (L' : (1 <= length (cps (vbez b)))%nat) by (unfold vbez; cbn [cps]; now rewrite map_length).
  destruct (hull_full (vbez b) (val t) L') as (lv & E & Ln & Z & Lk & St & Sz & La). unfold vbez in Ln, Z, Lk, St, La, L', Sz; cbn [cps] in *.
  rewrite map_length in *. fold n in Ln, Lk, St, Sz, L'. exists lv. split; [rewrite <- E; exact H|]. split; [exact Ln|]. split; [exact Z|]. split; [exact Lk|].
  split; [intros k i K I; apply St; [exact K | rewrite Lk by exact K; exact I]|].
  fold (vbez b) in La, Sz. rewrite <- La. assert (Lh : (1 <= length (hull (vbez b) (val t)))%nat) by (clear - Sz L' ; unfold vbez in *; revert Sz; generalize (length (hull (mkBez (map vpt (cps b)) 0 1) (val t))); intros; nia).
  assert (Le : length (hull b t) = length (hull (vbez b) (val t))) by (eapply Forall2_len; exact H).
  assert (LN : forall {B} (l : list B) d, last l d = nth (length l - 1) l d).
  { clear. induction l as [|x [|y l] IH]; intros d; [reflexivity|reflexivity|]. change (last (x :: y :: l) d) with (last (y :: l) d). rewrite IH. cbn [length nth Nat.sub]. now rewrite Nat.sub_0_r. }
  rewrite !LN, <- Le. apply F2_nth; [exact H | lia].
Qed.

(** ** getABC *)
Theorem abc_double (b : bezier b64) (t : b64) (M : R) : (length (cps b) = 3 \/ length (cps b) = 4)%nat -> Forall (sized M) (cps b) -> M <= 2 ^ 1020 ->
  fin t -> 0 <= val t <= 1 ->
  let s := val t in let e := 21 * ulp1 * M + 15 * tiny in
  exists A B r p0 pn, getABC b t = Ok (A, B, lli4 A B p0 pn, r, hull b t) /\ bstart b = Ok p0 /\ bend b = Ok pn /\
    off e B (curve (map vpt (cps b)) s) /\ fin r /\
    (length (cps b) = 3%nat -> A = nth 1 (cps b) A /\ Rabs (val r - (2 * s * (1 - s)) / (1 - 2 * s * (1 - s))) <= 32 * ulp1) /\
    (length (cps b) = 4%nat -> off e A (along (vpt (nth 1 (cps b) A)) (vpt (nth 2 (cps b) A)) s) /\ Rabs (val r - (1 - s ^ 3 - (1 - s) ^ 3) / (s ^ 3 + (1 - s) ^ 3)) <= 140 * ulp1).
Proof.
  intros L A MT Ft T s e. assert (NB : INR (order b) <= 3) by (replace 3 with (INR 3) by (simpl; ring); apply le_INR; unfold order; lia).
  assert (M0 : 0 <= M) by (apply (sized_pos M b); [lia | exact A]). pose proof ulp1_pos. pose proof tiny_pos.
  assert (HO : Forall2 (off e) (hull b t) (hull (vbez b) s)).
  { eapply Forall2_imp; [|apply (hull_off b t M); auto; [lia|]; eapply Rle_trans; [exact NB|]; apply Rle_trans with (2 ^ 2); [lra | apply Rle_pow; [lra | lia]]].
    intros u v (F1 & F2 & E1 & E2).
    assert (INR (order b) * (ulp1 * M) <= 3 * (ulp1 * M)) by (apply Rmult_le_compat_r; [apply Rmult_le_pos; lra | lra]).
    assert (INR (order b) * tiny <= 3 * tiny) by (apply Rmult_le_compat_r; lra). unfold e. repeat split; auto; lra. }
  assert (L' : (1 <= length (cps (vbez b)))%nat) by (unfold vbez; cbn [cps]; rewrite map_length; lia).
  destruct (hull_full (vbez b) s L') as (_ & _ & _ & _ & _ & _ & _ & La).
  destruct (quad_ratio t Ft T) as (r2 & E2 & F2 & B2). destruct (cubic_ratio t Ft T) as (r3 & E3 & F3 & B3). fold s in B2, B3. cbv zeta in B2, B3.
  destruct b as [p u v]. unfold vbez in *. cbn [cps] in *. destruct L as [L|L]; destruct p as [|p0 [|p1 [|p2 [|p3 [|p4 p]]]]]; try (simpl in L; lia).
  - pose proof (fun i H => F2_nth (off e) _ _ i (bofZ 0, bofZ 0) (0, 0) HO H) as K. change (length (hull (mkBez [p0; p1; p2] u v) t)) with 6%nat in K.
    pose proof (K 5%nat ltac:(lia)) as K5. cbn [map] in *. match type of La with last ?l _ = _ => change (last l (0, 0)) with (nth 5 l (0, 0)) in La end. rewrite La in K5.
    unfold getABC, order. cbn [cps length Nat.sub Nat.eqb]. unfold idx. cbn [nth_error bind]. rewrite E2. unfold hull at 1. cbn [hullLoop length cps Nat.ltb Nat.leb dcLevel app nth_error bind idx_last last_error].
    do 5 eexists. split; [reflexivity|]. split; [reflexivity|]. split; [reflexivity|]. split; [exact K5|]. split; [exact F2|]. split; [intros _; split; [reflexivity | exact B2] | intros X; discriminate X].
  - pose proof (fun i H => F2_nth (off e) _ _ i (bofZ 0, bofZ 0) (0, 0) HO H) as K. change (length (hull (mkBez [p0; p1; p2; p3] u v) t)) with 10%nat in K.
    pose proof (K 5%nat ltac:(lia)) as K5. pose proof (K 9%nat ltac:(lia)) as K9. cbn [map] in *. match type of La with last ?l _ = _ => change (last l (0, 0)) with (nth 9 l (0, 0)) in La end. rewrite La in K9.
    unfold getABC, order. cbn [cps length Nat.sub Nat.eqb]. unfold idx. cbn [nth_error bind]. rewrite E3. unfold hull at 1 2. cbn [hullLoop length cps Nat.ltb Nat.leb dcLevel app nth_error bind idx_last last_error].
    do 5 eexists. split; [reflexivity|]. split; [reflexivity|]. split; [reflexivity|]. split; [exact K9|]. split; [exact F3|]. split; [intros X; discriminate X | intros _; split; [exact K5 | exact B3]].
Qed.

(** ** raiseOrder *)
Lemma weight (i k : nat) : (1 <= k)%nat -> (Z.of_nat k < 2 ^ 53)%Z -> (i <= k)%nat ->
  let q := nquot (nofZ (Z.of_nat i)) (nofZ (Z.of_nat k)) in
  fin q /\ 0 <= val q <= 1 /\ 0 <= INR i / INR k <= 1 /\ Rabs (val q - INR i / INR k) <= ulp1 * (INR i / INR k) + tiny /\ (i = 0%nat -> val q = 0) /\ (i = k -> val q = 1).
Proof.
  intros K1 K I q. destruct (val_int (Z.of_nat i)) as [Fi Vi]; [lia|]. destruct (val_int (Z.of_nat k)) as [Fk Vk]; [lia|]. rewrite <- INR_IZR_INZ in Vi, Vk.
  assert (K0 : 0 < INR k) by (apply lt_0_INR; lia). assert (W : 0 <= INR i / INR k <= 1) by (apply div_bounds; [exact K0|]; rewrite Rmult_0_l, Rmult_1_l; split; [apply pos_INR | now apply le_INR]).
  assert (G : Rabs (INR i / INR k) <= 2 ^ 0) by (rewrite Rabs_pos_eq; simpl; lra).
  destruct (div_fl (bofZ (Z.of_nat i)) (bofZ (Z.of_nat k)) Fi) as [F V]; [rewrite Vk; lra|rewrite Vi, Vk; apply under_top; simpl in G; lra|]. change (nquot (bofZ (Z.of_nat i)) (bofZ (Z.of_nat k))) with q in F, V.
  rewrite Vi, Vk in V. split; [exact F|]. split; [|split; [exact W|split; [|split]]].
  - pose proof (fl_pow _ 0 ltac:(lia) G) as B. pose proof (fl_mono 0 (INR i / INR k) ltac:(lra)) as P. rewrite fl0 in P. rewrite V. simpl in B. rewrite Rabs_pos_eq in B by exact P. lra.
  - rewrite V. pose proof (fl_err (INR i / INR k)) as E. rewrite (Rabs_pos_eq (INR i / INR k)) in E by lra. exact E.
  - intros ->. rewrite V. replace (INR 0 / INR k) with 0 by (simpl; field; lra). apply fl0.
  - intros ->. rewrite V. replace (INR k / INR k) with 1 by (field; lra). destruct lit01 as (_ & _ & _ & V1). rewrite <- V1. apply fl_val.
Qed.
Lemma scaled_near (w x : b64) (W M : R) : fin w -> fin x -> 0 <= val w <= 1 -> 0 <= W <= 1 -> Rabs (val w - W) <= ulp1 * W + tiny -> Rabs (val x) <= M -> M <= 2 ^ 1020 ->
  fin (nmul w x) /\ Rabs (val (nmul w x)) <= 2 ^ 1020 /\ Rabs (val (nmul w x) - W * val x) <= (2 * W + / 100) * (ulp1 * M) + tiny.
Proof.
  intros Fw Fx Hw HW E Hx HM. pose proof ulp1_pos. pose proof ulp1_e12. pose proof tiny_pos. pose proof tiny_small as TS. pose proof (Rabs_pos (val x)) as X0.
  assert (B : Rabs (val w * val x) <= Rabs (val x)) by (rewrite Rabs_mult, (Rabs_pos_eq (val w)) by lra; rewrite <- (Rmult_1_l (Rabs (val x))) at 2; apply Rmult_le_compat_r; lra).
  pose proof (fl_pow _ 1020 ltac:(lia) (Rle_trans _ _ _ B (Rle_trans _ _ _ Hx HM))) as B2. pose proof (below_top 1020 ltac:(lia)) as T.
  destruct (mult_fl w x Fw Fx) as [F V]; [lra|]. rewrite <- V in B2. split; [exact F|]. split; [exact B2|]. rewrite V.
  pose proof (fl_err (val w * val x)) as E2. rewrite Rabs_mult, (Rabs_pos_eq (val w)) in E2 by lra.
  replace (fl (val w * val x) - W * val x) with ((fl (val w * val x) - val w * val x) + (val w - W) * val x) by ring. eapply Rle_trans; [apply Rabs_triang|]. rewrite (Rabs_mult (val w - W)).
  assert (D1 : Rabs (val w - W) * Rabs (val x) <= (ulp1 * W + tiny) * M) by (apply Rmult_le_compat; auto using Rabs_pos).
  assert (D2 : val w * Rabs (val x) <= (W + ulp1 * W + tiny) * M) by (apply Rmult_le_compat; [lra | lra | apply Rabs_le_inv in E; lra | lra]).
  assert (D3 : ulp1 * (val w * Rabs (val x)) <= ulp1 * ((W + ulp1 * W + tiny) * M)) by (apply Rmult_le_compat_l; lra).
  assert (M0 : 0 <= M) by lra. assert (UM : 0 <= ulp1 * M) by (apply Rmult_le_pos; lra).
  assert (TM : tiny * M <= / 1000000 * (ulp1 * M)) by (replace (/ 1000000 * (ulp1 * M)) with (/ 1000000 * ulp1 * M) by ring; apply Rmult_le_compat_r; lra).
  assert (UW : ulp1 * W <= / 1000) by nra. assert (UWM : ulp1 * ((ulp1 * W) * M) <= / 1000 * (ulp1 * M)) by (replace (ulp1 * (ulp1 * W * M)) with (ulp1 * W * (ulp1 * M)) by ring; apply Rmult_le_compat_r; lra).
  assert (0 <= tiny * M) by (apply Rmult_le_pos; lra). assert (UTM : ulp1 * (tiny * M) <= / 1000 * (tiny * M)) by (apply Rmult_le_compat_r; lra).
  assert (X : ulp1 * ((W + ulp1 * W + tiny) * M) = W * (ulp1 * M) + ulp1 * (ulp1 * W * M) + ulp1 * (tiny * M)) by ring.
  assert (Y : (ulp1 * W + tiny) * M = W * (ulp1 * M) + tiny * M) by ring. rewrite X in D3. rewrite Y in D1. lra.
Qed.
Lemma weigh (x y : b64) (k i : nat) (M : R) : fin x -> fin y -> Rabs (val x) <= M -> Rabs (val y) <= M -> M <= 2 ^ 1020 -> (1 <= k)%nat -> (Z.of_nat k < 2 ^ 53)%Z -> (i <= k)%nat ->
  let w := nadd (nmul (nquot (nofZ (Z.of_nat k - Z.of_nat i)) (nofZ (Z.of_nat k))) x) (nmul (nquot (nofZ (Z.of_nat i)) (nofZ (Z.of_nat k))) y) in
  fin w /\ Rabs (val w - ((1 - INR i / INR k) * val x + INR i / INR k * val y)) <= 4 * ulp1 * M + 4 * tiny /\ (i = 0%nat -> val w = val x).
Proof.
  intros Fx Fy Hx Hy HM K1 K I w. unfold w. clear w. replace (Z.of_nat k - Z.of_nat i)%Z with (Z.of_nat (k - i)) by lia.
  destruct (weight (k - i) k K1 K ltac:(lia)) as (F1 & R1 & W1 & E1 & _ & O1). destruct (weight i k K1 K I) as (F2 & R2 & W2 & E2 & O2 & _).
  set (q := nquot (nofZ (Z.of_nat (k - i))) (nofZ (Z.of_nat k))) in *. set (r := nquot (nofZ (Z.of_nat i)) (nofZ (Z.of_nat k))) in *.
  assert (K0 : 0 < INR k) by (apply lt_0_INR; lia). assert (Wq : INR (k - i) / INR k = 1 - INR i / INR k) by (rewrite minus_INR by exact I; field; lra). rewrite Wq in *.
  set (W := INR i / INR k) in *.
  destruct (scaled_near q x (1 - W) M F1 Fx R1 W1 E1 Hx HM) as (Fa & Ba & Ea). destruct (scaled_near r y W M F2 Fy R2 W2 E2 Hy HM) as (Fb & Bb & Eb).
  set (a := nmul q x) in *. set (b := nmul r y) in *.
  assert (BB : Rabs (val a + val b) <= 2 ^ 1021) by (change (2 ^ 1021) with (2 * 2 ^ 1020); eapply Rle_trans; [apply Rabs_triang|]; lra).
  pose proof (fl_pow _ 1021 ltac:(lia) BB) as B2. pose proof (below_top 1021 ltac:(lia)) as T. destruct (plus_fl a b Fa Fb) as [F V]; [lra|]. split; [exact F|]. rewrite V. split.
  - pose proof ulp1_pos. pose proof ulp1_e12. pose proof tiny_pos. pose proof (fl_err (val a + val b)) as E. pose proof (Rabs_pos (val x)). assert (M0 : 0 <= M) by lra. assert (UM : 0 <= ulp1 * M) by (apply Rmult_le_pos; lra).
    set (Z := (1 - W) * val x + W * val y). assert (ZM : Rabs Z <= M).
    { unfold Z. eapply Rle_trans; [apply Rabs_triang|]. rewrite !Rabs_mult, (Rabs_pos_eq W), (Rabs_pos_eq (1 - W)) by lra.
      assert ((1 - W) * Rabs (val x) <= (1 - W) * M) by (apply Rmult_le_compat_l; lra). assert (W * Rabs (val y) <= W * M) by (apply Rmult_le_compat_l; lra). lra. }
    assert (S : Rabs (val a + val b - Z) <= (2 + / 50) * (ulp1 * M) + 2 * tiny).
    { unfold Z. replace (val a + val b - ((1 - W) * val x + W * val y)) with ((val a - (1 - W) * val x) + (val b - W * val y)) by ring. eapply Rle_trans; [apply Rabs_triang|]. lra. }
    assert (S2 : Rabs (val a + val b) <= M + 3 * (ulp1 * M) + 2 * tiny).
    { replace (val a + val b) with (Z + (val a + val b - Z)) by ring. eapply Rle_trans; [apply Rabs_triang|]. lra. }
    assert (S3 : ulp1 * Rabs (val a + val b) <= ulp1 * (M + 3 * (ulp1 * M) + 2 * tiny)) by (apply Rmult_le_compat_l; lra).
    assert (ulp1 * (ulp1 * M) <= / 1000 * (ulp1 * M)) by (apply Rmult_le_compat_r; lra). assert (ulp1 * tiny <= / 1000 * tiny) by (apply Rmult_le_compat_r; lra).
    replace (fl (val a + val b) - Z) with ((fl (val a + val b) - (val a + val b)) + (val a + val b - Z)) by ring. eapply Rle_trans; [apply Rabs_triang|]. lra.
  - intros ->. assert (Vr : val b = 0).
    { unfold b. destruct (mult_fl r y F2 Fy) as [_ ->]; rewrite (O2 eq_refl), Rmult_0_l, fl0; [rewrite Rabs_R0; pose proof top_big; lra | reflexivity]. }
    assert (Va : val a = val x).
    { unfold a. destruct (mult_fl q x F1 Fx) as [_ ->]; rewrite (O1 ltac:(lia)), Rmult_1_l, fl_val; [apply val_top | reflexivity]. }
    rewrite Va, Vr, Rplus_0_r. apply fl_val.
Qed.
Theorem raise_double (b : bezier b64) (M : R) : (2 <= length (cps b))%nat -> (Z.of_nat (length (cps b)) < 2 ^ 53)%Z -> Forall (sized M) (cps b) -> M <= 2 ^ 1020 ->
  exists c, raiseOrder b = Ok c /\ length (cps c) = (length (cps b) + 2)%nat /\ bstart c = bstart b /\ bend c = bend b /\
    vpt (nth 1 (cps c) (bofZ 0, bofZ 0)) = vpt (nth 0 (cps b) (bofZ 0, bofZ 0)) /\
    forall i, (i < length (cps b))%nat -> let l := INR i / INR (length (cps b)) in
      off (4 * ulp1 * M + 4 * tiny) (nth (S i) (cps c) (bofZ 0, bofZ 0))
        (vadd (vscale (1 - l) (nth i (map vpt (cps b)) (0, 0))) (vscale l (nth (i - 1) (map vpt (cps b)) (0, 0)))).
Proof.
  intros L K A HM. set (p := cps b) in *. set (k := length p) in *. set (d := (bofZ 0, bofZ 0) : point b64).
  assert (Sz : forall i, (i < k)%nat -> sized M (nth i p d)) by (intros i Hi; rewrite Forall_forall in A; apply A, nth_In, Hi).
  assert (IX : forall i, (i < k)%nat -> idx p i = Ok (nth i p d)) by (intros i Hi; unfold idx; now rewrite (nth_error_nth' p d Hi)).
  assert (LE : idx_last p = Ok (nth (k - 1) p d)).
  { destruct (exists_last (l := p)) as (r & z & E); [intros E; unfold k in L; rewrite E in L; simpl in L; lia|]. unfold k. rewrite E. unfold idx_last. rewrite last_snoc, app_length. cbn [length]. replace (length r + 1 - 1)%nat with (length r) by lia.
    now rewrite nth_middle. }
  set (f i := let u := nquot (nofZ (Z.of_nat k - Z.of_nat i)) (nofZ (Z.of_nat k)) in let v := nquot (nofZ (Z.of_nat i)) (nofZ (Z.of_nat k)) in
    let x := nth i p d in let y := nth (if Nat.eqb i 0 then k - 1 else i - 1) p d in
    (nadd (nmul u (fst x)) (nmul v (fst y)), nadd (nmul u (snd x)) (nmul v (snd y))) : point b64).
  assert (RP : forall i, (i < k)%nat -> raisedPoint p k i = Ok (f i)).
  { intros i Hi. unfold raisedPoint. rewrite IX by exact Hi. cbn [bind]. unfold f. destruct i as [|j]; cbn [Nat.eqb].
    - rewrite LE. reflexivity.
    - rewrite IX by lia. cbn [bind]. replace (S j - 1)%nat with j by lia. reflexivity. }
  assert (MM : forall l, (forall i, In i l -> (i < k)%nat) -> mapM (raisedPoint p k) l = Ok (map f l)).
  { induction l as [|i l IH]; intros H; [reflexivity|]. cbn [mapM map]. rewrite RP by (apply H; now left). cbn [bind]. rewrite IH by (intros; apply H; now right). reflexivity. }
  assert (MK : mapM (raisedPoint p k) (seq 0 k) = Ok (map f (seq 0 k))) by (apply MM; intros i Hi; apply in_seq in Hi; lia).
  exists (mkBez (nth 0 p d :: map f (seq 0 k) ++ [nth (k - 1) p d]) (nofZ 0) (nofZ 1)).
  split.
  { unfold raiseOrder. fold p. fold k. rewrite IX by lia. cbn [bind]. rewrite MK. cbn [bind]. rewrite LE. cbn [bind]. apply newBezier_ok. cbn [length]. rewrite app_length. cbn [length]. lia. }
  cbn [cps]. split; [cbn [length]; rewrite app_length, map_length, seq_length; cbn [length]; lia|].
  split; [unfold bstart; cbn [cps]; fold p; rewrite IX by lia; reflexivity|].
  split; [unfold bend; cbn [cps]; fold p; rewrite LE; unfold idx_last; rewrite app_comm_cons, last_snoc; reflexivity|].
  assert (NI : forall i, (i < k)%nat -> nth (S i) (nth 0 p d :: map f (seq 0 k) ++ [nth (k - 1) p d]) d = f i).
  { intros i Hi. cbn [nth]. rewrite app_nth1 by (rewrite map_length, seq_length; exact Hi). rewrite (nth_indep _ d (f 0%nat)) by (rewrite map_length, seq_length; exact Hi). rewrite map_nth, seq_nth by exact Hi. reflexivity. }
  split.
  - rewrite NI by lia. destruct (Sz 0%nat ltac:(lia)) as (Fx & Fy & Bx & By). destruct (Sz (k - 1)%nat ltac:(lia)) as (Gx & Gy & Cx & Cy).
    unfold f, vpt. cbn [Nat.eqb fst snd].
    destruct (weigh (fst (nth 0 p d)) (fst (nth (k - 1) p d)) k 0 M Fx Gx Bx Cx HM ltac:(lia) K ltac:(lia)) as (_ & _ & E1).
    destruct (weigh (snd (nth 0 p d)) (snd (nth (k - 1) p d)) k 0 M Fy Gy By Cy HM ltac:(lia) K ltac:(lia)) as (_ & _ & E2).
    rewrite (E1 eq_refl), (E2 eq_refl). reflexivity.
  - intros i Hi. set (l := INR i / INR k) in *. rewrite NI by exact Hi. rewrite !(vpt_nth p _ d) by lia. set (j := if Nat.eqb i 0 then (k - 1)%nat else (i - 1)%nat).
    assert (J : (j < k)%nat) by (unfold j; destruct (Nat.eqb_spec i 0); lia).
    destruct (Sz i Hi) as (Fx & Fy & Bx & By). destruct (Sz j J) as (Gx & Gy & Cx & Cy).
    destruct (weigh (fst (nth i p d)) (fst (nth j p d)) k i M Fx Gx Bx Cx HM ltac:(lia) K ltac:(lia)) as (F1 & E1 & _).
    destruct (weigh (snd (nth i p d)) (snd (nth j p d)) k i M Fy Gy By Cy HM ltac:(lia) K ltac:(lia)) as (F2 & E2 & _).
    fold l in E1, E2. unfold f. fold j. split; [exact F1|]. split; [exact F2|]. unfold vadd, vscale, vpt; cbn [fst snd].
    assert (Q : forall h : point b64 -> b64, l * val (h (nth j p d)) = l * val (h (nth (i - 1) p d))).
    { intros h. unfold j. destruct (Nat.eqb_spec i 0) as [Z|Z]; [|reflexivity]. unfold l. subst i. simpl INR. unfold Rdiv. now rewrite !Rmult_0_l. }
    rewrite (Q fst) in E1. rewrite (Q snd) in E2. split; [exact E1 | exact E2].
Qed.
