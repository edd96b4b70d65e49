(** Proofs: [length] of a curve with float coordinates. *)
From Coq Require Import List ZArith Bool Reals Lra Lia Psatz.
From Flocq Require Import Core BinarySingleNaN.
From Verif Require Import Py Inst InstFloat SpecGeom SpecBezier SpecCurve SpecArc SpecDouble MTables MTransform MBezUtil MBezier MBezierObj MDecimal ProofBezier ProofDouble ProofDouble3 ProofDouble10 ProofDouble11 ProofDouble17 ProofLength ProofArc ProofArc3 ProofDecimal.
Import ListNotations.
Local Open Scope R_scope.
#[local] Existing Instance InstFloat.prec_gt_0.
#[local] Existing Instance InstFloat.prec_lt_emax.
Notation dust := SpecDouble.tiny.

(** ** The control points of the derivative *)
Lemma leg_double (c : nat) (a b : b64) (M : R) : (1 <= c <= 3)%nat -> fin a -> fin b -> Rabs (val a) <= M -> Rabs (val b) <= M -> M <= 2 ^ 1000 ->
  let x := nmul (nofZ (Z.of_nat c)) (nsub b a) in
  fin x /\ Rabs (val x - INR c * (val b - val a)) <= (2 + / 100) * ulp1 * Rabs (INR c * (val b - val a)) + 5 * dust.
Proof.
  intros C Fa Fb Ba Bb L x. pose proof (pow_1010 M L) as L'. pose proof ulp1_pos as Up. pose proof ulp1_small as Us. pose proof tiny_pos as Tp. pose proof tiny_60 as T6. pose proof (Rabs_pos (val a)) as P0.
  assert (B : Rabs (val b - val a) <= 2 * M) by (unfold Rminus; eapply Rle_trans; [apply Rabs_triang|]; rewrite Rabs_Ropp; lra).
  destruct (diff_double c a b M C Fa Fb Ba Bb L) as (Fx & _). fold x in Fx. split; [exact Fx|].
  destruct (minus_fl b a Fb Fa) as [F V]; [eapply top_of; [exact B | lra]|]. pose proof (fl_err (val b - val a)) as E. rewrite <- V in E.
  destruct (val_int (Z.of_nat c)) as [Fc Vc]; [lia|]. rewrite <- INR_IZR_INZ in Vc. change (nofZ (Z.of_nat c) : b64) with (bofZ (Z.of_nat c)) in x.
  assert (Hc : 1 <= INR c <= 3) by (split; [change 1 with (INR 1) | replace 3 with (INR 3) by (simpl; lra)]; apply le_INR; lia).
  set (d := val b - val a) in *. set (y := val (nsub b a)) in *.
  assert (Sy : Rabs y <= Rabs d + (ulp1 * Rabs d + dust)) by (replace y with (d + (y - d)) by ring; eapply Rle_trans; [apply Rabs_triang | lra]).
  assert (Mu : ulp1 * M <= / 1000000 * M) by (apply Rmult_le_compat_r; lra). assert (Ud : 0 <= ulp1 * Rabs d <= / 1000000 * Rabs d) by (pose proof (Rabs_pos d); split; [nra | apply Rmult_le_compat_r; lra]).
  assert (Bx : Rabs (INR c * y) <= 3 * (2 * M + (/ 1000000 * (2 * M) + dust))). { rewrite Rabs_mult, (Rabs_pos_eq (INR c)) by lra. apply Rmult_le_compat; [lra | apply Rabs_pos | lra | lra]. }
  destruct (mult_fl (bofZ (Z.of_nat c)) (nsub b a) Fc F) as [_ Vx]; [rewrite Vc; eapply top_of; [exact Bx|]; assert (2 ^ 10 <= 2 ^ 1010) by (apply Rle_pow; [lra | lia]); cbn [pow] in *; nra|].
  fold x in Vx. rewrite Vc in Vx. fold y in Vx. pose proof (fl_err (INR c * y)) as Ex. rewrite <- Vx in Ex. set (c' := INR c) in *. clearbody c' y d.
  rewrite !Rabs_mult, !(Rabs_pos_eq c') in * by lra. pose proof (Rabs_pos d) as Dp. pose proof (Rabs_pos y) as Yp.
  replace (val x - c' * d) with ((val x - c' * y) + c' * (y - d)) by ring. eapply Rle_trans; [apply Rabs_triang|]. rewrite (Rabs_mult c'), (Rabs_pos_eq c') by lra.
  assert (A1 : c' * Rabs (y - d) <= c' * (ulp1 * Rabs d) + 3 * dust) by nra.
  assert (A2 : ulp1 * (c' * Rabs y) <= (1 + / 1000) * (c' * (ulp1 * Rabs d)) + dust).
  { apply Rle_trans with (ulp1 * (c' * (Rabs d + (ulp1 * Rabs d + dust)))); [apply Rmult_le_compat_l; [lra|]; apply Rmult_le_compat_l; lra|].
    replace (ulp1 * (c' * (Rabs d + (ulp1 * Rabs d + dust)))) with (c' * (ulp1 * Rabs d) + (ulp1 * (c' * (ulp1 * Rabs d)) + ulp1 * c' * dust)) by ring.
    assert (0 <= c' * (ulp1 * Rabs d)) by nra. assert (ulp1 * c' <= 1) by nra. nra. }
  assert (0 <= c' * (ulp1 * Rabs d)) by nra. lra.
Qed.

(** ** Nearby velocities *)
Definition close (k z : R) (d d' : pt) : Prop :=
  Rabs (fst d' - fst d) <= k * Rabs (fst d) + z /\ Rabs (snd d' - snd d) <= k * Rabs (snd d) + z.
Lemma sum_norm (v : pt) : Rabs (fst v) + Rabs (snd v) <= 3 / 2 * norm v.
Proof.
  pose proof (norm_pos v) as N. pose proof (norm_sq v) as S. unfold vdot in S. pose proof (Rabs_pos (fst v)). pose proof (Rabs_pos (snd v)).
  assert (fst v * fst v = Rabs (fst v) * Rabs (fst v)) by (rewrite <- Rabs_mult, Rabs_pos_eq; nra). assert (snd v * snd v = Rabs (snd v) * Rabs (snd v)) by (rewrite <- Rabs_mult, Rabs_pos_eq; nra).
  set (a := Rabs (fst v)) in *. set (c := Rabs (snd v)) in *. set (n := norm v) in *. clearbody a c n.
  assert (Q : 0 <= (a - c) * (a - c)) by apply Rle_0_sqr. assert (0 <= n * n) by apply Rle_0_sqr. apply Rsqr_incr_0_var; [unfold Rsqr; lra | lra].
Qed.
Lemma close_sum k z d d' : 0 <= k -> close k z d d' -> Rabs (fst d' - fst d) + Rabs (snd d' - snd d) <= 3 / 2 * (k * norm d) + 2 * z.
Proof. intros K (X & Y). pose proof (sum_norm d) as S. apply (Rmult_le_compat_l k _ _ K) in S. lra. Qed.

Section Close.
  Context (p : Z) (P1 : (1 <= p)%Z) (q : bool) (k z : R) (K0 : 0 <= k <= / 5000) (Z0 : 0 <= z) (D0 D1 D2 E0 E1 E2 : pt) (L : R).
  Context (C0 : close k z D0 E0) (C1 : close k z D1 E1) (C2 : close k z D2 E2) (Q0 : q = true -> E2 = (0, 0)).
  Context (LD : norm D0 + norm D1 + norm D2 <= 3 * L) (LG : gl (fun t => norm (vel q D0 D1 D2 t)) <= (1 + / 1000) * L).
  Definition digit : R := bpow ten (- p).
  Lemma digit_pos : 0 < digit <= / 10.
  Proof. split; [apply bpow_gt_0|]. unfold digit. replace (/ 10) with (bpow ten (-1)) by reflexivity. apply bpow_le. lia. Qed.
  Lemma half_p : half_unit p = 5 * digit.
  Proof. unfold half_unit, digit. rewrite bpow_plus. change (bpow ten 1) with 10. lra. Qed.
  Lemma half_p2 : half_unit (p + 2) = digit / 20.
  Proof. unfold half_unit, digit. replace (- (p + 2) + 1)%Z with (- p + -1)%Z by lia. rewrite bpow_plus. change (bpow ten (-1)) with (/ 10). lra. Qed.
  Lemma L_pos : 0 <= L.
  Proof. pose proof (norm_pos D0). pose proof (norm_pos D1). pose proof (norm_pos D2). lra. Qed.
  Definition gap : R := 9 / 2 * (k * L) + 6 * z.
  Lemma sums : Rabs (fst E0 - fst D0) + Rabs (snd E0 - snd D0) + (Rabs (fst E1 - fst D1) + Rabs (snd E1 - snd D1)) + (Rabs (fst E2 - fst D2) + Rabs (snd E2 - snd D2)) <= gap.
  Proof.
    pose proof (close_sum k z _ _ ltac:(lra) C0). pose proof (close_sum k z _ _ ltac:(lra) C1). pose proof (close_sum k z _ _ ltac:(lra) C2). unfold gap.
    assert (k * (norm D0 + norm D1 + norm D2) <= k * (3 * L)) by (apply Rmult_le_compat_l; lra). lra.
  Qed.
  Lemma vel_close t : 0 <= t <= 1 -> Rabs (norm (vel q E0 E1 E2 t) - norm (vel q D0 D1 D2 t)) <= gap.
  Proof.
    intros T. eapply Rle_trans; [apply norm_sub|]. eapply Rle_trans; [apply norm_le_sum|]. eapply Rle_trans; [|exact sums].
    pose proof (weights 3 ltac:(lia) q t t T T ltac:(rewrite Rminus_eq_0, Rabs_R0; apply Rlt_le, u_pos)) as W.
    unfold vel. destruct (wt q t) as [[a b] c], (wt' 3 q t) as [[a' b'] c']. destruct W as ((A & _) & (B & _) & (C & _)). cbn [vsub fst snd].
    replace (a * fst E0 + b * fst E1 + c * fst E2 - (a * fst D0 + b * fst D1 + c * fst D2)) with (a * (fst E0 - fst D0) + b * (fst E1 - fst D1) + c * (fst E2 - fst D2)) by ring.
    replace (a * snd E0 + b * snd E1 + c * snd E2 - (a * snd D0 + b * snd D1 + c * snd D2)) with (a * (snd E0 - snd D0) + b * (snd E1 - snd D1) + c * (snd E2 - snd D2)) by ring.
    pose proof (Rabs_triang (a * (fst E0 - fst D0) + b * (fst E1 - fst D1)) (c * (fst E2 - fst D2))). pose proof (Rabs_triang (a * (fst E0 - fst D0)) (b * (fst E1 - fst D1))).
    pose proof (Rabs_triang (a * (snd E0 - snd D0) + b * (snd E1 - snd D1)) (c * (snd E2 - snd D2))). pose proof (Rabs_triang (a * (snd E0 - snd D0)) (b * (snd E1 - snd D1))).
    pose proof (share a (fst E0 - fst D0) A). pose proof (share a (snd E0 - snd D0) A). pose proof (share b (fst E1 - fst D1) B). pose proof (share b (snd E1 - snd D1) B). pose proof (share c (fst E2 - fst D2) C). pose proof (share c (snd E2 - snd D2) C). lra.
  Qed.
  Lemma size_close : size E0 E1 E2 <= 9 / 2 * L + gap.
  Proof.
    pose proof sums as S. unfold size. pose proof (sum_norm D0). pose proof (sum_norm D1). pose proof (sum_norm D2).
    assert (T : forall x y, Rabs y <= Rabs x + Rabs (y - x)) by (intros x y; replace y with (x + (y - x)) at 1 by ring; apply Rabs_triang).
    pose proof (T (fst D0) (fst E0)). pose proof (T (fst D1) (fst E1)). pose proof (T (fst D2) (fst E2)). pose proof (T (snd D0) (snd E0)). pose proof (T (snd D1) (snd E1)). pose proof (T (snd D2) (snd E2)). lra.
  Qed.
  Theorem close_length : exists r, decLength p (dcs q E0 E1 E2) (ord q) = Ok r /\
    Rabs (r - gl (fun t => norm (vel q D0 D1 D2 t))) <= (30 * digit + 5 * k) * L + 20 * z.
  Proof.
    destruct (sum_near (p + 2) ltac:(lia) q E0 E1 E2 Q0) as (r0 & E & N). rewrite half_p2 in N.
    exists (drnd p r0). split; [unfold decLength; rewrite E; reflexivity|].
    pose proof (gl_diff _ _ _ vel_close) as G. pose proof tiny_small as T3. pose proof size_close as SC. pose proof digit_pos as (dp & ds). pose proof L_pos as L0.
    assert (R : Rabs (drnd p r0 - r0) <= 5 * digit * Rabs r0). { rewrite <- half_p. apply Relative.relative_error_N_FLX. lia. }
    assert (g0 : 0 <= gl (fun t => norm (vel q D0 D1 D2 t))).
    { replace 0 with (gl (fun _ => 0)); [apply gl_le; intros; apply norm_pos|]. rewrite (gl_ext (fun _ => 0) (fun _ => 0 * 0 + 0 * 0)) by (intros; ring). rewrite gl_lin. ring. }
    set (g := gl (fun t => norm (vel q D0 D1 D2 t))) in *. set (g' := gl (fun t => norm (vel q E0 E1 E2 t))) in *. set (e := digit) in *.
    assert (uL : 0 <= k * L <= / 5000 * L) by (split; [nra | apply Rmult_le_compat_r; lra]).
    assert (Gap : 0 <= gap <= / 1000 * L + 6 * z) by (unfold gap; lra).
    assert (G' : Rabs (g' - g) <= (1 + / 1000) * gap) by (eapply Rle_trans; [exact G|]; rewrite Rmult_comm; apply Rmult_le_compat_r; lra).
    assert (N' : Rabs (r0 - g') <= (13 + / 2) * e * L + 2 * z).
    { eapply Rle_trans; [exact N|]. apply Rle_trans with (59 * (e / 20) * (9 / 2 * L + (/ 1000 * L + 6 * z))); [apply Rmult_le_compat_l; lra|]. assert (0 <= e * L) by nra. assert (0 <= e * z <= / 10 * z) by (split; [nra | apply Rmult_le_compat_r; lra]). lra. }
    assert (D : Rabs (r0 - g) <= (13 + / 2) * e * L + (46 / 10) * (k * L) + 9 * z).
    { replace (r0 - g) with ((r0 - g') + (g' - g)) by ring. eapply Rle_trans; [apply Rabs_triang|]. unfold gap in G'. lra. }
    assert (eL : 0 <= e * L <= / 10 * L) by (split; [nra | apply Rmult_le_compat_r; lra]).
    assert (S0 : Rabs r0 <= (24 / 10) * L + 9 * z).
    { replace r0 with ((r0 - g) + g) by ring. eapply Rle_trans; [apply Rabs_triang|]. rewrite (Rabs_pos_eq g) by exact g0. lra. }
    assert (R' : Rabs (drnd p r0 - r0) <= 12 * (e * L) + 5 * z).
    { eapply Rle_trans; [exact R|]. apply Rle_trans with (5 * e * ((24 / 10) * L + 9 * z)); [apply Rmult_le_compat_l; lra|]. assert (0 <= e * z <= / 10 * z) by (split; [nra | apply Rmult_le_compat_r; lra]). lra. }
    replace (drnd p r0 - g) with ((drnd p r0 - r0) + (r0 - g)) by ring. eapply Rle_trans; [apply Rabs_triang|]. lra.
  Qed.
End Close.

(** ** The curve *)
Lemma poly_pos (l : list pt) : 0 <= polygon_length l.
Proof.
  induction l as [|a [|b l] IH]; [cbn; lra | cbn; lra|]. change (polygon_length (a :: b :: l)) with (vdist a b + polygon_length (b :: l)). pose proof (sqrt_pos (dist2 a b)). unfold vdist at 1. lra.
Qed.
(** Legs that are close to the exact ones. *)
Definition good_legs (k z : R) (b : bezier b64) : Prop := forall c x y, (c = 2 \/ c = 3)%nat -> (exists i, nth_error (cps b) i = Some x /\ nth_error (cps b) (S i) = Some y) ->
  let d := diffStep c x y in fin (fst d) /\ fin (snd d) /\ close k z (vscale (INR c) (vsub (vpt y) (vpt x))) (vpt d).
Theorem length_close (p : Z) (b : bezier b64) (k z : R) : (1 <= p)%Z -> (length (cps b) = 3 \/ length (cps b) = 4)%nat -> 0 <= k <= / 5000 -> 0 <= z -> good_legs k z b ->
  exists r, lengthF p b = Ok r /\
    Rabs (r - gl (fun t => norm (speed_at (map vpt (cps b)) t))) <= (30 * bpow ten (- p) + 5 * k) * polygon_length (map vpt (cps b)) + 20 * z.
Proof.
  intros P1 Len K Z G. destruct b as [c t1 t2]. unfold good_legs in G. cbn [cps] in *.
  assert (NF : forall x : point b64, fin (fst x) -> fin (snd x) -> decPoint x = Ok (vpt x)) by (intros x Fx Fy; unfold decPoint, decOf; unfold fin in *; rewrite Fx, Fy; reflexivity).
  assert (PL : forall l, (length (map vpt c) = 3 \/ length (map vpt c) = 4)%nat -> l = gl (fun t => norm (speed_at (map vpt c) t)) -> l <= (1 + / 1000) * polygon_length (map vpt c)).
  { intros l Lc E. pose proof (length_polygon round15 (mkBez (map vpt c) 0 1) l Lc) as H. specialize (H (eq_trans (quadrature_gl round15 (mkBez (map vpt c) 0 1) Lc) (f_equal Ok (eq_sym E)))). cbn [cps] in H. pose proof tiny_small as T. unfold ProofLength.tiny in *.
    pose proof (poly_pos (map vpt c)). set (k' := / IZR (10 ^ 36)) in *. clearbody k'. nra. }
  destruct c as [|w0 [|w1 [|w2 [|w3 [|p4 r]]]]]; try (simpl in Len; lia).
  - destruct (G 2%nat w0 w1 (or_introl eq_refl) (ex_intro _ 0%nat (conj eq_refl eq_refl))) as (X0 & Y0 & C0). destruct (G 2%nat w1 w2 (or_introl eq_refl) (ex_intro _ 1%nat (conj eq_refl eq_refl))) as (X1 & Y1 & C1).
    unfold lengthF, dcPoints, order. cbn [cps length dcPointsFrom dcLevel firstn mapM]. rewrite !NF by assumption. cbn [bind Nat.sub].
    set (e0 := vpt (diffStep 2 w0 w1)) in *. set (e1 := vpt (diffStep 2 w1 w2)) in *. cbn [map] in *. set (v0 := vpt w0) in *. set (v1 := vpt w1) in *. set (v2 := vpt w2) in *. replace (INR 2) with 2 in * by (simpl; lra).
    assert (V : gl (fun t => norm (vel true (vscale 2 (vsub v1 v0)) (vscale 2 (vsub v2 v1)) (0, 0) t)) = gl (fun t => norm (speed_at [v0; v1; v2] t))).
    { apply gl_ext. intros t. f_equal. unfold vel, wt, speed_at, vadd, vscale. cbn [fst snd]. f_equal; ring. }
    destruct (close_length p P1 true k z K Z (vscale 2 (vsub v1 v0)) (vscale 2 (vsub v2 v1)) (0, 0) e0 e1 (0, 0) (polygon_length [v0; v1; v2]) C0 C1) as (l & El & Nl).
    + split; cbn [fst snd]; rewrite Rminus_0_r, Rabs_R0; lra.
    + reflexivity.
    + cbn [polygon_length]. rewrite !norm_scale, !norm_vdist. rewrite (Rabs_pos_eq 2) by lra. replace (norm (0, 0)) with 0 by (unfold norm, vdot; cbn [fst snd]; rewrite Rmult_0_l, Rplus_0_l, sqrt_0; reflexivity). pose proof (sqrt_pos (dist2 v0 v1)). pose proof (sqrt_pos (dist2 v1 v2)). unfold vdist. lra.
    + rewrite V. apply PL; [left; reflexivity | reflexivity].
    + exists l. split; [exact El|]. rewrite <- V. exact Nl.
  - destruct (G 3%nat w0 w1 (or_intror eq_refl) (ex_intro _ 0%nat (conj eq_refl eq_refl))) as (X0 & Y0 & C0). destruct (G 3%nat w1 w2 (or_intror eq_refl) (ex_intro _ 1%nat (conj eq_refl eq_refl))) as (X1 & Y1 & C1). destruct (G 3%nat w2 w3 (or_intror eq_refl) (ex_intro _ 2%nat (conj eq_refl eq_refl))) as (X2 & Y2 & C2).
    unfold lengthF, dcPoints, order. cbn [cps length dcPointsFrom dcLevel firstn mapM]. rewrite !NF by assumption. cbn [bind Nat.sub].
    set (e0 := vpt (diffStep 3 w0 w1)) in *. set (e1 := vpt (diffStep 3 w1 w2)) in *. set (e2 := vpt (diffStep 3 w2 w3)) in *. cbn [map] in *. set (v0 := vpt w0) in *. set (v1 := vpt w1) in *. set (v2 := vpt w2) in *. set (v3 := vpt w3) in *. replace (INR 3) with 3 in * by (simpl; lra).
    destruct (close_length p P1 false k z K Z (vscale 3 (vsub v1 v0)) (vscale 3 (vsub v2 v1)) (vscale 3 (vsub v3 v2)) e0 e1 e2 (polygon_length [v0; v1; v2; v3]) C0 C1 C2) as (l & El & Nl).
    + discriminate.
    + cbn [polygon_length]. rewrite !norm_scale, !norm_vdist. rewrite (Rabs_pos_eq 3) by lra. lra.
    + apply PL; [right; reflexivity | reflexivity].
    + exists l. split; [exact El | exact Nl].
Qed.
Theorem length_float (p : Z) (b : bezier b64) (M : R) : (1 <= p)%Z -> (length (cps b) = 3 \/ length (cps b) = 4)%nat -> List.Forall (sized M) (cps b) -> M <= 2 ^ 1000 ->
  exists r, lengthF p b = Ok r /\
    Rabs (r - gl (fun t => norm (speed_at (map vpt (cps b)) t))) <= (30 * bpow ten (- p) + 11 * ulp1) * polygon_length (map vpt (cps b)) + 100 * dust.
Proof.
  intros P1 Len S ML. pose proof ulp1_pos as Up. pose proof ulp1_small as Us. pose proof tiny_pos as Tp.
  destruct (length_close p b ((2 + / 100) * ulp1) (5 * dust) P1 Len ltac:(lra) ltac:(lra)) as (r & E & N).
  - intros c x y Hc (i & X & Y). apply nth_error_In in X, Y. rewrite Forall_forall in S. destruct (S _ X) as (Fx & Fy & Bx & By). destruct (S _ Y) as (Gx & Gy & Hx & Hy).
    destruct (leg_double c (fst x) (fst y) M ltac:(lia) Fx Gx Bx Hx ML) as (F1 & E1). destruct (leg_double c (snd x) (snd y) M ltac:(lia) Fy Gy By Hy ML) as (F2 & E2).
    split; [exact F1|]. split; [exact F2|]. split; [exact E1 | exact E2].
  - exists r. split; [exact E|]. eapply Rle_trans; [exact N|]. pose proof (poly_pos (map vpt (cps b))) as L0. pose proof (bpow_gt_0 ten (- p)).
    assert ((30 * bpow ten (- p) + 5 * ((2 + / 100) * ulp1)) * polygon_length (map vpt (cps b)) <= (30 * bpow ten (- p) + 11 * ulp1) * polygon_length (map vpt (cps b))) by (apply Rmult_le_compat_r; lra). lra.
Qed.
Lemma leg_whole (c : nat) (a b : b64) (x y : Z) : (c = 2 \/ c = 3)%nat -> is_int a x -> is_int b y -> (Z.abs x < 2 ^ 50)%Z -> (Z.abs y < 2 ^ 50)%Z ->
  let d := nmul (nofZ (Z.of_nat c)) (nsub b a) in fin d /\ val d = INR c * (val b - val a).
Proof.
  intros C (Fa & Va) (Fb & Vb) X Y d. assert (I : forall z, (Z.abs z < 2 ^ 53)%Z -> fl (IZR z) = IZR z /\ Rabs (fl (IZR z)) < ProofDouble.top).
  { intros z Hz. pose proof (fl_dyadic z 0 Hz ltac:(lia)) as G. change (bpow radix2 0) with 1 in G. rewrite Rmult_1_r in G. split; [exact G|]. rewrite G, <- abs_IZR. unfold ProofDouble.top.
    apply Rlt_trans with (IZR (2 ^ 53)); [apply IZR_lt; exact Hz|]. change (2 ^ 53)%Z with (radix2 ^ 53)%Z. rewrite IZR_Zpower by lia. apply bpow_lt. reflexivity. }
  destruct (I (y - x)%Z ltac:(lia)) as (I1 & I2). rewrite minus_IZR in I1, I2. destruct (minus_fl b a Fb Fa) as (F1 & V1); [rewrite Va, Vb; exact I2|]. rewrite Va, Vb, I1 in V1.
  destruct (val_int (Z.of_nat c) ltac:(lia)) as (Fc & Vc). destruct (I (Z.of_nat c * (y - x))%Z ltac:(nia)) as (I3 & I4). rewrite mult_IZR, minus_IZR in I3, I4.
  destruct (mult_fl (bofZ (Z.of_nat c)) (nsub b a) Fc F1) as (F2 & V2); [rewrite Vc, V1; exact I4|]. rewrite Vc, V1, I3 in V2. split; [exact F2|]. rewrite Va, Vb, INR_IZR_INZ. exact V2.
Qed.
Theorem length_whole (p : Z) (b : bezier b64) (zs : list (Z * Z)) : (1 <= p)%Z -> (length (cps b) = 3 \/ length (cps b) = 4)%nat -> Forall2 int_pt (cps b) zs ->
  List.Forall (fun z => (Z.abs (fst z) < 2 ^ 50)%Z /\ (Z.abs (snd z) < 2 ^ 50)%Z) zs ->
  exists r, lengthF p b = Ok r /\ Rabs (r - gl (fun t => norm (speed_at (map vpt (cps b)) t))) <= 30 * bpow ten (- p) * polygon_length (map vpt (cps b)).
Proof.
  intros P1 Len I B. destruct (length_close p b 0 0 P1 Len ltac:(lra) ltac:(lra)) as (r & E & N); [|exists r; split; [exact E|]; eapply Rle_trans; [exact N|]; lra].
  intros c x y Hc (i & X & Y). assert (H : forall x, In x (cps b) -> exists z, int_pt x z /\ (Z.abs (fst z) < 2 ^ 50)%Z /\ (Z.abs (snd z) < 2 ^ 50)%Z).
  { clear - I B. induction I as [|x z l l' I1 I2 IH]; intros w W; [destruct W|]. apply Forall_cons_iff in B as (B1 & B2). destruct W as [<-|W]; [eauto | now apply IH]. }
  apply nth_error_In in X, Y. destruct (H _ X) as (zx & (I1 & I2) & B1 & B2). destruct (H _ Y) as (zy & (I3 & I4) & B3 & B4).
  destruct (leg_whole c _ _ _ _ Hc I1 I3 B1 B3) as (F1 & V1). destruct (leg_whole c _ _ _ _ Hc I2 I4 B2 B4) as (F2 & V2).
  split; [exact F1|]. split; [exact F2|]. unfold close, vpt, vscale, vsub, diffStep. cbn [fst snd]. rewrite V1, V2. rewrite !Rminus_eq_0, Rabs_R0. lra.
Qed.
Theorem length_float_line (p : Z) (b : bezier b64) M : length (cps b) = 2%nat -> List.Forall (sized M) (cps b) -> M <= 2 ^ 1000 -> lengthF p b = Err IndexError.
Proof.
  intros Len S ML. destruct b as [c t1 t2]. cbn [cps] in *. destruct c as [|[x0 y0] [|[x1 y1] [|p2 r]]]; try (simpl in Len; lia).
  apply Forall_cons_iff in S as [(Fx0 & Fy0 & Bx0 & By0) S]. apply Forall_cons_iff in S as [(Fx1 & Fy1 & Bx1 & By1) _]. cbn [fst snd] in *.
  destruct (leg_double 1 x0 x1 M ltac:(lia) Fx0 Fx1 Bx0 Bx1 ML) as (GX0 & _). destruct (leg_double 1 y0 y1 M ltac:(lia) Fy0 Fy1 By0 By1 ML) as (GY0 & _).
  unfold lengthF, dcPoints, order. cbn [cps length dcPointsFrom dcLevel firstn mapM]. unfold diffStep at 1. cbn [fst snd]. unfold decPoint, decOf; cbn [fst snd]. unfold fin in *. rewrite GX0, GY0. reflexivity.
Qed.
