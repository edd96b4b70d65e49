(** Proofs about generated colours in double precision: hues that are not whole. *)
From Coq Require Import List ZArith Bool Reals Lra Lia Psatz.
From Flocq Require Import Core BinarySingleNaN.
From Verif Require Import Py InstFloat SpecDouble SpecColorFloat MColor MColorFloat ProofDouble ProofDouble2 ProofDouble3 ProofDouble4 ProofDouble9 ProofColorFloat.
Import ListNotations.
Local Open Scope R_scope.
#[local] Existing Instance InstFloat.prec_gt_0.
#[local] Existing Instance InstFloat.prec_lt_emax.

(** ** The colour wheel: one channel as a function of the hue, in turns *)
Definition trap (x : R) : R := / 4 + / 2 * Rmax 0 (Rmin (6 * x) (Rmin 1 (4 - 6 * x))).
Definition frac (x : R) : R := x - IZR (Zfloor x).
Definition wheel (x : R) : R := trap (frac x).
Ltac mm := repeat match goal with
  | |- context [Rmin ?a ?b] => lazymatch constr:((a, b)) with context [Rmin _ _] => fail | context [Rmax _ _] => fail | _ => idtac end;
      destruct (Rle_lt_dec a b); [rewrite (Rmin_left a b) by lra | rewrite (Rmin_right a b) by lra]
  | |- context [Rmax ?a ?b] => lazymatch constr:((a, b)) with context [Rmin _ _] => fail | context [Rmax _ _] => fail | _ => idtac end;
      destruct (Rle_lt_dec a b); [rewrite (Rmax_right a b) by lra | rewrite (Rmax_left a b) by lra]
  end.
Lemma frac_range x : 0 <= frac x < 1.
Proof. unfold frac. pose proof (Zfloor_lb x). pose proof (Zfloor_ub x). lra. Qed.
Lemma frac_is x z : IZR z <= x < IZR z + 1 -> frac x = x - IZR z.
Proof. intros H. unfold frac. now rewrite (Zfloor_imp z x) by (rewrite plus_IZR; exact H). Qed.
Lemma trap_range x : / 4 <= trap x <= 3 / 4. Proof. unfold trap. mm; lra. Qed.
Lemma trap_lip x y : Rabs (trap x - trap y) <= 3 * Rabs (x - y).
Proof. unfold trap. mm; unfold Rabs; repeat destruct Rcase_abs; lra. Qed.
Lemma wheel_lip1 x y : x <= y -> Rabs (wheel x - wheel y) <= 3 * (y - x).
Proof.
  intros L. destruct (Rle_lt_dec (/ 6) (y - x)) as [B|B].
  - unfold wheel. pose proof (trap_range (frac x)). pose proof (trap_range (frac y)). apply Rabs_le. lra.
  - pose proof (frac_range x) as Fx. pose proof (Zfloor_lb x) as Lb. pose proof (Zfloor_ub x) as Ub.
    destruct (Rlt_le_dec y (IZR (Zfloor x) + 1)) as [S|S].
    + assert (E : frac y = frac x + (y - x)) by (rewrite (frac_is y (Zfloor x)) by lra; unfold frac; ring).
      unfold wheel. eapply Rle_trans; [apply trap_lip|]. rewrite E. replace (frac x - (frac x + (y - x))) with (- (y - x)) by ring.
      rewrite Rabs_Ropp, Rabs_pos_eq; lra.
    + assert (E : frac y = frac x + (y - x) - 1).
      { rewrite (frac_is y (Zfloor x + 1)) by (rewrite plus_IZR; lra). unfold frac. rewrite plus_IZR. ring. }
      pose proof (frac_range y). assert (X : wheel x = / 4) by (unfold wheel, trap; mm; lra). rewrite X.
      assert (/ 4 <= wheel y <= / 4 + 3 * frac y) by (unfold wheel, trap; mm; lra). apply Rabs_le. lra.
Qed.
Lemma wheel_lip x y : Rabs (wheel x - wheel y) <= 3 * Rabs (x - y).
Proof.
  destruct (Rle_lt_dec x y) as [L|L].
  - eapply Rle_trans; [apply (wheel_lip1 x y L)|]. rewrite Rabs_minus_sym, Rabs_pos_eq; lra.
  - rewrite Rabs_minus_sym. eapply Rle_trans; [apply (wheel_lip1 y x); lra|]. rewrite Rabs_pos_eq; lra.
Qed.
Lemma wheel_turn x : wheel (x + 1) = wheel x.
Proof.
  unfold wheel. f_equal. rewrite (frac_is (x + 1) (Zfloor x + 1)).
  - unfold frac. rewrite plus_IZR. ring.
  - rewrite plus_IZR. pose proof (Zfloor_lb x). pose proof (Zfloor_ub x). lra.
Qed.
Lemma css_wheel h n : css_channelR h (/ 2) (/ 2) n = wheel (h / 360 + n / 12 + / 3).
Proof.
  unfold css_channelR, remainderR. set (z := h / 360 + n / 12).
  replace ((n + h / 30) / 12) with z by (unfold z; field). replace (n + h / 30) with (12 * z) by (unfold z; field).
  cbv zeta. replace (12 * z - 12 * IZR (Zfloor z)) with (12 * frac z) by (unfold frac; ring).
  pose proof (frac_range z) as F. pose proof (Zfloor_lb z). pose proof (Zfloor_ub z).
  replace (Rmin (/ 2) (1 - / 2)) with (/ 2) by (mm; lra). unfold wheel. destruct (Rlt_le_dec (frac z) (2 / 3)) as [S|S].
  - rewrite (frac_is (z + / 3) (Zfloor z)) by (unfold frac in *; lra). replace (z + / 3 - IZR (Zfloor z)) with (frac z + / 3) by (unfold frac; ring).
    generalize dependent (frac z). intros f F S. unfold trap. mm; lra.
  - rewrite (frac_is (z + / 3) (Zfloor z + 1)) by (rewrite plus_IZR; unfold frac in *; lra).
    replace (z + / 3 - IZR (Zfloor z + 1)) with (frac z - 2 / 3) by (rewrite plus_IZR; unfold frac; field).
    generalize dependent (frac z). intros f F S. unfold trap. mm; lra.
Qed.

(** ** Numbers near a given real *)
Definition u15 : R := / 1000000000000000.
Lemma op_err x B : Rabs x <= B -> 1 <= B -> Rabs (fl x - x) <= B * u15.
Proof.
  intros H L. eapply Rle_trans; [apply (fl_bound x B H)|]. rewrite ulp_num. unfold u15.
  assert (tiny <= / 1152921504606846976).
  { unfold tiny. replace 1152921504606846976 with (2 ^ 60) by ring. apply Rinv_le_contravar; [apply pow_lt; lra | apply Rle_pow; [lra | lia]]. }
  lra.
Qed.
Lemma op_top x B : Rabs x <= B -> B <= 1000 -> Rabs (fl x) < ProofDouble.top.
Proof.
  intros H L. apply fl_size in H. pose proof top_1000000. pose proof ulp1_small. pose proof tiny_small. pose proof ulp1_pos. lra.
Qed.
Definition ap (x : b64) (r e : R) : Prop := fin x /\ Rabs (val x - r) <= e.
Ltac abs := repeat match goal with
  | H : Rabs _ <= _ |- _ => apply Rabs_le_inv in H
  end.
Lemma ap_le x r e f : ap x r e -> e <= f -> ap x r f. Proof. intros (F & H) L. split; [exact F | lra]. Qed.
Lemma ap_add x y r s e f B : ap x r e -> ap y s f -> Rabs (r + s) + e + f <= B -> 1 <= B <= 1000 -> ap (nadd x y) (r + s) (e + f + B * u15).
Proof.
  intros (Fx & Hx) (Fy & Hy) HB Bs.
  assert (V : Rabs (val x + val y) <= B).
  { replace (val x + val y) with ((r + s) + ((val x - r) + (val y - s))) by ring. eapply Rle_trans; [apply Rabs_triang|].
    pose proof (Rabs_triang (val x - r) (val y - s)). lra. }
  destruct (plus_fl x y Fx Fy (op_top _ B V (proj2 Bs))) as (Fz & Vz). split; [exact Fz|]. rewrite Vz.
  pose proof (op_err _ B V (proj1 Bs)) as E. abs. apply Rabs_le. lra.
Qed.
Lemma ap_sub x y r s e f B : ap x r e -> ap y s f -> Rabs (r - s) + e + f <= B -> 1 <= B <= 1000 -> ap (nsub x y) (r - s) (e + f + B * u15).
Proof.
  intros (Fx & Hx) (Fy & Hy) HB Bs.
  assert (V : Rabs (val x - val y) <= B).
  { pose proof (Rle_abs (r - s)). pose proof (Rle_abs (- (r - s))) as N. rewrite Rabs_Ropp in N. abs. apply Rabs_le. lra. }
  destruct (minus_fl x y Fx Fy (op_top _ B V (proj2 Bs))) as (Fz & Vz). split; [exact Fz|]. rewrite Vz.
  pose proof (op_err _ B V (proj1 Bs)) as E. abs. apply Rabs_le. lra.
Qed.
Lemma ap_scale x y r k e B : ap x r e -> fin y -> val y = k -> Rabs k * (Rabs r + e) <= B -> 1 <= B <= 1000 -> ap (nmul x y) (r * k) (Rabs k * e + B * u15).
Proof.
  intros (Fx & Hx) Fy Vy HB Bs.
  assert (V : Rabs (val x * val y) <= B).
  { rewrite Rabs_mult, Vy, Rmult_comm. eapply Rle_trans; [apply Rmult_le_compat_l; [apply Rabs_pos|] | exact HB].
    replace (val x) with (r + (val x - r)) by ring. eapply Rle_trans; [apply Rabs_triang|]. lra. }
  destruct (mult_fl x y Fx Fy (op_top _ B V (proj2 Bs))) as (Fz & Vz). split; [exact Fz|]. rewrite Vz.
  pose proof (op_err _ B V (proj1 Bs)) as E.
  assert (Rabs (val x * val y - r * k) <= Rabs k * e).
  { rewrite Vy. replace (val x * k - r * k) with (k * (val x - r)) by ring. rewrite Rabs_mult. apply Rmult_le_compat_l; [apply Rabs_pos | exact Hx]. }
  abs. apply Rabs_le. lra.
Qed.
Lemma ap_exact x r : fin x -> val x = r -> ap x r 0.
Proof. intros F V. split; [exact F|]. rewrite V, Rminus_diag_eq by reflexivity. rewrite Rabs_R0. lra. Qed.
Lemma ap_int z : (Z.abs z < 2 ^ 53)%Z -> ap (nofZ z) (IZR z) 0.
Proof. intros H. destruct (val_int z H) as (F & V). now apply ap_exact. Qed.
Lemma ap_quot p q : (Z.abs p < 2 ^ 53)%Z -> (0 < q < 2 ^ 53)%Z -> Rabs (IZR p / IZR q) <= 1 -> ap (nquot (nofZ p) (nofZ q)) (IZR p / IZR q) u15.
Proof.
  intros Hp Hq L. destruct (val_int p Hp) as (Fp & Vp). destruct (val_int q ltac:(lia)) as (Fq & Vq).
  assert (0 < IZR q) by (apply IZR_lt; lia).
  destruct (div_fl (bofZ p) (bofZ q) Fp) as (F & V).
  - rewrite Vq. lra.
  - rewrite Vp, Vq. apply (op_top _ 1); lra.
  - split; [exact F|]. change (val (nquot (bofZ p) (bofZ q)) - IZR p / IZR q) with (val (nquot (bofZ p) (bofZ q)) - IZR p / IZR q). 
    change (nofZ p : b64) with (bofZ p). change (nofZ q : b64) with (bofZ q). rewrite V, Vp, Vq.
    pose proof (op_err _ 1 L ltac:(lra)). lra.
Qed.
Lemma ap_third : ap one_third (/ 3) u15.
Proof. replace (/ 3) with (1 / 3) by field. apply ap_quot; [lia | lia |]. rewrite Rabs_pos_eq; lra. Qed.
Lemma ap_sixth : ap one_sixth (/ 6) u15.
Proof. replace (/ 6) with (1 / 6) by field. apply ap_quot; [lia | lia |]. rewrite Rabs_pos_eq; lra. Qed.
Lemma ap_twothird : ap two_third (2 / 3) u15.
Proof. apply ap_quot; [lia | lia |]. rewrite Rabs_pos_eq; lra. Qed.
Lemma half_is : fin half /\ val half = / 2. Proof. exact half_val. Qed.
Lemma u15_pos : 0 < u15. Proof. unfold u15. lra. Qed.

(** ** One channel *)
Lemma frac_rem x : remainderR x 1 = frac x.
Proof. unfold remainderR, frac. replace (x / 1) with x by field. ring. Qed.
Lemma mod1 (x : b64) : fin x -> let u := pymod x (nofZ 1) in fin u /\ 0 <= val u <= 1 /\ Rabs (val u - frac (val x)) <= u15.
Proof.
  intros Fx u. destruct (ap_int 1 ltac:(lia)) as (F1 & _). assert (V1 : val (nofZ 1 : b64) = 1) by exact (proj2 (val_int 1 ltac:(lia))).
  destruct (pymod_val x (nofZ 1) Fx F1 ltac:(rewrite V1; lra)) as (F & V). fold u in F, V. rewrite V1, frac_rem in V.
  pose proof (frac_range (val x)) as R. split; [exact F|]. rewrite V. split.
  - split; [rewrite <- fl0; apply fl_mono; lra | apply Rle_trans with (fl 1); [apply fl_mono; lra | rewrite <- V1, fl_val; lra]].
  - pose proof (op_err (frac (val x)) 1 ltac:(rewrite Rabs_pos_eq; lra) ltac:(lra)). lra.
Qed.
Lemma channel_ap (m1 m2 x : b64) : fin m1 -> val m1 = / 4 -> fin m2 -> val m2 = 3 / 4 -> fin x -> ap (fhls_v m1 m2 x) (wheel (val x)) (100 * u15).
Proof.
  intros F1 V1 F2 V2 Fx. destruct (mod1 x Fx) as (Fu & Ru & Hu). unfold fhls_v. cbv zeta. set (u := pymod x (nofZ 1)) in *. clearbody u.
  assert (W : Rabs (trap (val u) - wheel (val x)) <= 3 * u15).
  { eapply Rle_trans; [apply trap_lip|]. lra. }
  set (w := wheel (val x)) in *. clearbody w. clear Hu.
  destruct ap_sixth as (F6 & H6). destruct ap_twothird as (F3 & H3). destruct half_is as (Fh & Vh).
  assert (D : ap (nsub m2 m1) (/ 2) 0).
  { destruct (minus_fl m2 m1 F2 F1) as (F & V).
    - rewrite V1, V2. apply (op_top _ 1); [rewrite Rabs_pos_eq; lra | lra].
    - apply ap_exact; [exact F|]. rewrite V, V1, V2. replace (3 / 4 - / 4) with (/ 2) by field. rewrite <- Vh. apply fl_val. }
  assert (Q1 : ap m1 (/ 4) 0) by (apply ap_exact; assumption).
  assert (S6 : fin (nofZ 6 : b64) /\ val (nofZ 6 : b64) = 6) by exact (val_int 6 ltac:(lia)). destruct S6 as (G6 & W6).
  assert (Hop : forall (v : b64) (r e : R), ap v r e -> Rabs r <= 3 / 4 -> 0 <= e <= 2 * u15 -> ap (nadd m1 (nmul (nmul (nsub m2 m1) v) (nofZ 6))) (/ 4 + / 2 * r * 6) (30 * u15)).
  { intros v r e A Lr Le. pose proof u15_pos as U. assert (u15 <= / 1000) by (unfold u15; lra). clear - A Lr Le U H D Q1 G6 W6 F1 F2.
    destruct A as (Fv & Hv). destruct D as (FD & HD).
    assert (VD : val (nsub m2 m1) = / 2). { apply Rabs_le_inv in HD. lra. }
    assert (P1 : ap (nmul (nsub m2 m1) v) (/ 2 * r) (3 * u15)).
    { assert (Lv : Rabs (val (nsub m2 m1) * val v) <= 1). { rewrite VD. apply Rabs_le_inv in Hv, Lr. apply Rabs_le. lra. }
      destruct (mult_fl (nsub m2 m1) v FD Fv (op_top _ 1 Lv ltac:(lra))) as (F & V). split; [exact F|]. rewrite V.
      pose proof (op_err _ 1 Lv ltac:(lra)) as E. rewrite VD in *. abs. apply Rabs_le. lra. }
    assert (P2 : ap (nmul (nmul (nsub m2 m1) v) (nofZ 6)) (/ 2 * r * 6) (23 * u15)).
    { eapply ap_le; [apply (ap_scale _ (nofZ 6) _ 6 _ 5 P1 G6 W6); [|lra] |].
      - rewrite (Rabs_pos_eq 6) by lra. rewrite Rabs_mult, (Rabs_pos_eq (/ 2)) by lra. lra.
      - rewrite (Rabs_pos_eq 6) by lra. lra. }
    eapply ap_le; [apply (ap_add _ _ _ _ _ _ 5 Q1 P2); [|lra] | lra].
    abs. assert (Rabs (/ 4 + / 2 * r * 6) <= 3) by (apply Rabs_le; lra). lra. }
  assert (Apu : ap u (val u) 0) by (apply ap_exact; [exact Fu | reflexivity]).
  pose proof u15_pos as U. assert (u15 <= / 1000) by (unfold u15; lra).
  destruct (nltb u one_sixth) eqn:C1.
  - apply (ltb_val u one_sixth Fu F6) in C1. destruct (Hop u (val u) 0 Apu) as (F & V); [abs; apply Rabs_le; lra | lra |].
    split; [exact F|]. assert (Rabs (/ 4 + / 2 * val u * 6 - trap (val u)) <= 6 * u15).
    { abs. apply Rabs_le. unfold trap. clear - C1 H6 Ru U H. mm; lra. }
    abs. apply Rabs_le. lra.
  - apply (ltb_val_false u one_sixth Fu F6) in C1. destruct (nltb u half) eqn:C2.
    + apply (ltb_val u half Fu Fh) in C2. split; [exact F2|]. rewrite V2.
      assert (Rabs (3 / 4 - trap (val u)) <= 6 * u15).
      { abs. apply Rabs_le. unfold trap. clear - C1 C2 Vh H6 Ru U H. mm; lra. }
      abs. apply Rabs_le. lra.
    + apply (ltb_val_false u half Fu Fh) in C2. destruct (nltb u two_third) eqn:C3.
      * apply (ltb_val u two_third Fu F3) in C3.
        assert (A : ap (nsub two_third u) (2 / 3 - val u) (2 * u15)).
        { eapply ap_le; [apply (ap_sub two_third u (2 / 3) (val u) u15 0 1); [split; assumption | exact Apu | | lra] | lra].
          abs. assert (Rabs (2 / 3 - val u) <= / 2) by (apply Rabs_le; lra). lra. }
        destruct (Hop _ _ _ A) as (F & V); [abs; apply Rabs_le; lra | lra |]. split; [exact F|].
        assert (Rabs (/ 4 + / 2 * (2 / 3 - val u) * 6 - trap (val u)) <= 6 * u15).
        { abs. apply Rabs_le. unfold trap. clear - C2 C3 H3 Vh Ru U H. mm; lra. }
        abs. apply Rabs_le. lra.
      * apply (ltb_val_false u two_third Fu F3) in C3. split; [exact F1|]. rewrite V1.
        assert (Rabs (/ 4 - trap (val u)) <= 6 * u15).
        { abs. apply Rabs_le. unfold trap. clear - C3 H3 Ru U H. mm; lra. }
        abs. apply Rabs_le. lra.
Qed.

(** ** A colour *)
Lemma fifty : dy 1 (nquot (nofZ 50) (nofZ 100)) 1.
Proof.
  destruct (val_int 50 ltac:(lia)) as (F5 & V5). destruct (val_int 100 ltac:(lia)) as (F1 & V1).
  destruct half_is as (Fh & Vh). assert (E : IZR 50 / IZR 100 = val half) by (rewrite Vh; field).
  destruct (div_fl (bofZ 50) (bofZ 100) F5) as (F & V).
  - rewrite V1. lra.
  - rewrite V5, V1. apply (op_top _ 1); [rewrite Rabs_pos_eq; lra | lra].
  - split; [exact F|]. change (nofZ 50 : b64) with (bofZ 50). change (nofZ 100 : b64) with (bofZ 100). rewrite V, V5, V1, E, fl_val, Vh. lra.
Qed.
Lemma levels : exists m1 m2 : b64, fin m1 /\ val m1 = / 4 /\ fin m2 /\ val m2 = 3 / 4 /\
  forall h : b64, fhls_to_rgb h (nquot (nofZ 50) (nofZ 100)) (nquot (nofZ 50) (nofZ 100)) =
    (fhls_v m1 m2 (nadd h one_third), fhls_v m1 m2 h, fhls_v m1 m2 (nsub h one_third)).
Proof.
  pose proof fifty as L. unfold fhls_to_rgb. set (l := nquot (nofZ 50) (nofZ 100) : b64) in *.
  assert (Vl : val l = / 2) by (rewrite (proj2 L); lra).
  exists (nsub (nmul (nofZ 2) l) (nmul l (nadd (nofZ 1) l))), (nmul l (nadd (nofZ 1) l)).
  assert (D1 : dy 1 (nofZ 1) 2) by (apply (dy_up 0 _ 1), dy_int, int_lit; lia).
  assert (D2 : dy (1 + 1) (nmul l (nadd (nofZ 1) l)) (1 * (2 + 1))) by (apply dy_mul; [exact L | apply dy_add; [exact D1 | exact L | lia | lia] | lia | lia]).
  assert (D3 : dy 1 (nmul (nofZ 2) l) 2) by (apply (dy_mul 0 1 (nofZ 2) l 2 1); [apply dy_int, int_lit; lia | exact L | lia | lia]).
  assert (D4 : dy (1 + 1) (nsub (nmul (nofZ 2) l) (nmul l (nadd (nofZ 1) l))) (2 * 2 - 1 * (2 + 1))).
  { apply dy_sub; [apply (dy_up 1 _ 2), D3 | exact D2 | lia | lia]. }
  destruct D2 as (F2 & V2). destruct D4 as (F4 & V4). split; [exact F4|]. split; [rewrite V4; change (2 * 2 - 1 * (2 + 1))%Z with 1%Z; cbn [Nat.add pow]; lra|].
  split; [exact F2|]. split; [rewrite V2; change (1 * (2 + 1))%Z with 3%Z; cbn [Nat.add pow]; lra|]. intros h.
  assert (F0 : fin (nofZ 0 : b64)) by reflexivity. assert (V0 : val (nofZ 0 : b64) = 0) by reflexivity.
  rewrite (neqb_val l (nofZ 0) (proj1 L) F0) by (rewrite Vl, V0; lra).
  assert (nleb l half = true) as -> by (vm_compute; reflexivity). reflexivity.
Qed.
Lemma scaled_round (c : b64) (w : R) : ap c w (200 * u15) -> / 4 <= w <= 3 / 4 ->
  exists z, fround (nmul c (nofZ 255)) = Ok z /\ Rabs (IZR z - 255 * w) <= / 2 + 60000 * u15.
Proof.
  intros A Hw. destruct (val_int 255 ltac:(lia)) as (F & V).
  assert (U : 0 < u15 <= / 1000000) by (unfold u15; lra).
  change (nofZ 255 : b64) with (bofZ 255). destruct (ap_scale c (bofZ 255) w 255 _ 250 A F V) as (Fm & Hm).
  - rewrite (Rabs_pos_eq 255), (Rabs_pos_eq w) by lra. lra.
  - lra.
  - destruct (fround_val _ Fm) as (z & E & Hz). exists z. split; [exact E|]. rewrite (Rabs_pos_eq 255) in Hm by lra. abs. apply Rabs_le. lra.
Qed.
Lemma hueColor_near (q : b64) : fin q -> 0 <= val q <= 1 -> exists r g b, hueColor q = Ok (r, g, b) /\
  Rabs (IZR r - 255 * wheel (val q + / 3)) <= / 2 + 60000 * u15 /\ Rabs (IZR g - 255 * wheel (val q)) <= / 2 + 60000 * u15 /\
  Rabs (IZR b - 255 * wheel (val q - / 3)) <= / 2 + 60000 * u15.
Proof.
  intros Fq Hq. destruct levels as (m1 & m2 & F1 & V1 & F2 & V2 & E). unfold hueColor. rewrite E. clear E.
  assert (U : 0 < u15 <= / 1000000) by (unfold u15; lra).
  assert (Aq : ap q (val q) 0) by (apply ap_exact; [exact Fq | reflexivity]).
  assert (A1 : ap (nadd q one_third) (val q + / 3) (3 * u15)).
  { eapply ap_le; [apply (ap_add _ _ _ _ _ _ 2 Aq ap_third); [rewrite Rabs_pos_eq; lra | lra] | lra]. }
  assert (A2 : ap (nsub q one_third) (val q - / 3) (3 * u15)).
  { eapply ap_le; [apply (ap_sub _ _ _ _ _ _ 2 Aq ap_third); [|lra] | lra]. assert (Rabs (val q - / 3) <= 1) by (apply Rabs_le; lra). lra. }
  assert (G : forall x r e, ap x r e -> e <= 3 * u15 -> ap (fhls_v m1 m2 x) (wheel r) (200 * u15)).
  { intros x r e (Fx & Hx) Le. destruct (channel_ap m1 m2 x F1 V1 F2 V2 Fx) as (Fc & Hc). split; [exact Fc|].
    pose proof (wheel_lip (val x) r) as W. assert (Rabs (wheel (val x) - wheel r) <= 9 * u15) by lra. clear W Hx. abs. apply Rabs_le. lra. }
  destruct (scaled_round _ _ (G _ _ _ A1 ltac:(lra)) (trap_range _)) as (r & -> & Hr).
  destruct (scaled_round _ _ (G _ _ _ Aq ltac:(lra)) (trap_range _)) as (g & -> & Hg).
  destruct (scaled_round _ _ (G _ _ _ A2 ltac:(lra)) (trap_range _)) as (b & -> & Hb).
  exists r, g, b. split; [reflexivity|]. repeat split; assumption.
Qed.

(** ** The next hue *)
Lemma add_small_top (x : b64) (d : R) : Rabs d <= 100 -> Rabs (fl (val x + d)) < ProofDouble.top.
Proof.
  intros Hd. pose proof (generic_format_B2R prec emax x) as Gx.
  destruct (round_N_pt radix2 (SpecFloat.fexp prec emax) (fun z => negb (Z.even z)) (val x + d)) as (_ & N).
  specialize (N (val x) Gx). replace (val x - (val x + d)) with (- d) in N by ring. rewrite Rabs_Ropp in N.
  change (round radix2 (SpecFloat.fexp prec emax) (Znearest (fun z : Z => negb (Z.even z))) (val x + d)) with (fl (val x + d)) in N.
  assert (B : Rabs (val x) <= ProofDouble.top - bpow radix2 971) by exact (abs_B2R_le_emax_minus_prec prec emax prec_gt_0 x).
  assert (1000 <= bpow radix2 971).
  { apply Rle_trans with (bpow radix2 10); [cbn; lra | apply bpow_le; lia]. }
  replace (fl (val x + d)) with ((fl (val x + d) - (val x + d)) + (val x + d)) by ring.
  eapply Rle_lt_trans; [apply Rabs_triang|]. pose proof (Rabs_triang (val x) d). lra.
Qed.
Theorem float_hue (h : b64) : fin h -> exists h' r g b, randomHSLColorF h = (h', Ok (r, g, b)) /\
  fin h' /\ 0 <= val h' <= 360 /\ (exists k, Rabs (val h' - (val h + 73 - 360 * IZR k)) <= ulp1 * (Rabs (val h) + 434) + 2 * tiny) /\
  Rabs (IZR r - 255 * css_channelR (val h') (/ 2) (/ 2) 0) <= / 2 + / 10 ^ 9 /\
  Rabs (IZR g - 255 * css_channelR (val h') (/ 2) (/ 2) 8) <= / 2 + / 10 ^ 9 /\
  Rabs (IZR b - 255 * css_channelR (val h') (/ 2) (/ 2) 4) <= / 2 + / 10 ^ 9.
Proof.
  intros Fh. destruct (val_int 73 ltac:(lia)) as (F73 & V73). destruct (val_int 360 ltac:(lia)) as (F36 & V36).
  assert (T : Rabs (fl (val h + val (bofZ 73))) < ProofDouble.top) by (apply add_small_top; rewrite V73, Rabs_pos_eq; lra).
  destruct (plus_fl h (bofZ 73) Fh F73 T) as (Fs & Vs). rewrite V73 in Vs.
  unfold randomHSLColorF. change (nofZ 73 : b64) with (bofZ 73). change (nofZ 360 : b64) with (bofZ 360).
  set (s := nadd h (bofZ 73)) in *. clearbody s. clear T.
  destruct (pymod_val s (bofZ 360) Fs F36 ltac:(rewrite V36; lra)) as (Fm & Vm). rewrite V36 in Vm. set (m := pymod s (bofZ 360)) in *. clearbody m.
  assert (R0 : 0 <= remainderR (val s) 360 < 360).
  { unfold remainderR. pose proof (Zfloor_lb (val s / 360)). pose proof (Zfloor_ub (val s / 360)). split; lra. }
  assert (Rm : 0 <= val m <= 360).
  { rewrite Vm. split; [rewrite <- fl0; apply fl_mono; lra | apply Rle_trans with (fl 360); [apply fl_mono; lra | rewrite <- V36, fl_val; lra]]. }
  assert (Q : fin (nquot m (bofZ 360)) /\ val (nquot m (bofZ 360)) = fl (val m / 360)).
  { rewrite <- V36. apply div_fl; [exact Fm | rewrite V36; lra |]. rewrite V36. apply (op_top _ 1); [rewrite Rabs_pos_eq; lra | lra]. }
  destruct Q as (Fq & Vq).
  assert (Eq : Rabs (val (nquot m (bofZ 360)) - val m / 360) <= u15).
  { rewrite Vq. pose proof (op_err (val m / 360) 1 ltac:(rewrite Rabs_pos_eq; lra) ltac:(lra)). lra. }
  assert (Rq : 0 <= val (nquot m (bofZ 360)) <= 1).
  { rewrite Vq. destruct (val_int 1 ltac:(lia)) as (_ & V1). split; [rewrite <- fl0; apply fl_mono; lra | apply Rle_trans with (fl 1); [apply fl_mono; lra | rewrite <- V1, fl_val; lra]]. }
  destruct (hueColor_near _ Fq Rq) as (r & g & b & E & Hr & Hg & Hb). cbv zeta. rewrite E. set (q := val (nquot m (bofZ 360))) in *. clearbody q.
  exists m, r, g, b. split; [reflexivity|]. split; [exact Fm|]. split; [exact Rm|].
  assert (L : forall z x y, Rabs (IZR z - 255 * wheel x) <= / 2 + 60000 * u15 -> Rabs (x - y) <= u15 -> Rabs (IZR z - 255 * wheel y) <= / 2 + / 10 ^ 9).
  { intros z x y Hz Hx. pose proof (wheel_lip x y) as W. assert (W2 : Rabs (wheel x - wheel y) <= 3 * u15) by lra. clear W Hx. abs. apply Rabs_le. unfold u15 in *. lra. }
  split.
  { exists (Zfloor (val s / 360)). fold (val h). assert (E1 : Rabs (val s - (val h + 73)) <= ulp1 * (Rabs (val h) + 73) + tiny).
    { rewrite Vs. apply fl_bound. eapply Rle_trans; [apply Rabs_triang|]. rewrite (Rabs_pos_eq 73); lra. }
    assert (E2 : Rabs (val m - remainderR (val s) 360) <= ulp1 * 360 + tiny) by (rewrite Vm; apply fl_bound; rewrite Rabs_pos_eq; lra).
    unfold remainderR in E2. set (k := IZR (Zfloor (val s / 360))) in *. pose proof ulp1_pos. pose proof tiny_pos. set (a := Rabs (val h)) in *.
    abs. apply Rabs_le. lra. }
  rewrite !css_wheel. split; [|split].
  - apply (L _ _ _ Hr). replace (q + / 3 - (val m / 360 + 0 / 12 + / 3)) with (q - val m / 360) by field. exact Eq.
  - replace (val m / 360 + 8 / 12 + / 3) with (val m / 360 + 1) by field. rewrite wheel_turn. apply (L _ _ _ Hg Eq).
  - replace (val m / 360 + 4 / 12 + / 3) with (val m / 360 - / 3 + 1) by field. rewrite wheel_turn. apply (L _ _ _ Hb).
    replace (q - / 3 - (val m / 360 - / 3)) with (q - val m / 360) by ring. exact Eq.
Qed.
Theorem float_range (h : b64) : fin h -> exists h' r g b, randomHSLColorF h = (h', Ok (r, g, b)) /\
  (64 <= r <= 191 /\ 64 <= g <= 191 /\ 64 <= b <= 191)%Z.
Proof.
  intros F. destruct (float_hue h F) as (h' & r & g & b & E & _ & _ & _ & Hr & Hg & Hb). exists h', r, g, b. split; [exact E|].
  assert (L : forall z n, Rabs (IZR z - 255 * css_channelR (val h') (/ 2) (/ 2) n) <= / 2 + / 10 ^ 9 -> (64 <= z <= 191)%Z).
  { intros z n H. rewrite css_wheel in H. pose proof (trap_range (frac (val h' / 360 + n / 12 + / 3))) as W. fold (wheel (val h' / 360 + n / 12 + / 3)) in W.
    abs. assert (IZR 63 < IZR z < IZR 192) as (B1 & B2) by lra. apply lt_IZR in B1, B2. lia. }
  repeat split; try apply (L _ _ Hr); try apply (L _ _ Hg); apply (L _ _ Hb).
Qed.

Theorem stuck_hue (h : b64) : ~ fin h -> randomHSLColorF h = (B754_nan, Ok (64, 64, 64)%Z).
Proof.
  intros N. assert (E : pymod (nadd h (nofZ 73)) (nofZ 360) = B754_nan).
  { destruct h as [s|s| |s m e B]; [elim N; reflexivity | destruct s; vm_compute; reflexivity | vm_compute; reflexivity | elim N; reflexivity]. }
  unfold randomHSLColorF. rewrite E. cbv zeta. vm_compute. reflexivity.
Qed.
