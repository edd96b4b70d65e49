(** Proofs for C135: differences, midpoints and measures of boxes in double precision. *)
From Coq Require Import List ZArith Bool Reals Lra Lia Psatz.
From Flocq Require Import Core BinarySingleNaN Plus_error.
From Verif Require Import Py Inst InstFloat SpecGeom SpecUtil SpecDouble SpecDouble3 SpecDouble6 MBounds MPathUtil ProofDouble ProofDouble2 ProofDouble3 ProofDouble9 ProofDouble15 ProofDouble17.
Import ListNotations.
Local Open Scope R_scope.
#[local] Existing Instance InstFloat.prec_gt_0.
#[local] Existing Instance InstFloat.prec_lt_emax.

Local Notation top := MBounds.top.

(** ** Differences *)
Lemma fl_sub_0 (x y : b64) : fl (val x - val y) = 0 <-> val x = val y.
Proof.
  split; intros E; [|rewrite E, Rminus_eq_0; apply fl0].
  destruct (Req_dec (val x - val y) 0) as [Z|N]; [lra|]. exfalso. revert E. unfold fl, Rminus.
  apply (round_plus_neq_0 radix2 (FLT_exp (SpecFloat.emin prec emax) prec) (round_mode mode_NE)); [apply val_format|apply generic_format_opp, val_format|exact N].
Qed.
Lemma bof0 : fin (bofZ 0) /\ val (bofZ 0) = 0.
Proof. destruct lit01 as (A & B & _). auto. Qed.
(** Equality with zero of a difference is exact, also when the difference overflows. *)
Lemma sub_is_0 (x y : b64) : fin x -> fin y -> neqb (nsub x y) (nofZ 0) = true <-> val x = val y.
Proof.
  intros Fx Fy. pose proof (Bminus_correct prec emax _ _ mode_NE x y Fx Fy) as C.
  destruct (Rlt_bool_spec (Rabs (fl (val x - val y))) ProofDouble.top) as [L|L].
  - destruct (minus_fl x y Fx Fy L) as [F V]. destruct bof0 as [F0 V0]. change (nofZ 0 : b64) with (bofZ 0).
    rewrite <- fl_sub_0, <- V, <- V0. split; [now apply eqb_val|now apply val_neqb].
  - unfold fl, ProofDouble.top, val in L. rewrite Rlt_bool_false in C by exact L. destruct C as [C _].
    split; intros E; exfalso.
    + change (neqb (nsub x y) (nofZ 0)) with (Beqb (Bminus mode_NE x y) (bofZ 0)) in E.
      assert (I : exists s, Bminus mode_NE x y = B754_infinity s).
      { destruct (Bminus mode_NE x y) as [s|s| |s m e H]; cbn in C; try discriminate; eauto. }
      destruct I as (s & I). rewrite I in E. destruct s; vm_compute in E; discriminate.
    + unfold val in E. rewrite E, Rminus_eq_0 in L. rewrite round_0 in L by apply valid_rnd_round_mode. rewrite Rabs_R0 in L.
      pose proof (bpow_gt_0 radix2 emax). lra.
Qed.
Lemma top_1024 : ProofDouble.top = 2 ^ 1024.
Proof. unfold ProofDouble.top. rewrite two_pow. reflexivity. Qed.
Lemma fl_pow (x : R) (n : nat) : (n <= 1023)%nat -> Rabs x <= 2 ^ n -> Rabs (fl x) <= 2 ^ n.
Proof.
  intros N L. rewrite two_pow in *.
  assert (G : fl (bpow radix2 (Z.of_nat n)) = bpow radix2 (Z.of_nat n)).
  { apply fl_format, generic_format_bpow. unfold FLT_exp, SpecFloat.emin, prec, emax. lia. }
  apply Rabs_le. apply Rabs_le_inv in L as [L1 L2]. apply fl_mono in L1, L2. rewrite fl_opp, G in L1. rewrite G in L2. auto.
Qed.
Lemma below_top (n : nat) : (n <= 1023)%nat -> 2 ^ n < ProofDouble.top.
Proof. intros N. rewrite top_1024. apply Rlt_pow; [lra | lia]. Qed.
Lemma abs_diff (x y M : R) : Rabs x <= M -> Rabs y <= M -> Rabs (x - y) <= 2 * M.
Proof. intros A B. apply Rabs_le. apply Rabs_le_inv in A, B. lra. Qed.
Lemma diff_nearest (x y : b64) : fin x -> fin y -> Rabs (val x) <= 2 ^ 1022 -> Rabs (val y) <= 2 ^ 1022 ->
  fin (nsub x y) /\ val (nsub x y) = fl (val x - val y) /\ nearest_double (val x - val y) (nsub x y) /\
  (val (nsub x y) = 0 <-> val x = val y) /\ (0 < val (nsub x y) <-> val y < val x).
Proof.
  intros Fx Fy Bx By.
  assert (B : Rabs (fl (val x - val y)) < ProofDouble.top).
  { eapply Rle_lt_trans; [apply (fl_pow _ 1023); [lia|]|apply below_top; lia]. 
    eapply Rle_trans; [apply (abs_diff _ _ _ Bx By)|]. change (2 ^ 1023) with (2 * 2 ^ 1022). apply Rle_refl. }
  destruct (minus_fl x y Fx Fy B) as [F V]. split; auto. split; auto. split; [now apply fl_is_nearest|]. rewrite V.
  split; [apply fl_sub_0|]. split; intros L.
  - destruct (Rle_or_lt (val x) (val y)) as [K|K]; auto. exfalso. assert (E : val x - val y <= 0) by lra. apply fl_mono in E. rewrite fl0 in E. lra.
  - assert (E : 0 <= val x - val y) by lra. apply fl_mono in E. rewrite fl0 in E. destruct E as [E|E]; auto. exfalso.
    symmetry in E. apply fl_sub_0 in E. lra.
Qed.

(** ** The middle *)
Lemma bof2 : fin (bofZ 2) /\ val (bofZ 2) = 2.
Proof. destruct (val_int 2) as [F V]; [lia|]. auto. Qed.
Lemma fl_double_exact (x : b64) : fl (2 * val x) = 2 * val x.
Proof.
  apply fl_format. rewrite Rmult_comm. change 2 with (bpow radix2 1). apply generic_format_FLT.
  pose proof (val_format x) as G. apply FLT_format_generic in G; [|exact eq_refl]. destruct G as [f E L1 L2].
  exists (Float radix2 (Fnum f) (Fexp f + 1)).
  - rewrite E. unfold F2R; cbn [Fnum Fexp]. rewrite bpow_plus. ring.
  - exact L1.
  - cbn [Fexp]. lia.
Qed.
Lemma middle (x y : b64) : fin x -> fin y -> Rabs (val x) <= 2 ^ 1022 -> Rabs (val y) <= 2 ^ 1022 ->
  let m := nquot (nadd x y) (nofZ 2) in
  fin m /\ Rmin (val x) (val y) <= val m <= Rmax (val x) (val y) /\
  Rabs (val m - (val x + val y) / 2) <= 3 * ulp1 * Rabs ((val x + val y) / 2) + 2 * tiny.
Proof.
  intros Fx Fy Bx By m.
  assert (BS : Rabs (val x + val y) <= 2 ^ 1023).
  { change (2 ^ 1023) with (2 * 2 ^ 1022). eapply Rle_trans; [apply Rabs_triang|]. lra. }
  pose proof (fl_pow _ 1023 ltac:(lia) BS) as B1. pose proof (below_top 1023 ltac:(lia)) as T.
  destruct (plus_fl x y Fx Fy) as [Fs Vs]; [lra|]. destruct bof2 as [F2 V2].
  set (s := nadd x y) in *. set (S := val x + val y) in *.
  assert (B2 : Rabs (fl (val s / val (bofZ 2))) < ProofDouble.top).
  { rewrite V2. eapply Rle_lt_trans; [apply (fl_pow _ 1023); [lia|]|exact T]. rewrite Vs. unfold Rdiv. rewrite Rabs_mult.
    rewrite (Rabs_pos_eq (/ 2)) by lra. pose proof (Rabs_pos (fl S)). lra. }
  destruct (div_fl s (bofZ 2) Fs ltac:(rewrite V2; lra) B2) as [Fm Vm]. change (nquot s (bofZ 2)) with m in Fm, Vm. rewrite V2, Vs in Vm.
  split; auto. split.
  - assert (K : forall a b : b64, val a <= val b -> val a + val b = S -> val a <= val m <= val b).
    { intros a b L E. rewrite Vm. rewrite <- (fl_val a), <- (fl_val b).
      assert (2 * val a <= fl S) by (rewrite <- fl_double_exact; apply fl_mono; lra).
      assert (fl S <= 2 * val b) by (rewrite <- fl_double_exact; apply fl_mono; lra).
      split; apply fl_mono; lra. }
    destruct (Rle_or_lt (val x) (val y)) as [L|L].
    + rewrite Rmin_left, Rmax_right by auto. apply (K x y); auto.
    + rewrite Rmin_right, Rmax_left by lra. apply (K y x); [lra|]. unfold S. ring.
  - pose proof (fl_err S) as E1. pose proof (fl_err (fl S / 2)) as E2. rewrite <- Vm in E2. pose proof ulp1_pos. pose proof ulp1_small. pose proof tiny_pos.
    assert (D : forall a, Rabs (a / 2) = Rabs a / 2) by (intros; unfold Rdiv; rewrite Rabs_mult, (Rabs_pos_eq (/ 2)) by lra; reflexivity).
    assert (A : Rabs (fl S / 2) <= Rabs S / 2 + (ulp1 * Rabs S + tiny) / 2).
    { replace (fl S / 2) with (S / 2 + (fl S - S) / 2) by field. eapply Rle_trans; [apply Rabs_triang|].
      rewrite !D. lra. }
    rewrite (D S). pose proof (Rabs_pos S).
    replace (val m - S / 2) with ((val m - fl S / 2) + (fl S - S) / 2) by field. eapply Rle_trans; [apply Rabs_triang|].
    rewrite (D (fl S - S)).
    assert (ulp1 * Rabs (fl S / 2) <= ulp1 * (Rabs S / 2 + (ulp1 * Rabs S + tiny) / 2)) by (apply Rmult_le_compat_l; lra).
    assert (ulp1 * (ulp1 * Rabs S) <= / 1000000 * (ulp1 * Rabs S)) by (apply Rmult_le_compat_r; [apply Rmult_le_pos|]; lra).
    assert (ulp1 * tiny <= / 1000000 * tiny) by (apply Rmult_le_compat_r; lra). assert (0 <= ulp1 * Rabs S) by (apply Rmult_le_pos; lra). lra.
Qed.

(** ** Segments and boxes *)
Section Segments.
  Lemma last_snoc {A} (l : list A) (b : A) : last_error (l ++ [b]) = Some b.
  Proof. induction l as [|a l IH]; [reflexivity|]. cbn [app]. destruct (l ++ [b]) eqn:E; [destruct l; discriminate|]. cbn [last_error] in *. exact IH. Qed.
  Lemma ends_of (a b : point b64) (r : list (point b64)) : endPoints (a :: r ++ [b]) = Ok (a, b).
  Proof.
    unfold endPoints, idx. cbn [nth_error bind]. unfold idx_last. change (a :: r ++ [b]) with ((a :: r) ++ [b]). now rewrite last_snoc.
  Qed.
  Theorem deltas_double (a b : point b64) (r : list (point b64)) : sized (2 ^ 1022) a -> sized (2 ^ 1022) b ->
    exists dx dy, getDeltas (a :: r ++ [b]) = Ok (dx, dy) /\
      nearest_double (val (fst b) - val (fst a)) dx /\ nearest_double (val (snd b) - val (snd a)) dy /\
      (val dx = 0 <-> val (fst a) = val (fst b)) /\ (0 < val dx <-> val (fst a) < val (fst b)) /\
      (val dy = 0 <-> val (snd a) = val (snd b)) /\ (0 < val dy <-> val (snd a) < val (snd b)).
  Proof.
    intros (Fax & Fay & Bax & Bay) (Fbx & Fby & Bbx & Bby). unfold getDeltas. rewrite ends_of. cbn [bind].
    destruct (diff_nearest (fst b) (fst a)) as (_ & _ & N1 & Z1 & P1); auto. destruct (diff_nearest (snd b) (snd a)) as (_ & _ & N2 & Z2 & P2); auto.
    do 2 eexists. split; [reflexivity|]. split; auto. split; auto. split; [rewrite Z1; split; congruence|]. split; auto. split; [rewrite Z2; split; congruence|auto].
  Qed.
  Lemma b_iff (x y : bool) : (x = true <-> y = true) -> x = y.
  Proof. destruct x, y; intuition congruence. Qed.
  Theorem lines_double (a b : point b64) : finpt a -> finpt b ->
    (exists v h d, isVerticalLine [a; b] = Ok v /\ isHorizontalLine [a; b] = Ok h /\ isDiagonalLine [a; b] = Ok d /\
      (v = true <-> val (fst a) = val (fst b)) /\ (h = true <-> val (snd a) = val (snd b)) /\
      (d = true <-> val (fst a) <> val (fst b) /\ val (snd a) <> val (snd b))) /\
    (slope [a; b] = Ok SInf <-> val (fst a) = val (fst b)).
  Proof.
    intros [Fax Fay] [Fbx Fby]. pose proof (sub_is_0 (fst b) (fst a) Fbx Fax) as X. pose proof (sub_is_0 (snd b) (snd a) Fby Fay) as Y.
    change (@nofZ b64 _ 0) with (bofZ 0) in *.
    split.
    - do 3 eexists. unfold isVerticalLine, isHorizontalLine, isDiagonalLine, getDeltas. change [a; b] with (a :: [] ++ [b]); rewrite (ends_of a b []); cbn [app]. cbn [bind length Nat.eqb andb].
      split; [reflexivity|]. split; [reflexivity|]. split; [reflexivity|]. change (@nofZ b64 _ 0) with (bofZ 0).
      split; [rewrite X; split; congruence|]. split; [rewrite Y; split; congruence|].
      rewrite andb_true_iff, !negb_true_iff, <- !not_true_iff_false, X, Y. split; intros [A B]; split; congruence.
    - unfold slope, getDeltas. change [a; b] with (a :: [] ++ [b]); rewrite (ends_of a b []); cbn [app]. cbn [bind]. change (@nofZ b64 _ 0) with (bofZ 0).
      destruct (neqb (nsub (fst b) (fst a)) (bofZ 0)).
      + split; [intros _; symmetry; now apply X|reflexivity].
      + split; [discriminate|]. intros E. symmetry in E. apply X in E. discriminate.
  Qed.
  Theorem curves_are_no_lines (s : segment b64) v : (length s <> 2)%nat ->
    (isVerticalLine s = Ok v \/ isHorizontalLine s = Ok v \/ isDiagonalLine s = Ok v) -> v = false.
  Proof.
    intros L. assert (E : Nat.eqb (length s) 2 = false) by (now apply Nat.eqb_neq).
    unfold isVerticalLine, isHorizontalLine, isDiagonalLine. destruct (getDeltas s) as [[dx dy]|]; cbn [bind]; rewrite ?E; cbn [andb]; intuition congruence.
  Qed.
  (** On a grid the differences are exact. *)
  Lemma grid_diff (e : nat) (N : Z) (x y : b64) (zx zy : Z) : (e <= 1000)%nat -> (N <= 2 ^ 51)%Z -> fin x -> fin y ->
    val x = IZR zx * / 2 ^ e -> val y = IZR zy * / 2 ^ e -> (Z.abs zx <= N)%Z -> (Z.abs zy <= N)%Z ->
    fin (nsub x y) /\ val (nsub x y) = IZR (zx - zy) * / 2 ^ e.
  Proof.
    intros He HN Fx Fy Vx Vy Lx Ly.
    assert (D : val x - val y = IZR (zx - zy) * / 2 ^ e) by (rewrite Vx, Vy, minus_IZR; ring).
    destruct (fl_dy e (zx - zy)) as [E T]; [lia|lia|]. destruct (minus_fl x y Fx Fy) as [F V]; [rewrite D, E; exact T|].
    split; auto. now rewrite V, D.
  Qed.
  Theorem slope_double (e : nat) (N : Z) (a b : point b64) : (e <= 1000)%nat -> (N <= 2 ^ 51)%Z -> on_grid e N a -> on_grid e N b ->
    val (fst a) <> val (fst b) ->
    exists s, slope [a; b] = Ok (SFin s) /\ nearest_double ((val (snd b) - val (snd a)) / (val (fst b) - val (fst a))) s.
  Proof.
    intros He HN (ax & ay & (Fax & Vax) & (Fay & Vay) & Lax & Lay) (bx & by' & (Fbx & Vbx) & (Fby & Vby) & Lbx & Lby) NE.
    destruct (grid_diff e N (fst b) (fst a) bx ax) as [Fx Vx]; auto. destruct (grid_diff e N (snd b) (snd a) by' ay) as [Fy Vy]; auto.
    assert (P : 0 < 2 ^ e) by (apply pow_lt; lra).
    assert (NZ : (bx - ax <> 0)%Z) by (intros K; apply NE; rewrite Vax, Vbx; replace bx with ax by lia; reflexivity).
    assert (NR : IZR (bx - ax) <> 0) by (intros K; apply eq_IZR in K; contradiction).
    assert (Vn : val (nsub (fst b) (fst a)) <> 0).
    { rewrite Vx. apply Rmult_integral_contrapositive_currified; auto. apply Rinv_neq_0_compat; lra. }
    unfold slope, getDeltas. change [a; b] with (a :: [] ++ [b]); rewrite (ends_of a b []); cbn [app]. cbn [bind]. destruct bof0 as [F0 V0]. change (@nofZ b64 _ 0) with (bofZ 0).
    rewrite neqb_val by (auto; rewrite V0; exact Vn). eexists. split; [reflexivity|].
    assert (Q : val (nsub (snd b) (snd a)) / val (nsub (fst b) (fst a)) = IZR (by' - ay) / IZR (bx - ax)) by (rewrite Vx, Vy; field; split; lra).
    assert (QQ : (val (snd b) - val (snd a)) / (val (fst b) - val (fst a)) = IZR (by' - ay) / IZR (bx - ax)).
    { rewrite Vax, Vay, Vbx, Vby, !minus_IZR. rewrite minus_IZR in NR. field. split; [exact NR|lra]. }
    rewrite QQ, <- Q.
    assert (T : Rabs (fl (val (nsub (snd b) (snd a)) / val (nsub (fst b) (fst a)))) < ProofDouble.top).
    { rewrite Q. eapply Rle_lt_trans; [apply (fl_pow _ 60); [lia|]|apply below_top; lia].
      unfold Rdiv. rewrite Rabs_mult, Rabs_inv, <- !abs_IZR. rewrite <- (Rmult_1_r (2 ^ 60)).
      apply Rmult_le_compat; [apply IZR_le; lia | left; apply Rinv_0_lt_compat, (IZR_lt 0); lia | | ].
      - replace (2 ^ 60) with (IZR (2 ^ 60)) by (rewrite (pow_IZR 2 60); reflexivity). apply IZR_le. lia.
      - rewrite <- Rinv_1. apply Rinv_le_contravar; [lra | apply IZR_le; lia]. }
    destruct (div_fl (nsub (snd b) (snd a)) (nsub (fst b) (fst a)) Fy Vn T) as [F V]. now apply fl_is_nearest.
  Qed.
  Theorem midpoint_double (a b : point b64) (r : list (point b64)) : sized (2 ^ 1022) a -> sized (2 ^ 1022) b ->
    exists m, midpoint (a :: r ++ [b]) = Ok m /\ finpt m /\
      Rmin (val (fst a)) (val (fst b)) <= val (fst m) <= Rmax (val (fst a)) (val (fst b)) /\
      Rmin (val (snd a)) (val (snd b)) <= val (snd m) <= Rmax (val (snd a)) (val (snd b)) /\
      let X := (val (fst a) + val (fst b)) / 2 in let Y := (val (snd a) + val (snd b)) / 2 in
      Rabs (val (fst m) - X) <= 3 * ulp1 * Rabs X + 2 * tiny /\ Rabs (val (snd m) - Y) <= 3 * ulp1 * Rabs Y + 2 * tiny.
  Proof.
    intros (Fax & Fay & Bax & Bay) (Fbx & Fby & Bbx & Bby). unfold midpoint. rewrite ends_of. cbn [bind]. eexists. split; [reflexivity|].
    destruct (middle (fst a) (fst b)) as (F1 & B1 & E1); auto. destruct (middle (snd a) (snd b)) as (F2 & B2 & E2); auto.
    split; [split; auto|]. split; auto.
  Qed.
  Theorem box_double (r : rect b64) : good_box (2 ^ 1022) r ->
    nearest_double (val (right r) - val (left r)) (width r) /\ nearest_double (val (top r) - val (bottom r)) (height r) /\
    0 <= val (width r) /\ 0 <= val (height r) /\ (val (width r) = 0 <-> val (left r) = val (right r)) /\ (val (height r) = 0 <-> val (bottom r) = val (top r)) /\
    exists c, centerPoint r = Ok c /\ enclosesPoint r c = true.
  Proof.
    intros ((Fl & Fb & Bl & Bb) & (Fr & Ft & Br & Bt) & LR & BT). cbn [fst snd] in *.
    destruct (diff_nearest (right r) (left r)) as (F1 & V1 & N1 & Z1 & P1); auto. destruct (diff_nearest (top r) (bottom r)) as (F2 & V2 & N2 & Z2 & P2); auto.
    split; [exact N1|]. split; [exact N2|]. unfold width, height.
    split; [rewrite V1, <- fl0; apply fl_mono; lra|]. split; [rewrite V2, <- fl0; apply fl_mono; lra|].
    split; [rewrite Z1; split; congruence|]. split; [rewrite Z2; split; congruence|].
    destruct (midpoint_double (left r, bottom r) (right r, top r) []) as (m & E & (Fm1 & Fm2) & X & Y & _); [now repeat split|now repeat split|].
    exists m. split; [exact E|]. cbn [fst snd] in *. rewrite Rmin_left, Rmax_right in X, Y by auto. destruct m as [mx my]; cbn [fst snd] in *.
    unfold enclosesPoint. rewrite !andb_true_iff. repeat split; apply leb_val; tauto.
  Qed.
  (** ** Parts of a side *)
  Lemma part_fl (l r p : b64) : fin l -> fin r -> fin p -> Rabs (val l) <= 2 ^ 1020 -> Rabs (val r) <= 2 ^ 1020 -> 0 <= val p <= 1 ->
    let x := nadd l (nmul (nsub r l) p) in fin x /\ val x = fl (val l + fl (fl (val r - val l) * val p)).
  Proof.
    intros Fl Fr Fp Bl Br Hp x.
    assert (P : 2 ^ 1021 = 2 * 2 ^ 1020) by reflexivity. assert (P2 : 2 ^ 1022 = 2 * 2 ^ 1021) by reflexivity. assert (P0 : 0 < 2 ^ 1020) by (apply pow_lt; lra).
    assert (B1 : Rabs (fl (val r - val l)) <= 2 ^ 1021) by (apply fl_pow; [lia|]; rewrite P; now apply abs_diff).
    destruct (minus_fl r l Fr Fl) as [F1 V1]; [eapply Rle_lt_trans; [exact B1 | apply below_top; lia]|].
    assert (B2 : Rabs (fl (fl (val r - val l) * val p)) <= 2 ^ 1021).
    { apply fl_pow; [lia|]. rewrite Rabs_mult, (Rabs_pos_eq (val p)) by lra. rewrite <- (Rmult_1_r (2 ^ 1021)). apply Rmult_le_compat; try apply Rabs_pos; lra. }
    destruct (mult_fl (nsub r l) p F1 Fp) as [F2 V2]; [rewrite V1; eapply Rle_lt_trans; [exact B2 | apply below_top; lia]|]. rewrite V1 in V2.
    assert (B3 : Rabs (fl (val l + fl (fl (val r - val l) * val p))) <= 2 ^ 1022).
    { apply fl_pow; [lia|]. eapply Rle_trans; [apply Rabs_triang|]. lra. }
    destruct (plus_fl l (nmul (nsub r l) p) Fl F2) as [F3 V3]; [rewrite V2; eapply Rle_lt_trans; [exact B3 | apply below_top; lia]|]. rewrite V2 in V3. auto.
  Qed.
  Lemma fl_pos (x : R) : 0 <= x -> 0 <= fl x.
  Proof. intros H. rewrite <- fl0. now apply fl_mono. Qed.
  Lemma part (l r p : b64) (M : R) : fin l -> fin r -> fin p -> M <= 2 ^ 1020 -> Rabs (val l) <= M -> Rabs (val r) <= M -> val l <= val r -> 0 <= val p <= 1 ->
    let x := nadd l (nmul (nsub r l) p) in
    fin x /\ val l <= val x /\ Rabs (val x - (val l + (val r - val l) * val p)) <= 6 * ulp1 * M + 4 * tiny /\ (val p = 0 -> val x = val l).
  Proof.
    intros Fl Fr Fp HM Bl Br LR Hp x. destruct (part_fl l r p Fl Fr Fp ltac:(lra) ltac:(lra) Hp) as [Fx Vx]. change (nadd l (nmul (nsub r l) p)) with x in Fx, Vx.
    split; [exact Fx|]. rewrite Vx. set (W := val r - val l) in *. assert (W0 : 0 <= W) by (unfold W; lra).
    pose proof (fl_pos W W0) as w0. assert (wp0 : 0 <= fl W * val p) by (apply Rmult_le_pos; lra). pose proof (fl_pos _ wp0) as q0.
    split; [|split].
    - rewrite <- (fl_val l) at 1. apply fl_mono. lra.
    - pose proof ulp1_pos. pose proof ulp1_small. pose proof tiny_pos. apply Rabs_le_inv in Bl, Br. assert (M0 : 0 <= M) by lra.
      pose proof (fl_err W) as E1. pose proof (fl_err (fl W * val p)) as E2. pose proof (fl_err (val l + fl (fl W * val p))) as E3.
      set (w := fl W) in *. set (q := fl (w * val p)) in *. set (y := fl (val l + q)) in *.
      assert (WM : W <= 2 * M) by (unfold W; lra).
      rewrite (Rabs_pos_eq W) in E1 by lra. rewrite (Rabs_pos_eq (w * val p)) in E2 by lra.
      assert (wp : w * val p <= w) by (rewrite <- (Rmult_1_r w) at 2; apply Rmult_le_compat_l; lra).
      assert (uW : ulp1 * W <= 2 * (ulp1 * M)) by (replace (2 * (ulp1 * M)) with (ulp1 * (2 * M)) by ring; apply Rmult_le_compat_l; lra).
      assert (uM : 0 <= ulp1 * M) by (apply Rmult_le_pos; lra). assert (uW0 : 0 <= ulp1 * W) by (apply Rmult_le_pos; lra).
      assert (ws : w <= W + ulp1 * W + tiny) by (apply Rabs_le_inv in E1; lra).
      assert (uu : ulp1 * (ulp1 * W) <= / 1000000 * (ulp1 * W)) by (apply Rmult_le_compat_r; lra).
      assert (ut : ulp1 * tiny <= / 1000000 * tiny) by (apply Rmult_le_compat_r; lra).
      assert (uwp : ulp1 * (w * val p) <= ulp1 * (W + ulp1 * W + tiny)) by (apply Rmult_le_compat_l; lra).
      assert (D : Rabs (w * val p - W * val p) <= ulp1 * W + tiny).
      { replace (w * val p - W * val p) with ((w - W) * val p) by ring. rewrite Rabs_mult, (Rabs_pos_eq (val p)) by lra.
        rewrite <- (Rmult_1_r (ulp1 * W + tiny)). apply Rmult_le_compat; try apply Rabs_pos; lra. }
      assert (Q : Rabs (q - W * val p) <= 5 * (ulp1 * M) + 3 * tiny - 15 / 16 * (ulp1 * M) - 15 / 16 * tiny).
      { replace (q - W * val p) with ((q - w * val p) + (w * val p - W * val p)) by ring. eapply Rle_trans; [apply Rabs_triang|]. lra. }
      assert (Wp : 0 <= W * val p <= W) by (split; [apply Rmult_le_pos; lra | rewrite <- (Rmult_1_r W) at 2; apply Rmult_le_compat_l; lra]).
      assert (L : Rabs (val l + q) <= M + 5 * (ulp1 * M) + 3 * tiny).
      { apply Rabs_le_inv in Q. unfold W in Wp, Q. apply Rabs_le. lra. }
      assert (uL : ulp1 * Rabs (val l + q) <= ulp1 * (M + 5 * (ulp1 * M) + 3 * tiny)) by (apply Rmult_le_compat_l; lra).
      assert (uuM : ulp1 * (ulp1 * M) <= / 1000000 * (ulp1 * M)) by (apply Rmult_le_compat_r; lra).
      replace (y - (val l + W * val p)) with ((y - (val l + q)) + (q - W * val p)) by ring. eapply Rle_trans; [apply Rabs_triang|]. lra.
    - intros Z. rewrite Z, Rmult_0_r, fl0, Rplus_0_r. apply fl_val.
  Qed.
  Lemma part_mono (l r p q : b64) : fin l -> fin r -> fin p -> fin q -> Rabs (val l) <= 2 ^ 1020 -> Rabs (val r) <= 2 ^ 1020 -> val l <= val r ->
    0 <= val p <= 1 -> 0 <= val q <= 1 -> val p <= val q -> val (nadd l (nmul (nsub r l) p)) <= val (nadd l (nmul (nsub r l) q)).
  Proof.
    intros Fl Fr Fp Fq Bl Br LR Hp Hq L. destruct (part_fl l r p) as [_ ->]; auto. destruct (part_fl l r q) as [_ ->]; auto.
    apply fl_mono, Rplus_le_compat_l, fl_mono, Rmult_le_compat_l; [apply fl_pos; lra | exact L].
  Qed.
  Lemma part_one (e : nat) (N : Z) (l r : b64) (zl zr : Z) : (e <= 1000)%nat -> (N <= 2 ^ 51)%Z -> fin l -> fin r ->
    val l = IZR zl * / 2 ^ e -> val r = IZR zr * / 2 ^ e -> (Z.abs zl <= N)%Z -> (Z.abs zr <= N)%Z -> val (nadd l (nmul (nsub r l) (nofZ 1))) = val r.
  Proof.
    intros He HN Fl Fr Vl Vr Ll Lr. destruct (grid_diff e N r l zr zl) as [F1 V1]; auto.
    destruct lit01 as (_ & _ & F01 & V01). destruct (fl_dy e (zr - zl)) as [E T]; [lia|lia|].
    change (@nofZ b64 _ 1) with (bofZ 1). destruct (mult_fl (nsub r l) (bofZ 1) F1 F01) as [F2 V2]; [rewrite V01, Rmult_1_r, V1, E; exact T|].
    rewrite V01, Rmult_1_r, V1, E in V2.
    assert (S : val l + val (nmul (nsub r l) (bofZ 1)) = IZR zr * / 2 ^ e) by (rewrite V2, Vl, minus_IZR; ring).
    destruct (fl_dy e zr) as [E' T']; [lia|lia|]. destruct (plus_fl l (nmul (nsub r l) (bofZ 1)) Fl F2) as [F3 V3]; [rewrite S, E'; exact T'|].
    now rewrite V3, S, E', Vr.
  Qed.
  Theorem parts_double (M : R) (r : rect b64) (p : b64) : M <= 2 ^ 1020 -> good_box M r -> fin p -> 0 <= val p <= 1 ->
    (fin (xFromLeft r p) /\ val (left r) <= val (xFromLeft r p) /\
     Rabs (val (xFromLeft r p) - (val (left r) + (val (right r) - val (left r)) * val p)) <= 6 * ulp1 * M + 4 * tiny /\
     (val p = 0 -> val (xFromLeft r p) = val (left r))) /\
    (fin (yFromBottom r p) /\ val (bottom r) <= val (yFromBottom r p) /\
     Rabs (val (yFromBottom r p) - (val (bottom r) + (val (top r) - val (bottom r)) * val p)) <= 6 * ulp1 * M + 4 * tiny /\
     (val p = 0 -> val (yFromBottom r p) = val (bottom r))) /\
    forall q, fin q -> val p <= val q <= 1 -> val (xFromLeft r p) <= val (xFromLeft r q) /\ val (yFromBottom r p) <= val (yFromBottom r q).
  Proof.
    intros HM ((Fl & Fb & Bl & Bb) & (Fr & Ft & Br & Bt) & LR & BT) Fp Hp. cbn [fst snd] in *. unfold xFromLeft, yFromBottom, width, height.
    split; [apply part; auto|]. split; [apply part; auto|]. intros q Fq Hq. split; apply part_mono; auto; lra.
  Qed.
  Theorem whole_side (e : nat) (N : Z) (r : rect b64) : (e <= 1000)%nat -> (N <= 2 ^ 51)%Z -> on_grid e N (left r, bottom r) -> on_grid e N (right r, top r) ->
    val (xFromLeft r (nofZ 1)) = val (right r) /\ val (yFromBottom r (nofZ 1)) = val (top r).
  Proof.
    intros He HN (a & b & (F1 & V1) & (F2 & V2) & L1 & L2) (c & d & (F3 & V3) & (F4 & V4) & L3 & L4). cbn [fst snd] in *.
    split; [apply (part_one e N _ _ a c) | apply (part_one e N _ _ b d)]; auto.
  Qed.

  (** ** toMicros *)
  Theorem toMicros_zero (f u : b64) : fin u -> (toMicros f u = Err ZeroDivisionError <-> val u = 0) /\ (val u <> 0 -> exists m, toMicros f u = Ok m).
  Proof.
    intros Fu. unfold toMicros. split; [split; intros E|intros N; eexists; now apply ndiv_ok].
    - destruct (Req_dec (val u) 0) as [Z|N]; [exact Z|]. rewrite (ndiv_ok _ _ Fu N) in E. discriminate.
    - destruct bof0 as [F0 V0]. unfold ndiv. change (@nofZ b64 _ 0) with (bofZ 0). now rewrite (val_neqb u (bofZ 0) Fu F0) by congruence.
  Qed.
  Theorem toMicros_double (f u : b64) (n d : Z) : is_int f n -> is_int u d -> d <> 0%Z -> (Z.abs n <= 2 ^ 41)%Z ->
    exists m, toMicros f u = Ok m /\ nearest_double (1000 * IZR n / IZR d) m /\ (forall k, (1000 * n = k * d)%Z -> is_int m k).
  Proof.
    intros [Ff Vf] Iu D L. destruct Iu as [Fu Vu] eqn:Iu'. clear Iu'. assert (D0 : IZR d <> 0) by (intros K; apply eq_IZR in K; contradiction).
    unfold toMicros. rewrite (ndiv_ok _ _ Fu) by congruence. eexists. split; [reflexivity|]. change (@nofZ b64 _ 1000) with (bofZ 1000).
    destruct (val_int 1000) as [F1 V1]; [lia|]. assert (P : val f * val (bofZ 1000) = IZR (n * 1000) * / 2 ^ 0) by (rewrite Vf, V1, mult_IZR; cbn [pow]; field).
    destruct (fl_dy 0 (n * 1000)) as [E T]; [lia|lia|]. destruct (mult_fl f (bofZ 1000) Ff F1) as [F V]; [rewrite P, E; exact T|].
    rewrite P, E in V. cbn [pow] in V. rewrite Rinv_1, Rmult_1_r in V.
    destruct (quot_int (nmul f (bofZ 1000)) u (n * 1000) d) as [Fq Vq]; [split; auto|exact Iu|exact D|lia|].
    split.
    - replace (1000 * IZR n / IZR d) with (IZR (n * 1000) / IZR d) by (rewrite mult_IZR; field; exact D0). now apply fl_is_nearest.
    - intros k K. split; [exact Fq|]. rewrite Vq.
      replace (IZR (n * 1000) / IZR d) with (IZR k * / 2 ^ 0) by (replace (n * 1000)%Z with (k * d)%Z by lia; rewrite mult_IZR; cbn [pow]; field; exact D0).
      destruct (fl_dy 0 k) as [E' _]; [nia|lia|]. rewrite E'. cbn [pow]. field.
  Qed.
End Segments.

(** ** What does not hold *)
Definition dbl (m : positive) (e : Z) (H : SpecFloat.bounded prec emax m e = true) : b64 := B754_finite false m e H.
Definition huge : b64 := dbl 4503599627370496 971 eq_refl.
Lemma huge_val : fin huge /\ val huge = 2 ^ 1023.
Proof.
  split; [reflexivity|]. unfold val, huge, dbl, B2R, F2R. cbn [Fnum Fexp cond_Zopp]. change (IZR (Z.pos 4503599627370496)) with (bpow radix2 52).
  rewrite <- bpow_plus. rewrite two_pow. reflexivity.
Qed.
Theorem middle_overflows : exists r : rect b64, good_box (2 ^ 1023) r /\ val (left r) < val (right r) /\
  exists c, centerPoint r = Ok c /\ ~ fin (fst c) /\ enclosesPoint r c = false.
Proof.
  destruct huge_val as [F V]. destruct bof2 as [F2 V2].
  assert (P : 0 < 2 ^ 1023) by (apply pow_lt; lra). assert (P1 : 2 <= 2 ^ 1023) by (rewrite <- (pow_1 2) at 1; apply Rle_pow; [lra | lia]).
  set (less := dbl 9007199254740991 970 eq_refl).
  assert (VL : val less = 2 ^ 1023 - 2 ^ 970).
  { unfold val, less, dbl, B2R, F2R. cbn [Fnum Fexp cond_Zopp]. rewrite (two_pow 970), (two_pow 1023). change (Z.of_nat 970) with 970%Z.
    replace (bpow radix2 (Z.of_nat 1023)) with (bpow radix2 53 * bpow radix2 970) by (rewrite <- bpow_plus; reflexivity).
    change (bpow radix2 53) with (IZR 9007199254740992). change (Z.pos 9007199254740991) with (9007199254740992 - 1)%Z. rewrite minus_IZR. ring. }
  assert (P3 : 0 < 2 ^ 970) by (apply pow_lt; lra). assert (P4 : 2 ^ 970 <= 2 ^ 1023) by (apply Rle_pow; [lra | lia]).
  exists (mkRect less huge huge less). unfold good_box, sized. cbn [left bottom right MBounds.top fst snd].
  split; [repeat split; rewrite ?V, ?VL; try (rewrite Rabs_pos_eq by lra); lra|]. split; [lra|].
  eexists. split; [vm_compute; reflexivity|]. split; [vm_compute; discriminate | vm_compute; reflexivity].
Qed.
Definition three : b64 := dbl 6755399441055744 (-105) eq_refl.
Theorem whole_side_outside : exists r : rect b64, good_box 1 r /\ crossesX r (xFromLeft r (nofZ 1)) = false /\ crossesY r (yFromBottom r (nofZ 1)) = false.
Proof.
  assert (V : 0 <= val three <= 1).
  { split; [unfold val, three, dbl, B2R; apply F2R_ge_0; cbn; lia|]. destruct lit01 as (_ & _ & F1 & V1). rewrite <- V1.
    apply Rnot_lt_le. intros K. apply ltb_val in K; [|reflexivity|exact F1]. revert K. vm_compute. discriminate. }
  destruct (val_int (-1)) as [F V1]; [lia|].
  exists (mkRect (bofZ (-1)) three three (bofZ (-1))). unfold good_box, sized. cbn [left bottom right MBounds.top fst snd].
  split; [|split; vm_compute; reflexivity].
  repeat split; rewrite ?V1; try (apply Rabs_le; lra); lra.
Qed.
Theorem area_vanishes : exists r : rect b64, good_box 1 r /\ 0 < val (width r) /\ 0 < val (height r) /\ area r = bofZ 0.
Proof.
  set (s := dbl 4503599627370496 (-652) eq_refl).
  destruct lit01 as (F0 & V0 & F1 & V1).
  assert (V : 0 < val s) by (unfold val, s, dbl, B2R; apply F2R_gt_0; cbn; lia).
  assert (V' : val s <= 1).
  { rewrite <- V1. apply Rnot_lt_le. intros K. apply ltb_val in K; [|reflexivity|exact F1]. revert K. vm_compute. discriminate. }
  exists (mkRect (bofZ 0) s s (bofZ 0)). unfold good_box, sized, width, height. cbn [left bottom right MBounds.top fst snd].
  split; [repeat split; rewrite ?V0; try (apply Rabs_le; lra); lra|].
  assert (E : nsub s (bofZ 0) = s) by (vm_compute; reflexivity). rewrite E. split; [exact V|]. split; [exact V|]. vm_compute. reflexivity.
Qed.
