(** Rounding errors of binary64 arithmetic, and of curve evaluation with it. *)
From Coq Require Import List ZArith Bool Reals Lra Lia Psatz.
From Flocq Require Import Core BinarySingleNaN Relative.
From Verif Require Import Py Inst InstFloat SpecGeom SpecFit SpecBezier SpecDouble MTransform MBezUtil MBezier ProofBezier.
Import ListNotations.
Local Open Scope R_scope.
#[local] Existing Instance InstFloat.prec_gt_0.
#[local] Existing Instance InstFloat.prec_lt_emax.

Lemma ulp1_pos : 0 < ulp1. Proof. unfold ulp1. apply Rinv_0_lt_compat, pow_lt; lra. Qed.
Lemma tiny_pos : 0 < tiny. Proof. unfold tiny. apply Rinv_0_lt_compat, pow_lt; lra. Qed.
Lemma two_pow (n : nat) : 2 ^ n = bpow radix2 (Z.of_nat n).
Proof.
  induction n as [|n IH]; [reflexivity|]. rewrite Nat2Z.inj_succ, <- Z.add_1_r, bpow_plus, bpow_1, <- IH.
  simpl. ring.
Qed.
Lemma ulp1_bpow : ulp1 = bpow radix2 (-53).
Proof. unfold ulp1. rewrite two_pow. now rewrite <- bpow_opp. Qed.
Lemma tiny_bpow : tiny = bpow radix2 (-1075).
Proof. unfold tiny. rewrite two_pow. now rewrite <- bpow_opp. Qed.

Definition fl (x : R) : R := round radix2 (SpecFloat.fexp prec emax) (round_mode mode_NE) x.
Lemma fl_err (x : R) : Rabs (fl x - x) <= ulp1 * Rabs x + tiny.
Proof.
  destruct (error_N_FLT radix2 (SpecFloat.emin prec emax) prec eq_refl (fun z => negb (Z.even z)) x) as (e & n & He & Hn & _ & E).
  replace (fl x) with (round radix2 (FLT_exp (SpecFloat.emin prec emax) prec) (Znearest (fun z => negb (Z.even z))) x) by reflexivity.
  rewrite E. replace (x * (1 + e) + n - x) with (e * x + n) by ring.
  eapply Rle_trans; [apply Rabs_triang|]. rewrite Rabs_mult. rewrite ulp1_bpow, tiny_bpow.
  change (bpow radix2 (-53)) with (bpow radix2 (-1 + (- prec + 1))).
  change (bpow radix2 (-1075)) with (bpow radix2 (-1 + SpecFloat.emin prec emax)).
  rewrite !bpow_plus. change (bpow radix2 (-1)) with (/ 2).
  rewrite bpow_plus in He.
  apply Rplus_le_compat; [apply Rmult_le_compat_r; [apply Rabs_pos | exact He] | exact Hn].
Qed.
Definition top : R := bpow radix2 emax.

(** The operations, when they do not overflow. *)
Lemma plus_fl (x y : b64) : fin x -> fin y -> Rabs (fl (val x + val y)) < top ->
  fin (nadd x y) /\ val (nadd x y) = fl (val x + val y).
Proof.
  intros Fx Fy L. pose proof (Bplus_correct prec emax _ _ mode_NE x y Fx Fy) as C.
  unfold val, fl, top in *. rewrite Rlt_bool_true in C by exact L. destruct C as (C1 & C2 & _). split; [exact C2 | exact C1].
Qed.
Lemma minus_fl (x y : b64) : fin x -> fin y -> Rabs (fl (val x - val y)) < top ->
  fin (nsub x y) /\ val (nsub x y) = fl (val x - val y).
Proof.
  intros Fx Fy L. pose proof (Bminus_correct prec emax _ _ mode_NE x y Fx Fy) as C.
  unfold val, fl, top in *. rewrite Rlt_bool_true in C by exact L. destruct C as (C1 & C2 & _). split; [exact C2 | exact C1].
Qed.
Lemma mult_fl (x y : b64) : fin x -> fin y -> Rabs (fl (val x * val y)) < top ->
  fin (nmul x y) /\ val (nmul x y) = fl (val x * val y).
Proof.
  intros Fx Fy L. pose proof (Bmult_correct prec emax _ _ mode_NE x y) as C.
  unfold val, fl, top in *. rewrite Rlt_bool_true in C by exact L. destruct C as (C1 & C2 & _).
  unfold fin in *. rewrite Fx, Fy in C2. split; [exact C2 | exact C1].
Qed.
Lemma div_fl (x y : b64) : fin x -> val y <> 0 -> Rabs (fl (val x / val y)) < top ->
  fin (nquot x y) /\ val (nquot x y) = fl (val x / val y).
Proof.
  intros Fx Ny L. pose proof (Bdiv_correct prec emax _ _ mode_NE x y Ny) as C.
  unfold val, fl, top in *. rewrite Rlt_bool_true in C by exact L. destruct C as (C1 & C2 & _).
  unfold fin in *. rewrite Fx in C2. split; [exact C2 | exact C1].
Qed.

(** [x] is a computed version of [r], a sum of products of sizes adding up to [m], with [k] roundings on
    the longest way and an absolute error [E] besides. *)
Definition near (x : b64) (r m : R) (k : nat) (E : R) : Prop :=
  fin x /\ Rabs r <= m /\ 0 <= E /\ Rabs (val x - r) <= ((1 + ulp1) ^ k - 1) * m + E.

Lemma pow_ge1 k : 1 <= (1 + ulp1) ^ k.
Proof. apply pow_R1_Rle. pose proof ulp1_pos; lra. Qed.
Lemma near_size x r m k E : near x r m k E -> Rabs (val x) <= (1 + ulp1) ^ k * m + E.
Proof. intros (_ & M & _ & A). pose proof (Rabs_triang (val x - r) r) as T. replace (val x - r + r) with (val x) in T by ring. lra. Qed.
Lemma near_exact x m : fin x -> Rabs (val x) <= m -> near x (val x) m 0 0.
Proof. intros F L. split; [exact F|]. split; [exact L|]. split; [lra|]. rewrite Rminus_eq_0, Rabs_R0. simpl. pose proof (Rabs_pos (val x)). lra. Qed.
Lemma near_le x r m k E k' E' : near x r m k E -> (k <= k')%nat -> E <= E' -> near x r m k' E'.
Proof.
  intros (F & M & P & A) K L. split; [exact F|]. split; [exact M|]. split; [lra|].
  assert ((1 + ulp1) ^ k <= (1 + ulp1) ^ k') by (apply Rle_pow; [pose proof ulp1_pos; lra | exact K]).
  pose proof (Rabs_pos r). assert (((1 + ulp1) ^ k - 1) * m <= ((1 + ulp1) ^ k' - 1) * m) by (apply Rmult_le_compat_r; lra). lra.
Qed.
(** One rounding more. *)
Lemma near_round (z r m : R) k E E' : Rabs r <= m -> Rabs (z - r) <= ((1 + ulp1) ^ k - 1) * m + E -> 0 <= E ->
  E * (1 + ulp1) + tiny <= E' -> Rabs (fl z - r) <= ((1 + ulp1) ^ S k - 1) * m + E' /\ Rabs (fl z) <= (1 + ulp1) ^ S k * m + E'.
Proof.
  intros M A P L. pose proof (fl_err z) as F.
  assert (Z : Rabs z <= (1 + ulp1) ^ k * m + E).
  { pose proof (Rabs_triang (z - r) r) as T. replace (z - r + r) with z in T by ring. lra. }
  assert (B : Rabs (fl z - r) <= ((1 + ulp1) ^ S k - 1) * m + E').
  { pose proof (Rabs_triang (fl z - z) (z - r)) as T. replace (fl z - z + (z - r)) with (fl z - r) in T by ring.
    cbn [pow]. pose proof ulp1_pos.
    assert (ulp1 * Rabs z <= ulp1 * ((1 + ulp1) ^ k * m + E)) by (apply Rmult_le_compat_l; lra). lra. }
  split; [exact B|]. pose proof (Rabs_triang (fl z - r) r) as T. replace (fl z - r + r) with (fl z) in T by ring. lra.
Qed.
Lemma near_mult x y r s m n k l E F E' : near x r m k E -> near y s n l F ->
  (E * ((1 + ulp1) ^ l * n) + F * ((1 + ulp1) ^ k * m) + E * F) * (1 + ulp1) + tiny <= E' ->
  (1 + ulp1) ^ S (k + l) * (m * n) + E' < top -> near (nmul x y) (r * s) (m * n) (S (k + l)) E'.
Proof.
  intros (Fx & Mx & Px & Ax) (Fy & My & Py & Ay) L T.
  pose proof (pow_ge1 k) as Pk. pose proof (pow_ge1 l) as Pl. pose proof ulp1_pos as Pu. pose proof tiny_pos as Pt.
  pose proof (Rabs_pos r) as Pr. pose proof (Rabs_pos s) as Ps.
  assert (G : 0 <= E * ((1 + ulp1) ^ l * n) + F * ((1 + ulp1) ^ k * m) + E * F).
  { apply Rplus_le_le_0_compat; [apply Rplus_le_le_0_compat|]; repeat apply Rmult_le_pos; lra. }
  assert (Mn : Rabs (r * s) <= m * n) by (rewrite Rabs_mult; apply Rmult_le_compat; lra).
  assert (A : Rabs (val x * val y - r * s) <= ((1 + ulp1) ^ (k + l) - 1) * (m * n) + (E * ((1 + ulp1) ^ l * n) + F * ((1 + ulp1) ^ k * m) + E * F)).
  { replace (val x * val y - r * s) with ((val x - r) * (val y - s) + ((val x - r) * s + r * (val y - s))) by ring.
    eapply Rle_trans; [apply Rabs_triang|]. pose proof (Rabs_triang ((val x - r) * s) (r * (val y - s))) as T2.
    rewrite !Rabs_mult in T2. rewrite Rabs_mult, pow_add.
    set (a := (1 + ulp1) ^ k) in *. set (b := (1 + ulp1) ^ l) in *.
    set (dx := Rabs (val x - r)) in *. set (dy := Rabs (val y - s)) in *.
    assert (0 <= dx) by apply Rabs_pos. assert (0 <= dy) by apply Rabs_pos.
    assert (dx * dy <= ((a - 1) * m + E) * ((b - 1) * n + F)) by (apply Rmult_le_compat; lra).
    assert (dx * Rabs s <= ((a - 1) * m + E) * n) by (apply Rmult_le_compat; lra).
    assert (Rabs r * dy <= m * ((b - 1) * n + F)) by (apply Rmult_le_compat; lra). lra. }
  destruct (near_round _ _ _ _ _ _ Mn A G L) as [N1 N2].
  destruct (mult_fl x y Fx Fy) as [Fm Vm]; [lra|].
  split; [exact Fm|]. split; [exact Mn|]. split; [|rewrite Vm; exact N1].
  pose proof (Rmult_le_pos _ (1 + ulp1) G ltac:(lra)). lra.
Qed.
Lemma near_plus x y r s m n k E F E' : near x r m k E -> near y s n k F -> (E + F) * (1 + ulp1) + tiny <= E' ->
  (1 + ulp1) ^ S k * (m + n) + E' < top -> near (nadd x y) (r + s) (m + n) (S k) E'.
Proof.
  intros (Fx & Mx & Px & Ax) (Fy & My & Py & Ay) L T. pose proof ulp1_pos as Pu. pose proof tiny_pos as Pt.
  assert (Mn : Rabs (r + s) <= m + n) by (eapply Rle_trans; [apply Rabs_triang|]; lra).
  assert (A : Rabs (val x + val y - (r + s)) <= ((1 + ulp1) ^ k - 1) * (m + n) + (E + F)).
  { replace (val x + val y - (r + s)) with ((val x - r) + (val y - s)) by ring. eapply Rle_trans; [apply Rabs_triang|]. lra. }
  destruct (near_round _ _ _ _ _ _ Mn A ltac:(lra) L) as [N1 N2].
  destruct (plus_fl x y Fx Fy) as [Fm Vm]; [lra|].
  split; [exact Fm|]. split; [exact Mn|]. split; [|rewrite Vm; exact N1].
  pose proof (Rmult_le_pos (E + F) (1 + ulp1) ltac:(lra) ltac:(lra)). lra.
Qed.
(** One operation on given numbers, relative to its own result. *)
Lemma near_minus1 x y : fin x -> fin y -> (1 + ulp1) * Rabs (val x - val y) + tiny < top ->
  near (nsub x y) (val x - val y) (Rabs (val x - val y)) 1 tiny.
Proof.
  intros Fx Fy T. pose proof ulp1_pos as Pu. pose proof tiny_pos as Pt.
  destruct (near_round (val x - val y) (val x - val y) (Rabs (val x - val y)) 0 0 tiny) as [N1 N2]; try lra.
  { rewrite Rminus_eq_0, Rabs_R0. cbn [pow]. lra. }
  destruct (minus_fl x y Fx Fy) as [Fm Vm]; [cbn [pow] in N2; lra|].
  split; [exact Fm|]. split; [lra|]. split; [lra|]. rewrite Vm. exact N1.
Qed.
(** Numbers with few bits are exact. *)
Lemma fl_dyadic (z e : Z) : (Z.abs z < 2 ^ 53)%Z -> (-1074 <= e)%Z -> fl (IZR z * bpow radix2 e) = IZR z * bpow radix2 e.
Proof.
  intros H He. apply round_generic; [apply valid_rnd_round_mode|]. apply generic_format_FLT.
  exists (Float radix2 z e); auto.
Qed.
Lemma val_int (z : Z) : (Z.abs z < 2 ^ 53)%Z -> fin (bofZ z) /\ val (bofZ z) = IZR z.
Proof.
  intros H. pose proof (binary_normalize_correct prec emax prec_gt_0 prec_lt_emax mode_NE z 0 false) as C.
  cbv zeta in C. fold (bofZ z) in C.
  assert (F : F2R (Float radix2 z 0) = IZR z) by (unfold F2R; simpl; ring).
  rewrite F in C. pose proof (fl_dyadic z 0 H ltac:(lia)) as G. change (bpow radix2 0) with 1 in G. rewrite Rmult_1_r in G.
  unfold fl in G. rewrite G in C. rewrite Rlt_bool_true in C.
  - destruct C as (C1 & C2 & _). split; [exact C2 | exact C1].
  - rewrite <- abs_IZR. apply Rlt_trans with (IZR (2 ^ 53)); [apply IZR_lt; exact H|].
    change (2 ^ 53)%Z with (radix2 ^ 53)%Z. rewrite IZR_Zpower by lia. apply bpow_lt. reflexivity.
Qed.

(** Sizes. *)
Lemma ulp1_small : ulp1 <= / 1000000.
Proof. unfold ulp1. apply Rinv_le_contravar; [lra|]. assert (1000000 <= 2 ^ 20) by lra. assert (2 ^ 20 <= 2 ^ 53) by (apply Rle_pow; [lra|lia]). lra. Qed.
Lemma tiny_small : tiny * 1000000 <= ulp1.
Proof.
  rewrite tiny_bpow, ulp1_bpow. apply Rle_trans with (bpow radix2 (-1075) * bpow radix2 20).
  - apply Rmult_le_compat_l; [apply bpow_ge_0|]. change (bpow radix2 20) with (IZR (2 ^ 20)). lra.
  - rewrite <- bpow_plus. apply bpow_le. lia.
Qed.
Lemma pow_small (k : nat) : (k <= 20)%nat -> (1 + ulp1) ^ k <= 1 + (INR k + / 100) * ulp1.
Proof.
  intros K. pose proof ulp1_pos as P. pose proof ulp1_small as S.
  assert (G : forall j, (j <= 20)%nat -> (1 + ulp1) ^ j <= 1 + INR j * ulp1 + INR j * INR j * (ulp1 * ulp1)).
  { induction j as [|j IH]; intros J; [change (INR 0) with 0; simpl; lra|].
    specialize (IH ltac:(lia)). cbn [pow]. rewrite S_INR.
    assert (Jb : 0 <= INR j <= 20) by (split; [apply pos_INR | replace 20 with (INR 20) by (simpl; ring); apply le_INR; lia]).
    set (x := INR j) in *. apply Rle_trans with ((1 + ulp1) * (1 + x * ulp1 + x * x * (ulp1 * ulp1))); [apply Rmult_le_compat_l; lra|].
    assert (x * x <= 400) by nra. assert (ulp1 * ulp1 <= ulp1 * / 1000000) by (apply Rmult_le_compat_l; lra).
    assert (0 <= x * x * (ulp1 * ulp1)) by (repeat apply Rmult_le_pos; lra).
    assert (x * x * (ulp1 * ulp1) * ulp1 <= (ulp1 * ulp1) * (400 * / 1000000)).
    { replace (x * x * (ulp1 * ulp1) * ulp1) with ((ulp1 * ulp1) * (x * x * ulp1)) by ring.
      apply Rmult_le_compat_l; [nra|]. apply Rmult_le_compat; nra. }
    assert (0 <= x * (ulp1 * ulp1)) by (repeat apply Rmult_le_pos; lra).
    assert (0 <= ulp1 * ulp1) by nra. lra. }
  specialize (G k K). assert (Jb : 0 <= INR k <= 20) by (split; [apply pos_INR | replace 20 with (INR 20) by (simpl; ring); apply le_INR; lia]).
  set (x := INR k) in *. assert (x * x <= 400) by nra. assert (x * x * (ulp1 * ulp1) <= 400 * (ulp1 * ulp1)) by (apply Rmult_le_compat_r; nra).
  assert (ulp1 * ulp1 <= ulp1 * / 1000000) by (apply Rmult_le_compat_l; lra). lra.
Qed.
Lemma pow_1001 (k : nat) : (k <= 20)%nat -> (1 + ulp1) ^ k <= 1001 / 1000.
Proof.
  intros K. pose proof (pow_small k K) as P. pose proof ulp1_pos. pose proof ulp1_small.
  assert (Jb : INR k <= 20) by (replace 20 with (INR 20) by (simpl; ring); apply le_INR; lia).
  assert ((INR k + / 100) * ulp1 <= (20 + / 100) * ulp1) by (apply Rmult_le_compat_r; lra). lra.
Qed.
Lemma top_big : 16 <= top.
Proof. unfold top. change 16 with (bpow radix2 4). apply bpow_le. unfold emax. lia. Qed.

(** Weights, of size at most 3. *)
Lemma near_weight x y r s m n k l e f g A B : near x r m k (e * tiny) -> near y s n l (f * tiny) ->
  (k + l < 20)%nat -> m <= A -> n <= B -> A * B <= 3 -> 0 <= A <= 3 -> 0 <= B <= 3 -> 0 <= e <= 100 -> 0 <= f <= 100 ->
  (e * B + f * A + 1) * (101 / 100) + 1 <= g -> g <= 10000 ->
  near (nmul x y) (r * s) (m * n) (S (k + l)) (g * tiny).
Proof.
  intros Nx Ny K Am Bn AB PA PB Pe Pf G Gb. pose proof ulp1_pos as Pu. pose proof ulp1_small as Su. pose proof tiny_pos as Pt. pose proof tiny_small as St.
  pose proof (pow_1001 k ltac:(lia)) as Pk. pose proof (pow_1001 l ltac:(lia)) as Pl. pose proof (pow_1001 (S (k + l)) ltac:(lia)) as Pm.
  pose proof (pow_ge1 k) as Pk1. pose proof (pow_ge1 l) as Pl1. pose proof (pow_ge1 (S (k + l))) as Pm1.
  assert (M0 : 0 <= m) by (destruct Nx as (_ & ? & _); pose proof (Rabs_pos r); lra).
  assert (N0 : 0 <= n) by (destruct Ny as (_ & ? & _); pose proof (Rabs_pos s); lra).
  assert (MN : m * n <= 3) by (apply Rle_trans with (A * B); [apply Rmult_le_compat; lra | lra]).
  assert (MN0 : 0 <= m * n) by (apply Rmult_le_pos; lra).
  eapply near_mult; [exact Nx | exact Ny | |].
  - assert (H1 : (1 + ulp1) ^ l * n <= 1001 / 1000 * B) by (apply Rmult_le_compat; lra).
    assert (H2 : (1 + ulp1) ^ k * m <= 1001 / 1000 * A) by (apply Rmult_le_compat; lra).
    assert (H3 : e * ((1 + ulp1) ^ l * n) <= e * (1001 / 1000 * B)) by (apply Rmult_le_compat_l; lra).
    assert (H4 : f * ((1 + ulp1) ^ k * m) <= f * (1001 / 1000 * A)) by (apply Rmult_le_compat_l; lra).
    assert (H5 : e * f * tiny <= / 10).
    { apply Rle_trans with (100 * 100 * tiny); [apply Rmult_le_compat_r; [lra|]; apply Rmult_le_compat; lra | lra]. }
    assert (0 <= e * f * tiny) by (repeat apply Rmult_le_pos; lra).
    assert (0 <= e * B) by (apply Rmult_le_pos; lra). assert (0 <= f * A) by (apply Rmult_le_pos; lra).
    set (q := e * ((1 + ulp1) ^ l * n) + f * ((1 + ulp1) ^ k * m) + e * f * tiny).
    assert (Q : q * (1 + ulp1) + 1 <= g).
    { assert (0 <= (1 + ulp1) ^ l * n) by (apply Rmult_le_pos; lra). assert (0 <= (1 + ulp1) ^ k * m) by (apply Rmult_le_pos; lra).
      assert (0 <= e * ((1 + ulp1) ^ l * n)) by (apply Rmult_le_pos; lra). assert (0 <= f * ((1 + ulp1) ^ k * m)) by (apply Rmult_le_pos; lra).
      assert (q * (1 + ulp1) <= (e * (1001 / 1000 * B) + f * (1001 / 1000 * A) + / 10) * (1001 / 1000)) by (unfold q; apply Rmult_le_compat; lra). lra. }
    replace ((e * tiny * ((1 + ulp1) ^ l * n) + f * tiny * ((1 + ulp1) ^ k * m) + e * tiny * (f * tiny)) * (1 + ulp1) + tiny)
      with ((q * (1 + ulp1) + 1) * tiny) by (unfold q; ring).
    apply Rmult_le_compat_r; lra.
  - assert ((1 + ulp1) ^ S (k + l) * (m * n) <= 1001 / 1000 * 3) by (apply Rmult_le_compat; lra).
    assert (g * tiny <= 10000 * tiny) by (apply Rmult_le_compat_r; lra). pose proof top_big. lra.
Qed.
(** A weight times a coordinate. *)
Lemma near_term w x r m k e M : near w r m k (e * tiny) -> fin x -> Rabs (val x) <= M -> 16 * M <= top ->
  (k < 10)%nat -> m <= 1 -> 0 <= e <= 100 ->
  near (nmul w x) (r * val x) (m * Rabs (val x)) (S k) ((e * (11 / 10) * M + 1) * tiny).
Proof.
  intros Nw Fx Mx MT K M1 Pe. pose proof ulp1_pos as Pu. pose proof ulp1_small as Su. pose proof tiny_pos as Pt. pose proof tiny_small as St.
  pose proof (near_exact x (Rabs (val x)) Fx ltac:(lra)) as Nx.
  pose proof (pow_1001 (S k) ltac:(lia)) as Pm. pose proof (pow_ge1 (S k)) as Pm1.
  assert (M0 : 0 <= m) by (destruct Nw as (_ & ? & _); pose proof (Rabs_pos r); lra).
  pose proof (Rabs_pos (val x)) as X0.
  assert (EX : 0 <= e * Rabs (val x) <= e * M) by (split; [apply Rmult_le_pos | apply Rmult_le_compat_l]; lra).
  replace (S k) with (S (k + 0)) by lia. eapply near_mult; [exact Nw | exact Nx | |].
  - rewrite Rmult_0_l, Rmult_0_r. cbn [pow]. rewrite Rmult_1_l, !Rplus_0_r.
    replace (e * tiny * Rabs (val x) * (1 + ulp1) + tiny) with ((e * Rabs (val x) * (1 + ulp1) + 1) * tiny) by ring.
    apply Rmult_le_compat_r; [lra|]. replace (e * (11 / 10) * M) with (e * M * (11 / 10)) by ring. assert (e * Rabs (val x) * (1 + ulp1) <= e * M * (11 / 10)) by (apply Rmult_le_compat; lra). lra.
  - replace (S (k + 0)) with (S k) by lia. replace (e * (11 / 10) * M) with (e * M * (11 / 10)) by ring.
    assert (m * Rabs (val x) <= 1 * M) by (apply Rmult_le_compat; lra). assert (0 <= m * Rabs (val x)) by (apply Rmult_le_pos; lra).
    assert ((1 + ulp1) ^ S k * (m * Rabs (val x)) <= 1001 / 1000 * (1 * M)) by (apply Rmult_le_compat; lra).
    assert (e * M * (11 / 10) * tiny <= M * (110 * tiny)).
    { replace (e * M * (11 / 10) * tiny) with (M * (e * (11 / 10) * tiny)) by ring. apply Rmult_le_compat_l; [lra|].
      apply Rmult_le_compat_r; lra. }
    assert (M * (110 * tiny) <= M * / 10) by (apply Rmult_le_compat_l; lra). pose proof top_big. lra.
Qed.

(** Adding terms: [E] in the form (p M + q) tiny. *)
Lemma near_sum x y r s m n k p q p' q' M : near x r m k ((p * M + q) * tiny) -> near y s n k ((p' * M + q') * tiny) ->
  (k < 19)%nat -> 0 <= p <= 1000 -> 0 <= q <= 100 -> 0 <= p' <= 1000 -> 0 <= q' <= 100 -> m + n <= M -> 16 * M <= top ->
  near (nadd x y) (r + s) (m + n) (S k) (((p + p') * (11 / 10) * M + ((q + q') * (11 / 10) + 1)) * tiny).
Proof.
  intros Nx Ny K Pp Pq Pp' Pq' MN MT. pose proof ulp1_pos as Pu. pose proof ulp1_small as Su. pose proof tiny_pos as Pt. pose proof tiny_small as St.
  assert (M0 : 0 <= m + n) by (destruct Nx as (_ & ? & _), Ny as (_ & ? & _); pose proof (Rabs_pos r); pose proof (Rabs_pos s); lra).
  pose proof (pow_1001 (S k) ltac:(lia)) as Pm. pose proof (pow_ge1 (S k)) as Pm1.
  assert (PM : 0 <= (p + p') * M) by (apply Rmult_le_pos; lra).
  eapply near_plus; [exact Nx | exact Ny | |].
  - replace (((p * M + q) * tiny + (p' * M + q') * tiny) * (1 + ulp1) + tiny) with ((((p + p') * M + (q + q')) * (1 + ulp1) + 1) * tiny) by ring.
    apply Rmult_le_compat_r; [lra|].
    assert (((p + p') * M + (q + q')) * (1 + ulp1) <= ((p + p') * M + (q + q')) * (11 / 10)) by (apply Rmult_le_compat_l; lra). lra.
  - assert ((1 + ulp1) ^ S k * (m + n) <= 1001 / 1000 * M) by (apply Rmult_le_compat; lra).
    assert ((p + p') * (11 / 10) * M * tiny <= M * (2200 * tiny)).
    { replace ((p + p') * (11 / 10) * M * tiny) with (M * ((p + p') * (11 / 10) * tiny)) by ring. apply Rmult_le_compat_l; [lra|].
      apply Rmult_le_compat_r; lra. }
    assert (M * (2200 * tiny) <= M * / 10) by (apply Rmult_le_compat_l; lra).
    assert (((q + q') * (11 / 10) + 1) * tiny <= 1000 * tiny) by (apply Rmult_le_compat_r; lra).
    pose proof top_big. lra.
Qed.
(** The outcome. *)
Lemma near_final x r m k p q M c : near x r m k ((p * M + q) * tiny) -> (k <= 20)%nat -> 0 <= p <= 1000 -> 0 <= q <= 32 -> m <= M ->
  INR k + / 10 <= c -> fin x /\ Rabs (val x - r) <= c * ulp1 * M + 32 * tiny.
Proof.
  intros (F & Mr & _ & A) K Pp Pq MM C. split; [exact F|]. eapply Rle_trans; [exact A|].
  pose proof ulp1_pos as Pu. pose proof tiny_pos as Pt. pose proof tiny_small as St. pose proof (pow_small k K) as P. pose proof (pow_ge1 k) as P1. pose proof (Rabs_pos r) as R0.
  assert (((1 + ulp1) ^ k - 1) * m <= ((INR k + / 100) * ulp1) * M) by (apply Rmult_le_compat; lra).
  assert (p * M * tiny <= M * (1000 * tiny)).
  { replace (p * M * tiny) with (M * (p * tiny)) by ring. apply Rmult_le_compat_l; [lra|]. apply Rmult_le_compat_r; lra. }
  assert (M * (1000 * tiny) <= M * (ulp1 * / 100)) by (apply Rmult_le_compat_l; lra).
  assert (q * tiny <= 32 * tiny) by (apply Rmult_le_compat_r; lra).
  assert ((INR k + / 10) * (ulp1 * M) <= c * (ulp1 * M)) by (apply Rmult_le_compat_r; [apply Rmult_le_pos; lra | lra]).
  assert (0 <= ulp1 * M) by (apply Rmult_le_pos; lra). lra.
Qed.

Section Param.
  Context (t : b64) (Ft : fin t) (T : 0 <= val t <= 1).
  Let s := val t.
  Let mt : b64 := nsub (bofZ 1) t.
  Lemma near_t : near t s s 0 (0 * tiny).
  Proof. rewrite Rmult_0_l. apply near_exact; [exact Ft|]. unfold s. rewrite Rabs_pos_eq; lra. Qed.
  Lemma near_mt : near mt (1 - s) (1 - s) 1 (1 * tiny).
  Proof.
    destruct (val_int 1 ltac:(lia)) as [F1 V1]. pose proof ulp1_small. pose proof tiny_small. pose proof top_big. pose proof ulp1_pos.
    pose proof (near_minus1 (bofZ 1) t F1 Ft) as N. rewrite V1 in N. fold s in N, T. rewrite Rabs_pos_eq in N by lra. rewrite Rmult_1_l.
    apply N. assert ((1 + ulp1) * (1 - s) <= (1 + ulp1) * 1) by (apply Rmult_le_compat_l; lra). lra.
  Qed.
  Lemma near_const z : (Z.abs z < 2 ^ 53)%Z -> near (bofZ z) (IZR z) (Rabs (IZR z)) 0 (0 * tiny).
  Proof. intros H. destruct (val_int z H) as [F V]. rewrite Rmult_0_l. rewrite <- V. apply near_exact; [exact F | lra]. Qed.
  Lemma unit_mul a b : 0 <= a <= 1 -> 0 <= b <= 1 -> 0 <= a * b <= 1.
  Proof. intros A B. split; [apply Rmult_le_pos; lra|]. rewrite <- (Rmult_1_r 1). apply Rmult_le_compat; lra. Qed.
  Lemma unit_t : 0 <= s <= 1. Proof. exact T. Qed.
  Lemma unit_mt : 0 <= 1 - s <= 1. Proof. pose proof unit_t. lra. Qed.
  Lemma quarter : 0 <= (1 - s) * s <= / 4.
  Proof. pose proof unit_t. split; [apply Rmult_le_pos; lra|]. pose proof (Rle_0_sqr (s - / 2)) as Q. unfold Rsqr in Q. lra. Qed.
  Lemma third : 0 <= (1 - s) * (1 - s) * s * 3 <= 1 /\ 0 <= (1 - s) * (s * s) * 3 <= 1.
  Proof.
    pose proof quarter. pose proof unit_t.
    assert (A : 0 <= (1 - s) * s * (1 - s) <= / 4 * 1) by (split; [apply Rmult_le_pos | apply Rmult_le_compat]; lra).
    assert (B : 0 <= (1 - s) * s * s <= / 4 * 1) by (split; [apply Rmult_le_pos | apply Rmult_le_compat]; lra). lra.
  Qed.
  Ltac unit := pose proof unit_t; pose proof unit_mt; pose proof quarter; pose proof third;
    first [lra | solve [refine (proj2 (unit_mul _ _ _ _)); repeat (assumption || apply unit_mul)]].
  Ltac wt z A B N1 N2 := exact (near_weight _ _ _ _ _ _ _ _ _ _ z A B N1 N2 ltac:(lia) ltac:(unit) ltac:(unit)
    ltac:(lra) ltac:(lra) ltac:(lra) ltac:(lra) ltac:(lra) ltac:(lra) ltac:(lra)).
  Lemma near_2 : near (bofZ 2) 2 2 0 (0 * tiny).
  Proof. pose proof (near_const 2 ltac:(lia)) as N. rewrite Rabs_pos_eq in N by lra. exact N. Qed.
  Lemma near_3 : near (bofZ 3) 3 3 0 (0 * tiny).
  Proof. pose proof (near_const 3 ltac:(lia)) as N. rewrite Rabs_pos_eq in N by lra. exact N. Qed.
  Lemma near_0 : near (bofZ 0) 0 0 0 (0 * tiny).
  Proof. pose proof (near_const 0 ltac:(lia)) as N. rewrite Rabs_R0 in N. exact N. Qed.
  Lemma near_t2 : near (nmul t t) (s * s) (s * s) 1 (3 * tiny).
  Proof. wt 3 1 1 near_t near_t. Qed.
  Lemma near_mt2 : near (nmul mt mt) ((1 - s) * (1 - s)) ((1 - s) * (1 - s)) 3 (6 * tiny).
  Proof. wt 6 1 1 near_mt near_mt. Qed.
  Lemma near_mtt : near (nmul mt t) ((1 - s) * s) ((1 - s) * s) 2 (4 * tiny).
  Proof. wt 4 1 1 near_mt near_t. Qed.
  Lemma near_mtt2 : near (nmul (nmul mt t) (bofZ 2)) ((1 - s) * s * 2) ((1 - s) * s * 2) 3 (11 * tiny).
  Proof. wt 11 1 2 near_mtt near_2. Qed.
  Lemma near_mt3 : near (nmul (nmul mt mt) mt) ((1 - s) * (1 - s) * (1 - s)) ((1 - s) * (1 - s) * (1 - s)) 5 (10 * tiny).
  Proof. wt 10 1 1 near_mt2 near_mt. Qed.
  Lemma near_mt2t : near (nmul (nmul mt mt) t) ((1 - s) * (1 - s) * s) ((1 - s) * (1 - s) * s) 4 (9 * tiny).
  Proof. wt 9 1 1 near_mt2 near_t. Qed.
  Lemma near_mt2t3 : near (nmul (nmul (nmul mt mt) t) (bofZ 3)) ((1 - s) * (1 - s) * s * 3) ((1 - s) * (1 - s) * s * 3) 5 (30 * tiny).
  Proof.
    pose proof quarter. assert ((1 - s) * (1 - s) * s <= 1) by (fold s in T; nra).
    refine (near_weight _ _ _ _ _ _ _ _ _ _ 30 1 3 near_mt2t near_3 _ _ _ _ _ _ _ _ _ _); try lra. lia.
  Qed.
  Lemma near_mtt2' : near (nmul mt (nmul t t)) ((1 - s) * (s * s)) ((1 - s) * (s * s)) 3 (7 * tiny).
  Proof. wt 7 1 1 near_mt near_t2. Qed.
  Lemma near_mtt23 : near (nmul (nmul mt (nmul t t)) (bofZ 3)) ((1 - s) * (s * s) * 3) ((1 - s) * (s * s) * 3) 4 (24 * tiny).
  Proof.
    pose proof quarter. assert ((1 - s) * (s * s) <= 1) by (fold s in T; nra).
    refine (near_weight _ _ _ _ _ _ _ _ _ _ 24 1 3 near_mtt2' near_3 _ _ _ _ _ _ _ _ _ _); try lra. lia.
  Qed.
  Lemma near_t3 : near (nmul t (nmul t t)) (s * (s * s)) (s * (s * s)) 2 (6 * tiny).
  Proof. wt 6 1 1 near_t near_t2. Qed.

  Context (M : R) (MT : 16 * M <= top).
  Lemma share (w x : R) : 0 <= w -> Rabs x <= M -> 0 <= w * Rabs x <= w * M.
  Proof. intros W X. pose proof (Rabs_pos x). split; [apply Rmult_le_pos; lra | apply Rmult_le_compat_l; lra]. Qed.
  Ltac tm N k := eapply near_le with (k' := k); [refine (near_term _ _ _ _ _ _ M N _ _ MT _ _ _); [assumption | assumption | lia | unit | lra] | lia | apply Rle_refl].
  Lemma line_near x0 x1 : fin x0 -> fin x1 -> Rabs (val x0) <= M -> Rabs (val x1) <= M ->
    let x := nadd (nmul mt x0) (nmul t x1) in
    fin x /\ Rabs (val x - ((1 - s) * val x0 + s * val x1)) <= 4 * ulp1 * M + 32 * tiny.
  Proof.
    intros F0 F1 M0 M1 x.
    pose proof (share (1 - s) (val x0) ltac:(fold s in T; lra) M0) as S0. pose proof (share s (val x1) ltac:(fold s in T; lra) M1) as S1.
    assert (N0 : near (nmul mt x0) ((1 - s) * val x0) ((1 - s) * Rabs (val x0)) 2 ((1 * (11 / 10) * M + 1) * tiny)) by tm near_mt 2%nat.
    assert (N1 : near (nmul t x1) (s * val x1) (s * Rabs (val x1)) 2 ((0 * (11 / 10) * M + 1) * tiny)) by tm near_t 2%nat.
    pose proof (near_sum _ _ _ _ _ _ _ _ _ _ _ _ N0 N1 ltac:(lia) ltac:(lra) ltac:(lra) ltac:(lra) ltac:(lra) ltac:(lra) MT) as N.
    eapply near_final; [exact N | lia | lra | lra | lra | simpl; lra].
  Qed.
  Lemma quad_near x0 x1 x2 x3 : fin x0 -> fin x1 -> fin x2 -> Rabs (val x0) <= M -> Rabs (val x1) <= M -> Rabs (val x2) <= M -> x3 = bofZ 0 ->
    let x := nadd (nadd (nadd (nmul (nmul mt mt) x0) (nmul (nmul (nmul mt t) (bofZ 2)) x1)) (nmul (nmul t t) x2)) (nmul (bofZ 0) x3) in
    fin x /\ Rabs (val x - ((1 - s) * (1 - s) * val x0 + (1 - s) * s * 2 * val x1 + s * s * val x2)) <= 10 * ulp1 * M + 32 * tiny.
  Proof.
    intros F0 F1 F2 M0 M1 M2 E3 x. pose proof quarter as Q.
    assert (F3 : fin x3) by (subst x3; apply near_0). assert (V3 : val x3 = 0) by (subst x3; reflexivity).
    assert (M3 : Rabs (val x3) <= M) by (rewrite V3, Rabs_R0; pose proof (Rabs_pos (val x0)); lra).
    pose proof (share ((1 - s) * (1 - s)) (val x0) ltac:(fold s in T; nra) M0) as S0.
    pose proof (share ((1 - s) * s * 2) (val x1) ltac:(fold s in T; nra) M1) as S1.
    pose proof (share (s * s) (val x2) ltac:(fold s in T; nra) M2) as S2.
    assert (N0 : near (nmul (nmul mt mt) x0) ((1 - s) * (1 - s) * val x0) ((1 - s) * (1 - s) * Rabs (val x0)) 4 ((6 * (11 / 10) * M + 1) * tiny)) by tm near_mt2 4%nat.
    assert (N1 : near (nmul (nmul (nmul mt t) (bofZ 2)) x1) ((1 - s) * s * 2 * val x1) ((1 - s) * s * 2 * Rabs (val x1)) 4 ((11 * (11 / 10) * M + 1) * tiny)) by tm near_mtt2 4%nat.
    assert (N2 : near (nmul (nmul t t) x2) (s * s * val x2) (s * s * Rabs (val x2)) 5 ((3 * (11 / 10) * M + 1) * tiny)) by tm near_t2 5%nat.
    assert (N3 : near (nmul (bofZ 0) x3) (0 * val x3) (0 * Rabs (val x3)) 6 ((0 * (11 / 10) * M + 1) * tiny)) by tm near_0 6%nat.
    assert (W : (1 - s) * (1 - s) * M + (1 - s) * s * 2 * M + s * s * M = M) by ring.
    rewrite (Rmult_0_l (Rabs _)) in N3.
    pose proof (near_sum _ _ _ _ _ _ _ _ _ _ _ _ N0 N1 ltac:(lia) ltac:(lra) ltac:(lra) ltac:(lra) ltac:(lra) ltac:(lra) MT) as A.
    pose proof (near_sum _ _ _ _ _ _ _ _ _ _ _ _ A N2 ltac:(lia) ltac:(lra) ltac:(lra) ltac:(lra) ltac:(lra) ltac:(lra) MT) as B.
    pose proof (near_sum _ _ _ _ _ _ _ _ _ _ _ _ B N3 ltac:(lia) ltac:(lra) ltac:(lra) ltac:(lra) ltac:(lra) ltac:(lra) MT) as C.
    rewrite Rmult_0_l, Rplus_0_r in C.
    eapply near_final; [exact C | lia | lra | lra | lra | simpl; lra].
  Qed.
  Lemma cubic_near x0 x1 x2 x3 : fin x0 -> fin x1 -> fin x2 -> fin x3 ->
    Rabs (val x0) <= M -> Rabs (val x1) <= M -> Rabs (val x2) <= M -> Rabs (val x3) <= M ->
    let x := nadd (nadd (nadd (nmul (nmul (nmul mt mt) mt) x0) (nmul (nmul (nmul (nmul mt mt) t) (bofZ 3)) x1))
                        (nmul (nmul (nmul mt (nmul t t)) (bofZ 3)) x2)) (nmul (nmul t (nmul t t)) x3) in
    fin x /\ Rabs (val x - ((1 - s) * (1 - s) * (1 - s) * val x0 + (1 - s) * (1 - s) * s * 3 * val x1 + (1 - s) * (s * s) * 3 * val x2 + s * (s * s) * val x3))
      <= 10 * ulp1 * M + 32 * tiny.
  Proof.
    intros F0 F1 F2 F3 M0 M1 M2 M3 x. pose proof quarter as Q. fold s in T.
    assert (Q1 : 0 <= (1 - s) * (1 - s) * (1 - s)) by (repeat apply Rmult_le_pos; lra).
    assert (Q2 : 0 <= (1 - s) * (1 - s) * s * 3) by (repeat apply Rmult_le_pos; lra).
    assert (Q3 : 0 <= (1 - s) * (s * s) * 3) by (repeat apply Rmult_le_pos; lra).
    assert (Q4 : 0 <= s * (s * s)) by (repeat apply Rmult_le_pos; lra).
    pose proof (share _ (val x0) Q1 M0) as S0. pose proof (share _ (val x1) Q2 M1) as S1.
    pose proof (share _ (val x2) Q3 M2) as S2. pose proof (share _ (val x3) Q4 M3) as S3.
    assert (N0 : near (nmul (nmul (nmul mt mt) mt) x0) ((1 - s) * (1 - s) * (1 - s) * val x0) ((1 - s) * (1 - s) * (1 - s) * Rabs (val x0)) 6 ((10 * (11 / 10) * M + 1) * tiny)) by tm near_mt3 6%nat.
    assert (N1 : near (nmul (nmul (nmul (nmul mt mt) t) (bofZ 3)) x1) ((1 - s) * (1 - s) * s * 3 * val x1) ((1 - s) * (1 - s) * s * 3 * Rabs (val x1)) 6 ((30 * (11 / 10) * M + 1) * tiny)) by tm near_mt2t3 6%nat.
    assert (N2 : near (nmul (nmul (nmul mt (nmul t t)) (bofZ 3)) x2) ((1 - s) * (s * s) * 3 * val x2) ((1 - s) * (s * s) * 3 * Rabs (val x2)) 7 ((24 * (11 / 10) * M + 1) * tiny)) by tm near_mtt23 7%nat.
    assert (N3 : near (nmul (nmul t (nmul t t)) x3) (s * (s * s) * val x3) (s * (s * s) * Rabs (val x3)) 8 ((6 * (11 / 10) * M + 1) * tiny)) by tm near_t3 8%nat.
    assert (W : (1 - s) * (1 - s) * (1 - s) * M + (1 - s) * (1 - s) * s * 3 * M + (1 - s) * (s * s) * 3 * M + s * (s * s) * M = M) by ring.
    pose proof (near_sum _ _ _ _ _ _ _ _ _ _ _ _ N0 N1 ltac:(lia) ltac:(lra) ltac:(lra) ltac:(lra) ltac:(lra) ltac:(lra) MT) as A.
    pose proof (near_sum _ _ _ _ _ _ _ _ _ _ _ _ A N2 ltac:(lia) ltac:(lra) ltac:(lra) ltac:(lra) ltac:(lra) ltac:(lra) MT) as B.
    pose proof (near_sum _ _ _ _ _ _ _ _ _ _ _ _ B N3 ltac:(lia) ltac:(lra) ltac:(lra) ltac:(lra) ltac:(lra) ltac:(lra) MT) as C.
    eapply near_final; [exact C | lia | lra | lra | lra | simpl; lra].
  Qed.
End Param.

Section Casteljau.
  Context (t : b64) (Ft : fin t) (T : 0 <= val t <= 1) (M : R).
  Lemma dc_near' a b p A B e : fin a -> fin b -> p = nmul (nsub b a) t \/ p = nmul t (nsub b a) -> Rabs A <= M -> Rabs B <= M -> Rabs (val a - A) <= e -> Rabs (val b - B) <= e ->
    8 * (M + e) <= top -> let x := nadd a p in
    fin x /\ Rabs (val x - (A + (B - A) * val t)) <= e + 6 * ulp1 * (M + e) + 4 * tiny.
  Proof.
    intros Fa Fb Dp MA MB Ea Eb L x. set (G := M + e) in *.
    pose proof ulp1_pos as Pu. pose proof ulp1_small as Su. pose proof tiny_pos as Pt. pose proof tiny_small as St. pose proof top_big as Tb.
    assert (Ga : Rabs (val a) <= G).
    { pose proof (Rabs_triang (val a - A) A) as R. replace (val a - A + A) with (val a) in R by ring. unfold G. lra. }
    assert (Gb : Rabs (val b) <= G).
    { pose proof (Rabs_triang (val b - B) B) as R. replace (val b - B + B) with (val b) in R by ring. unfold G. lra. }
    pose proof (Rabs_pos (val a)) as G0.
    assert (uG : ulp1 * G <= / 1000000 * G) by (apply Rmult_le_compat_r; lra).
    assert (uG0 : 0 <= ulp1 * G) by (apply Rmult_le_pos; lra).
    assert (D0 : Rabs (val b - val a) <= 2 * G).
    { unfold Rminus. eapply Rle_trans; [apply Rabs_triang|]. rewrite Rabs_Ropp. lra. }
    pose proof (fl_err (val b - val a)) as Ed.
    assert (uD : ulp1 * Rabs (val b - val a) <= ulp1 * (2 * G)) by (apply Rmult_le_compat_l; lra).
    assert (D1 : Rabs (fl (val b - val a)) <= 2 * G + 2 * (ulp1 * G) + tiny).
    { pose proof (Rabs_triang (fl (val b - val a) - (val b - val a)) (val b - val a)) as R.
      replace (fl (val b - val a) - (val b - val a) + (val b - val a)) with (fl (val b - val a)) in R by ring. lra. }
    destruct (minus_fl b a Fb Fa) as [Fd Vd]; [lra|]. set (d := nsub b a) in *. rewrite <- Vd in Ed, D1.
    assert (D2 : Rabs (val d * val t) <= 2 * G + 2 * (ulp1 * G) + tiny).
    { rewrite Rabs_mult, (Rabs_pos_eq (val t)) by lra. pose proof (Rabs_pos (val d)).
      apply Rle_trans with (Rabs (val d) * 1); [apply Rmult_le_compat_l; lra | lra]. }
    pose proof (fl_err (val d * val t)) as Ep.
    assert (uP : ulp1 * Rabs (val d * val t) <= ulp1 * (2 * G + 2 * (ulp1 * G) + tiny)) by (apply Rmult_le_compat_l; lra).
    assert (uu : ulp1 * (ulp1 * G) <= / 1000000 * (ulp1 * G)) by (apply Rmult_le_compat_r; lra).
    assert (ut : ulp1 * tiny <= / 1000000 * tiny) by (apply Rmult_le_compat_r; lra).
    assert (P1 : Rabs (fl (val d * val t)) <= 3 * G + 1).
    { pose proof (Rabs_triang (fl (val d * val t) - val d * val t) (val d * val t)) as R.
      replace (fl (val d * val t) - val d * val t + val d * val t) with (fl (val d * val t)) in R by ring. lra. }
    assert (FV : fin p /\ val p = fl (val d * val t)).
    { destruct Dp as [->| ->]; [apply mult_fl; auto; lra|]. rewrite Rmult_comm in *. apply mult_fl; auto; lra. }
    destruct FV as [Fp Vp]. rewrite <- Vp in Ep, P1.
    assert (Ep2 : Rabs (val p - (val b - val a) * val t) <= 4 * (ulp1 * G) + / 100 * (ulp1 * G) + (2 + / 100) * tiny).
    { replace (val p - (val b - val a) * val t) with ((val p - val d * val t) + (val d - (val b - val a)) * val t) by ring.
      eapply Rle_trans; [apply Rabs_triang|]. rewrite Rabs_mult, (Rabs_pos_eq (val t)) by lra.
      assert (Rabs (val d - (val b - val a)) * val t <= Rabs (val d - (val b - val a)) * 1) by (apply Rmult_le_compat_l; [apply Rabs_pos | lra]). lra. }
    assert (C : Rabs (val a + (val b - val a) * val t) <= G).
    { replace (val a + (val b - val a) * val t) with ((1 - val t) * val a + val t * val b) by ring.
      eapply Rle_trans; [apply Rabs_triang|]. rewrite !Rabs_mult, (Rabs_pos_eq (val t)), (Rabs_pos_eq (1 - val t)) by lra.
      assert ((1 - val t) * Rabs (val a) <= (1 - val t) * G) by (apply Rmult_le_compat_l; lra).
      assert (val t * Rabs (val b) <= val t * G) by (apply Rmult_le_compat_l; lra). lra. }
    assert (S1 : Rabs (val a + val p) <= G + / 100 * G + 3 * tiny).
    { pose proof (Rabs_triang (val p - (val b - val a) * val t) (val a + (val b - val a) * val t)) as R.
      replace (val p - (val b - val a) * val t + (val a + (val b - val a) * val t)) with (val a + val p) in R by ring. lra. }
    pose proof (fl_err (val a + val p)) as Es.
    assert (uS : ulp1 * Rabs (val a + val p) <= ulp1 * (G + / 100 * G + 3 * tiny)) by (apply Rmult_le_compat_l; lra).
    assert (X1 : Rabs (fl (val a + val p)) <= 2 * G + 1).
    { pose proof (Rabs_triang (fl (val a + val p) - (val a + val p)) (val a + val p)) as R.
      replace (fl (val a + val p) - (val a + val p) + (val a + val p)) with (fl (val a + val p)) in R by ring. lra. }
    destruct (plus_fl a p Fa Fp) as [Fx Vx]; [lra|]. fold x in Fx, Vx. rewrite <- Vx in Es. split; [exact Fx|].
    assert (I : Rabs ((1 - val t) * (val a - A) + val t * (val b - B)) <= e).
    { eapply Rle_trans; [apply Rabs_triang|]. rewrite !Rabs_mult, (Rabs_pos_eq (val t)), (Rabs_pos_eq (1 - val t)) by lra.
      assert ((1 - val t) * Rabs (val a - A) <= (1 - val t) * e) by (apply Rmult_le_compat_l; lra).
      assert (val t * Rabs (val b - B) <= val t * e) by (apply Rmult_le_compat_l; lra). lra. }
    replace (val x - (A + (B - A) * val t)) with
      ((val x - (val a + val p)) + ((val p - (val b - val a) * val t) + ((1 - val t) * (val a - A) + val t * (val b - B)))) by ring.
    eapply Rle_trans; [apply Rabs_triang|].
    pose proof (Rabs_triang (val p - (val b - val a) * val t) ((1 - val t) * (val a - A) + val t * (val b - B))) as R. lra.
  Qed.

  Lemma dc_near a b A B e : fin a -> fin b -> Rabs A <= M -> Rabs B <= M -> Rabs (val a - A) <= e -> Rabs (val b - B) <= e ->
    8 * (M + e) <= top -> let x := nadd a (nmul (nsub b a) t) in
    fin x /\ Rabs (val x - (A + (B - A) * val t)) <= e + 6 * ulp1 * (M + e) + 4 * tiny.
  Proof. intros. apply (dc_near' a b); auto. Qed.
  Lemma lerp_near a b A B e : fin a -> fin b -> Rabs A <= M -> Rabs B <= M -> Rabs (val a - A) <= e -> Rabs (val b - B) <= e ->
    8 * (M + e) <= top -> let x := nadd a (nmul t (nsub b a)) in
    fin x /\ Rabs (val x - (A + val t * (B - A))) <= e + 6 * ulp1 * (M + e) + 4 * tiny.
  Proof. intros. rewrite (Rmult_comm (val t)). apply (dc_near' a b); auto. Qed.

  Definition tracks (e : R) (p : point b64) (q : pt) : Prop := off e p q /\ Rabs (fst q) <= M /\ Rabs (snd q) <= M.
  Lemma conv A B : Rabs A <= M -> Rabs B <= M -> Rabs (A + (B - A) * val t) <= M.
  Proof.
    intros MA MB. replace (A + (B - A) * val t) with ((1 - val t) * A + val t * B) by ring.
    eapply Rle_trans; [apply Rabs_triang|]. rewrite !Rabs_mult, (Rabs_pos_eq (val t)), (Rabs_pos_eq (1 - val t)) by lra.
    assert ((1 - val t) * Rabs A <= (1 - val t) * M) by (apply Rmult_le_compat_l; lra).
    assert (val t * Rabs B <= val t * M) by (apply Rmult_le_compat_l; lra). lra.
  Qed.
  Lemma level_near e ps qs : 8 * (M + e) <= top -> Forall2 (tracks e) ps qs ->
    Forall2 (tracks (e + 6 * ulp1 * (M + e) + 4 * tiny)) (dcLevel (dcStep t) ps) (dcLevel (dcStep (val t)) qs).
  Proof.
    intros L H. induction H as [|p q ps qs Hp H IH]; [constructor|]. cbn [dcLevel].
    destruct H as [|p' q' ps qs Hp' H]; [constructor|]. constructor; [|exact IH].
    destruct Hp as ((F1 & F2 & E1 & E2) & M1 & M2), Hp' as ((F1' & F2' & E1' & E2') & M1' & M2').
    destruct (dc_near _ _ _ _ e F1 F1' M1 M1' E1 E1' L) as [X1 X2]. destruct (dc_near _ _ _ _ e F2 F2' M2 M2' E2 E2' L) as [Y1 Y2].
    split; [split; [exact X1|]; split; [exact Y1|]; split; [exact X2 | exact Y2]|].
    split; [exact (conv _ _ M1 M1') | exact (conv _ _ M2 M2')].
  Qed.
  Lemma level_lerp e ps qs : 8 * (M + e) <= top -> Forall2 (tracks e) ps qs ->
    Forall2 (tracks (e + 6 * ulp1 * (M + e) + 4 * tiny)) (dcLevel (lerp t) ps) (dcLevel (lerp (val t)) qs).
  Proof.
    intros L H. induction H as [|p q ps qs Hp H IH]; [constructor|]. cbn [dcLevel].
    destruct H as [|p' q' ps qs Hp' H]; [constructor|]. constructor; [|exact IH].
    destruct p as [px py], q as [qx qy], p' as [px' py'], q' as [qx' qy'].
    destruct Hp as ((F1 & F2 & E1 & E2) & M1 & M2), Hp' as ((F1' & F2' & E1' & E2') & M1' & M2'). cbn [fst snd] in *.
    destruct (lerp_near _ _ _ _ e F1 F1' M1 M1' E1 E1' L) as [X1 X2]. destruct (lerp_near _ _ _ _ e F2 F2' M2 M2' E2 E2' L) as [Y1 Y2].
    split; [split; [exact X1|]; split; [exact Y1|]; split; [exact X2 | exact Y2]|].
    unfold lerp; cbn [fst snd]. pose proof (conv _ _ M1 M1') as C1. pose proof (conv _ _ M2 M2') as C2. rewrite Rmult_comm in C1, C2.
    split; [exact C1 | exact C2].
  Qed.
  (** The errors of all rounds. *)
  Definition slack : R := 4 * tiny / (6 * ulp1).
  Definition err (j : nat) : R := ((1 + 6 * ulp1) ^ j - 1) * (M + slack).
  Lemma err_S j : err j + 6 * ulp1 * (M + err j) + 4 * tiny = err (S j).
  Proof. unfold err, slack. cbn [pow]. pose proof ulp1_pos. field. lra. Qed.
  Lemma Forall2_len {A B} (P : A -> B -> Prop) l l' : Forall2 P l l' -> length l = length l'.
  Proof. induction 1; simpl; auto. Qed.
  Lemma loop_near n : (forall j, (j <= n)%nat -> 8 * (M + err j) <= top) -> forall fuel j ps qs, Forall2 (tracks (err j)) ps qs ->
    (0 < length ps <= fuel)%nat -> (j + length ps - 1 = n)%nat ->
    exists p q, dcLoop fuel t ps = Ok p /\ dcLoop fuel (val t) qs = Ok q /\ tracks (err n) p q.
  Proof.
    intros L. induction fuel as [|f IH]; intros j ps qs H Lp J; [lia|]. cbn [dcLoop]. rewrite <- (Forall2_len _ _ _ H).
    destruct (Nat.ltb_spec 1 (length ps)) as [Q|Q].
    - apply (IH (S j)).
      + rewrite <- err_S. apply level_near; [apply L; lia | exact H].
      + rewrite dcLevel_length. lia.
      + rewrite dcLevel_length. lia.
    - destruct H as [|p q ps qs Hp H]; [simpl in Lp; lia|]. exists p, q. split; [reflexivity|]. split; [reflexivity|].
      replace n with j by (simpl in *; lia). exact Hp.
  Qed.
  Lemma err_0 : err 0 = 0.
  Proof. unfold err. cbn [pow]. ring. Qed.
  Lemma err_mono i j : 0 <= M -> (i <= j)%nat -> err i <= err j.
  Proof.
    intros M0 L. unfold err. pose proof ulp1_pos as Pu. pose proof tiny_pos as Pt.
    assert (0 <= slack) by (unfold slack; apply Rmult_le_pos; [lra | left; apply Rinv_0_lt_compat; lra]).
    apply Rmult_le_compat_r; [lra|]. apply Rplus_le_compat_r. apply Rle_pow; [lra | exact L].
  Qed.
  Lemma tracks_le e e' p q : tracks e p q -> e <= e' -> tracks e' p q.
  Proof. intros ((F1 & F2 & E1 & E2) & H) L. split; [|exact H]. repeat split; auto; lra. Qed.
  Lemma Forall2_imp {A B} (P Q : A -> B -> Prop) l l' : (forall x y, P x y -> Q x y) -> Forall2 P l l' -> Forall2 Q l l'.
  Proof. intros I. induction 1; constructor; auto. Qed.
  Lemma hull_near n : 0 <= M -> (forall j, (j <= n)%nat -> 8 * (M + err j) <= top) -> forall fuel j ps qs a c, Forall2 (tracks (err j)) ps qs ->
    (0 < length ps)%nat -> (j + length ps - 1 = n)%nat -> Forall2 (tracks (err n)) a c ->
    Forall2 (tracks (err n)) (hullLoop fuel t ps a) (hullLoop fuel (val t) qs c).
  Proof.
    intros M0 L. induction fuel as [|f IH]; intros j ps qs a c H Lp J Hac; [exact Hac|]. cbn [hullLoop]. rewrite <- (Forall2_len _ _ _ H).
    destruct (Nat.ltb_spec 1 (length ps)) as [Q|Q]; [|exact Hac].
    pose proof (level_lerp _ _ _ (L j ltac:(lia)) H) as H'. rewrite err_S in H'.
    apply (IH (S j)); [exact H' | rewrite dcLevel_length; lia | rewrite dcLevel_length; lia|].
    apply Forall2_app; [exact Hac|]. eapply Forall2_imp; [|exact H']. intros u v Huv. eapply tracks_le; [exact Huv|].
    apply err_mono; [exact M0 | lia].
  Qed.
End Casteljau.
Lemma pow6 (n j : nat) : INR n <= 2 ^ 40 -> (j <= n)%nat -> (1 + 6 * ulp1) ^ j - 1 <= 7 * INR n * ulp1 /\ (1 + 6 * ulp1) ^ j <= 1001 / 1000.
Proof.
  intros N J. pose proof ulp1_pos as Pu.
  assert (NU : INR n * ulp1 <= / 8192).
  { apply Rle_trans with (2 ^ 40 * ulp1); [apply Rmult_le_compat_r; lra|]. unfold ulp1. replace (2 ^ 53) with (8192 * 2 ^ 40) by ring.
    assert (2 ^ 40 <> 0) by (apply pow_nonzero; lra). apply Req_le. field. }
  assert (JN : INR j <= INR n) by (apply le_INR; exact J).
  assert (JU : INR j * ulp1 <= INR n * ulp1) by (apply Rmult_le_compat_r; lra).
  assert (P : forall k, (k <= n)%nat -> (1 + 6 * ulp1) ^ k * (1 - 6 * INR k * ulp1) <= 1).
  { induction k as [|k IH]; intros K; [change (INR 0) with 0; simpl; lra|]. specialize (IH ltac:(lia)).
    cbn [pow]. rewrite S_INR.
    assert (KU : (INR k + 1) * ulp1 <= INR n * ulp1).
    { apply Rmult_le_compat_r; [lra|]. rewrite <- S_INR. apply le_INR; exact K. }
    assert (0 <= INR k * ulp1) by (apply Rmult_le_pos; [apply pos_INR | lra]).
    assert ((1 + 6 * ulp1) * (1 - 6 * (INR k + 1) * ulp1) <= 1 - 6 * INR k * ulp1).
    { assert (0 <= ulp1 * ((INR k + 1) * ulp1)) by (apply Rmult_le_pos; lra). lra. }
    assert (0 < (1 + 6 * ulp1) ^ k) by (apply pow_lt; lra).
    replace ((1 + 6 * ulp1) * (1 + 6 * ulp1) ^ k * (1 - 6 * (INR k + 1) * ulp1)) with ((1 + 6 * ulp1) ^ k * ((1 + 6 * ulp1) * (1 - 6 * (INR k + 1) * ulp1))) by ring.
    apply Rle_trans with ((1 + 6 * ulp1) ^ k * (1 - 6 * INR k * ulp1)); [apply Rmult_le_compat_l; lra | exact IH]. }
  specialize (P j J). set (y := (1 + 6 * ulp1) ^ j) in *. set (v := INR j * ulp1) in *.
  assert (0 <= v) by (apply Rmult_le_pos; [apply pos_INR | lra]).
  replace (6 * INR j * ulp1) with (6 * v) in P by (unfold v; ring). replace (7 * INR n * ulp1) with (7 * (INR n * ulp1)) by ring.
  split; nra.
Qed.

Lemma start_tracks M p : Forall (sized M) p -> Forall2 (tracks M (err M 0)) p (map vpt p).
Proof.
  intros A. rewrite err_0. induction A as [|a p Ha A IH]; [constructor|]. cbn [map]. constructor; [|exact IH].
  destruct Ha as (F1 & F2 & L1 & L2). split; [|split; [exact L1 | exact L2]]. split; [exact F1|]. split; [exact F2|].
  unfold vpt; cbn [fst snd]. rewrite !Rminus_eq_0, Rabs_R0. lra.
Qed.
Lemma err_bounds M n : 0 <= M -> 16 * M <= top -> INR n <= 2 ^ 40 ->
  (forall j, (j <= n)%nat -> 8 * (M + err M j) <= top) /\ err M n <= 7 * INR n * ulp1 * M + 5 * INR n * tiny.
Proof.
  intros M0 MT NB. pose proof ulp1_pos as Pu. pose proof tiny_pos as Pt. pose proof tiny_small as St. pose proof top_big as Tb.
  assert (Sl : 0 <= slack) by (unfold slack; apply Rmult_le_pos; [lra | left; apply Rinv_0_lt_compat; lra]).
  assert (Sl2 : slack <= 1).
  { unfold slack. apply Rmult_le_reg_r with (6 * ulp1); [lra|]. unfold Rdiv. rewrite Rmult_assoc, Rinv_l by lra. lra. }
  split.
  - intros j J. destruct (pow6 n j NB J) as [_ P]. unfold err.
    assert (((1 + 6 * ulp1) ^ j - 1) * (M + slack) <= (1001 / 1000 - 1) * (M + slack)) by (apply Rmult_le_compat_r; lra). lra.
  - destruct (pow6 n n NB (Nat.le_refl _)) as [P _]. unfold err. pose proof (pos_INR n) as N0.
    apply Rle_trans with (7 * INR n * ulp1 * (M + slack)); [apply Rmult_le_compat_r; lra|].
    assert (7 * INR n * ulp1 * slack = 14 / 3 * (INR n * tiny)) by (unfold slack; field; lra).
    assert (0 <= INR n * tiny) by (apply Rmult_le_pos; lra). lra.
Qed.
Lemma fin_place (x : b64) : fin x -> place x = val x.
Proof. unfold fin. destruct x; cbn; intros; auto; discriminate. Qed.
Lemma fin_not_nan (x : b64) : fin x -> not_nan x.
Proof. unfold fin, not_nan. destruct x; cbn; intros; auto; discriminate. Qed.
Lemma eqb_val (x y : b64) : fin x -> fin y -> neqb x y = true -> val x = val y.
Proof.
  intros Fx Fy E. apply (eqb_place x y (fin_not_nan x Fx) (fin_not_nan y Fy)) in E. now rewrite !fin_place in E.
Qed.
Lemma sized_off M p e : sized M p -> 0 <= e -> off e p (vpt p).
Proof.
  intros (F1 & F2 & _) E. split; [exact F1|]. split; [exact F2|]. unfold vpt; cbn [fst snd]. rewrite !Rminus_eq_0, Rabs_R0. auto.
Qed.
Lemma vpt_nth (p : list (point b64)) i d : (i < length p)%nat -> nth i (map vpt p) (0, 0) = vpt (nth i p d).
Proof. intros H. rewrite (nth_indep _ (0, 0) (vpt d)) by now rewrite map_length. apply map_nth. Qed.

Theorem get_near (b : bezier b64) (t : b64) (M : R) : fin t -> 0 <= val t <= 1 -> Forall (sized M) (cps b) -> cps b <> [] -> 16 * M <= top ->
  let n := order b in
  ((n <= 3)%nat -> exists p, get b t = Ok p /\ off (10 * ulp1 * M + 32 * tiny) p (curve (map vpt (cps b)) (val t))) /\
  ((4 <= n)%nat -> INR n <= 2 ^ 40 -> exists p, get b t = Ok p /\ off (7 * INR n * ulp1 * M + 5 * INR n * tiny) p (curve (map vpt (cps b)) (val t))).
Proof.
  intros Ft T A NE MT n. destruct b as [p u v]. cbn [cps] in *. unfold order in n; cbn [cps] in n.
  pose proof ulp1_pos as Pu. pose proof tiny_pos as Pt. pose proof ulp1_small as Su. pose proof tiny_small as St. pose proof top_big as Tb.
  assert (M0 : 0 <= M).
  { destruct A as [|a p (_ & _ & L & _) _]; [congruence|]. pose proof (Rabs_pos (val (fst a))). lra. }
  assert (UM : 0 <= ulp1 * M) by (apply Rmult_le_pos; lra).
  assert (Lp : (0 < length p)%nat) by (destruct p; [congruence | simpl; lia]).
  destruct (val_int 0 ltac:(lia)) as [F0 V0]. destruct (val_int 1 ltac:(lia)) as [F1 V1].
  assert (Pos : 0 <= 10 * ulp1 * M + 32 * tiny /\ 0 <= 7 * INR n * ulp1 * M + 5 * INR n * tiny).
  { pose proof (pos_INR n) as N0. split; [lra|]. assert (0 <= INR n * (ulp1 * M)) by (apply Rmult_le_pos; lra).
    assert (0 <= INR n * tiny) by (apply Rmult_le_pos; lra). lra. }
  unfold get, order; cbn [cps]. fold n.
  assert (Ix : forall i : nat, (i < length p)%nat -> curve (map vpt p) (val t) = nth i (map vpt p) (0, 0) -> idx p i = Ok (nth i p (bofZ 0, bofZ 0)) /\
     forall e, 0 <= e -> off e (nth i p (bofZ 0, bofZ 0)) (curve (map vpt p) (val t))).
  { intros i Li E. split; [apply idx_nth; exact Li|]. intros e Pe. rewrite E, (vpt_nth p i (bofZ 0, bofZ 0)) by exact Li.
    apply (sized_off M); [|exact Pe]. rewrite Forall_forall in A. apply A, nth_In, Li. }
  destruct (neqb t (nofZ 0)) eqn:E0.
  { apply eqb_val in E0; auto. cbn [nofZ FNum] in E0. rewrite V0 in E0.
    destruct (Ix 0%nat Lp) as [I O]; [rewrite E0, curve_cv; apply cv_0|]. rewrite I. split; intros; eexists; split; try reflexivity; apply O; lra. }
  destruct (neqb t (nofZ 1)) eqn:E1.
  { apply eqb_val in E1; auto. cbn [nofZ FNum] in E1. rewrite V1 in E1.
    destruct (Ix n ltac:(unfold n; lia)) as [I O]; [rewrite E1, curve_cv; unfold n; rewrite cv_1, map_length; reflexivity|].
    rewrite I. split; intros; eexists; split; try reflexivity; apply O; lra. }
  clear E0 E1. split.
  - intros N. destruct p as [|p0 [|p1 [|p2 [|p3 [|p4 r]]]]]; [simpl in Lp; lia| | | | |unfold n in N; simpl in N; lia].
    + destruct (Ix 0%nat ltac:(simpl; lia)) as [I O]; [rewrite curve_cv; apply cv_one; reflexivity|].
      change (n) with 0%nat. cbn [Nat.eqb]. rewrite I. eexists; split; [reflexivity | apply O; lra].
    + repeat match goal with H : Forall _ (_ :: _) |- _ => inversion H; clear H; subst end.
      repeat match goal with H : sized _ _ |- _ => destruct H as (? & ? & ? & ?) end.
      change n with 1%nat. cbn [Nat.eqb idx nth_error bind]. eexists; split; [reflexivity|].
      cbn [map]. rewrite curve2. unfold off; cbn [fst snd vpt].
      destruct (line_near t Ft T M MT (fst p0) (fst p1)) as [X1 X2]; auto.
      destruct (line_near t Ft T M MT (snd p0) (snd p1)) as [Y1 Y2]; auto.
      split; [exact X1|]. split; [exact Y1|]. split; [eapply Rle_trans; [exact X2 | lra] | eapply Rle_trans; [exact Y2 | lra]].
    + repeat match goal with H : Forall _ (_ :: _) |- _ => inversion H; clear H; subst end.
      repeat match goal with H : sized _ _ |- _ => destruct H as (? & ? & ? & ?) end.
      change n with 2%nat. cbn [Nat.eqb Nat.ltb Nat.leb idx nth_error bind]. eexists; split; [reflexivity|].
      cbn [map]. rewrite curve3. unfold off; cbn [fst snd vpt].
      destruct (quad_near t Ft T M MT (fst p0) (fst p1) (fst p2) (bofZ 0)) as [X1 X2]; auto.
      destruct (quad_near t Ft T M MT (snd p0) (snd p1) (snd p2) (bofZ 0)) as [Y1 Y2]; auto.
      split; [exact X1|]. split; [exact Y1|]. split;
        [eapply Rle_trans; [|exact X2] | eapply Rle_trans; [|exact Y2]]; apply Req_le; f_equal; cbn [nofZ FNum]; ring.
    + repeat match goal with H : Forall _ (_ :: _) |- _ => inversion H; clear H; subst end.
      repeat match goal with H : sized _ _ |- _ => destruct H as (? & ? & ? & ?) end.
      change n with 3%nat. cbn [Nat.eqb Nat.ltb Nat.leb idx nth_error bind]. eexists; split; [reflexivity|].
      cbn [map]. rewrite curve4. unfold off; cbn [fst snd vpt].
      destruct (cubic_near t Ft T M MT (fst p0) (fst p1) (fst p2) (fst p3)) as [X1 X2]; auto.
      destruct (cubic_near t Ft T M MT (snd p0) (snd p1) (snd p2) (snd p3)) as [Y1 Y2]; auto.
      split; [exact X1|]. split; [exact Y1|]. split;
        [eapply Rle_trans; [|exact X2] | eapply Rle_trans; [|exact Y2]]; apply Req_le; f_equal; cbn [nofZ FNum]; ring.
  - intros N4 NB. destruct n as [|[|[|[|m]]]] eqn:En; try lia. cbn [Nat.eqb Nat.ltb Nat.leb]. rewrite <- En in *.
    destruct (err_bounds M n M0 MT NB) as [LB Er]. pose proof (start_tracks M p A) as H0.
    destruct (loop_near t Ft T M n LB (length p) 0 p (map vpt p) H0 ltac:(lia) ltac:(lia)) as (q & q' & E & E' & (Hq & _)).
    exists q. split; [exact E|]. rewrite dcLoop_ok in E' by (rewrite map_length; lia).
    rewrite curve_cv. assert (Eq : cv (map vpt p) (val t) = q') by congruence. rewrite Eq.
    destruct Hq as (Q1 & Q2 & Q3 & Q4). split; [exact Q1|]. split; [exact Q2|]. split; lra.
Qed.
