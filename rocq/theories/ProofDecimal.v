(** Proofs: the length in Decimal arithmetic. *)
From Coq Require Import List ZArith Bool Reals Lra Lia Psatz.
From Flocq Require Import Core Relative.
From Verif Require Import Py InstFloat SpecGeom SpecBezier SpecCurve MTables MTransform MBezUtil MBezier MDecimal ProofLength.
Import ListNotations.
Local Open Scope R_scope.

(** ** Rounding *)
Section Rounding.
  Context (P : Z) (P3 : (3 <= P)%Z).
  Definition half_unit (p : Z) : R := / 2 * bpow ten (- p + 1).
  Notation u := (half_unit P).
  #[local] Instance P_pos : Prec_gt_0 P. Proof. unfold Prec_gt_0. lia. Qed.
  Lemma u_pos : 0 < u. Proof. unfold half_unit. pose proof (bpow_gt_0 ten (- P + 1)). lra. Qed.
  Lemma u_small : u <= 1 / 200.
  Proof. unfold half_unit. assert (bpow ten (- P + 1) <= bpow ten (-2)) by (apply bpow_le; lia). change (bpow ten (-2)) with (/ 100) in H. lra. Qed.
  Lemma u_times x : 0 <= x -> 0 <= u * x <= x / 200.
  Proof. intros X. pose proof u_pos. pose proof u_small. nra. Qed.
  Lemma drnd_err x : Rabs (drnd P x - x) <= u * Rabs x.
  Proof. apply relative_error_N_FLX. lia. Qed.
  Lemma drnd_le x y : x <= y -> drnd P x <= drnd P y.
  Proof. apply round_le; [apply FLX_exp_valid, P_pos | apply valid_rnd_N]. Qed.
  Lemma drnd_int z : (Z.abs z <= 100)%Z -> drnd P (IZR z) = IZR z.
  Proof.
    intros Z. apply round_generic; [apply valid_rnd_N|]. apply generic_format_FLX. apply FLX_spec with (Float ten z 0); [unfold F2R; cbn; ring|]. cbn [Fnum].
    apply Z.le_lt_trans with (1 := Z). apply Z.lt_le_trans with (10 ^ 3)%Z; [reflexivity|]. change (radix_val ten) with 10%Z. apply Z.pow_le_mono_r; lia.
  Qed.
  Lemma drnd_unit x (z : Z) : (Z.abs z <= 100)%Z -> 0 <= x <= IZR z -> 0 <= drnd P x <= IZR z.
  Proof. intros Z (A & B). rewrite <- (drnd_int 0) at 1 by lia. rewrite <- (drnd_int z Z) at 1. split; now apply drnd_le. Qed.
  (** A rounded product of nearby numbers. *)
  Lemma drnd_near x y e m : Rabs (x - y) <= e -> Rabs x <= m -> Rabs (drnd P x - y) <= e + u * m.
  Proof.
    intros E M. pose proof (drnd_err x) as D. pose proof u_pos. replace (drnd P x - y) with ((drnd P x - x) + (x - y)) by ring. eapply Rle_trans; [apply Rabs_triang|].
    assert (u * Rabs x <= u * m) by (apply Rmult_le_compat_l; lra). lra.
  Qed.
  Lemma drnd_size x m : Rabs x <= m -> Rabs (drnd P x) <= (1 + u) * m.
  Proof.
    intros M. pose proof (drnd_err x) as D. pose proof u_pos. replace (drnd P x) with ((drnd P x - x) + x) by ring. eapply Rle_trans; [apply Rabs_triang|].
    assert (u * Rabs x <= u * m) by (apply Rmult_le_compat_l; lra). lra.
  Qed.
  Lemma unit_prod x y x' y' e f : 0 <= x <= 1 -> 0 <= y <= 1 -> 0 <= x' <= 1 -> 0 <= y' <= 1 -> Rabs (x' - x) <= e -> Rabs (y' - y) <= f -> Rabs (x' * y' - x * y) <= e + f.
  Proof.
    intros X Y X' Y' E F. replace (x' * y' - x * y) with ((x' - x) * y' + x * (y' - y)) by ring. eapply Rle_trans; [apply Rabs_triang|]. rewrite !Rabs_mult, (Rabs_pos_eq y'), (Rabs_pos_eq x) by lra.
    pose proof (Rabs_pos (x' - x)). pose proof (Rabs_pos (y' - y)). nra.
  Qed.

  (** ** The weights of the derivative at the rounded parameter *)
  Definition wt (q : bool) (t : R) : R * R * R := if q then (1 - t, t, 0) else ((1 - t) * (1 - t), (1 - t) * t * 2, t * t).
  Definition wt' (q : bool) (t : R) : R * R * R :=
    let mt := dsub P 1 t in if q then (mt, t, 0) else (dmul P mt mt, dmul P (dmul P mt t) 2, dmul P t t).
  Definition w_near (w w' : R) : Prop := 0 <= w <= 1 /\ 0 <= w' <= 2 /\ Rabs (w' - w) <= 10 * u.
  Lemma weights q t t' : 0 <= t <= 1 -> 0 <= t' <= 1 -> Rabs (t' - t) <= u ->
    let '(a, b, c) := wt q t in let '(a', b', c') := wt' q t' in w_near a a' /\ w_near b b' /\ w_near c c'.
  Proof.
    intros T T' E. pose proof u_pos. pose proof u_small.
    assert (M : Rabs (dsub P 1 t' - (1 - t)) <= 2 * u).
    { eapply Rle_trans; [apply (drnd_near _ _ u 1)|]; [replace (1 - t' - (1 - t)) with (- (t' - t)) by ring; now rewrite Rabs_Ropp | rewrite Rabs_pos_eq; lra | lra]. }
    assert (M' : 0 <= dsub P 1 t' <= 1) by (apply (drnd_unit _ 1); [lia | lra]). set (m := dsub P 1 t') in *.
    destruct q; unfold wt, wt'; fold m.
    - split; [|split]; unfold w_near; (split; [lra|]); (split; [lra|]); [lra | lra | rewrite Rminus_0_r, Rabs_R0; lra].
    - assert (Q : 0 <= m * m <= 1 /\ 0 <= m * t' <= 1 /\ 0 <= t' * t' <= 1) by nra. destruct Q as (Q1 & Q2 & Q3).
      split; [|split]; unfold w_near.
      + split; [nra|]. split; [pose proof (drnd_unit _ 1 ltac:(lia) Q1); unfold dmul; lra|].
        eapply Rle_trans; [apply (drnd_near _ _ (2 * u + 2 * u) 1)|]; [apply unit_prod; lra | rewrite Rabs_pos_eq; lra | lra].
      + split; [nra|]. assert (R1 : 0 <= dmul P m t' <= 1) by (apply (drnd_unit _ 1 ltac:(lia) Q2)).
        assert (R2 : Rabs (dmul P m t' - (1 - t) * t) <= 4 * u). { eapply Rle_trans; [apply (drnd_near _ _ (2 * u + u) 1)|]; [apply unit_prod; lra | rewrite Rabs_pos_eq; lra | lra]. }
        set (g := dmul P m t') in *. split; [apply (drnd_unit _ 2 ltac:(lia)); lra|].
        eapply Rle_trans; [apply (drnd_near _ _ (8 * u) 2)|]; [replace (g * 2 - (1 - t) * t * 2) with ((g - (1 - t) * t) * 2) by ring; rewrite Rabs_mult, (Rabs_pos_eq 2) by lra; lra | rewrite Rabs_pos_eq; lra | lra].
      + split; [nra|]. split; [pose proof (drnd_unit _ 1 ltac:(lia) Q3); unfold dmul; lra|].
        eapply Rle_trans; [apply (drnd_near _ _ (u + u) 1)|]; [apply unit_prod; lra | rewrite Rabs_pos_eq; lra | lra].
  Qed.

  (** ** One coordinate of the derivative *)
  Definition coord (a b c x y z : R) : R := dadd P (dadd P (dmul P a x) (dmul P b y)) (dmul P c z).
  Lemma term w w' x : w_near w w' -> Rabs (dmul P w' x - w * x) <= 12 * u * Rabs x /\ Rabs (dmul P w' x) <= 201 / 100 * Rabs x.
  Proof.
    intros (W & W' & E). pose proof u_pos. pose proof u_small. pose proof (Rabs_pos x). assert (S : Rabs (w' * x) <= 2 * Rabs x) by (rewrite Rabs_mult, (Rabs_pos_eq w') by lra; nra). split.
    - eapply Rle_trans; [apply (drnd_near _ _ (10 * u * Rabs x) (2 * Rabs x))|]; [|exact S | lra]. replace (w' * x - w * x) with ((w' - w) * x) by ring. rewrite Rabs_mult. nra.
    - eapply Rle_trans; [apply (drnd_size _ _ S)|]. nra.
  Qed.
  Lemma coord_near a b c a' b' c' x y z : w_near a a' -> w_near b b' -> w_near c c' ->
    Rabs (coord a' b' c' x y z - (a * x + b * y + c * z)) <= 17 * u * (Rabs x + Rabs y + Rabs z).
  Proof.
    intros A B C. pose proof u_pos as U. pose proof u_small as V. destruct (term _ _ x A) as (A1 & A2). destruct (term _ _ y B) as (B1 & B2). destruct (term _ _ z C) as (C1 & C2).
    unfold coord. set (p := dmul P a' x) in *. set (q := dmul P b' y) in *. set (r := dmul P c' z) in *. pose proof (Rabs_pos x). pose proof (Rabs_pos y). pose proof (Rabs_pos z).
    assert (S : Rabs (p + q) <= 201 / 100 * (Rabs x + Rabs y)) by (eapply Rle_trans; [apply Rabs_triang | lra]).
    assert (D1 : Rabs (dadd P p q - (a * x + b * y)) <= 12 * u * (Rabs x + Rabs y) + u * (201 / 100 * (Rabs x + Rabs y))).
    { apply drnd_near; [|exact S]. replace (p + q - (a * x + b * y)) with ((p - a * x) + (q - b * y)) by ring. eapply Rle_trans; [apply Rabs_triang | lra]. }
    assert (D2 : Rabs (dadd P p q) <= 203 / 100 * (Rabs x + Rabs y)). { eapply Rle_trans; [apply (drnd_size _ _ S)|]. nra. }
    set (s := dadd P p q) in *.
    eapply Rle_trans; [apply (drnd_near _ _ (12 * u * (Rabs x + Rabs y) + u * (201 / 100 * (Rabs x + Rabs y)) + 12 * u * Rabs z) (203 / 100 * (Rabs x + Rabs y) + 201 / 100 * Rabs z))|].
    - replace (s + r - (a * x + b * y + c * z)) with ((s - (a * x + b * y)) + (r - c * z)) by ring. eapply Rle_trans; [apply Rabs_triang | lra].
    - eapply Rle_trans; [apply Rabs_triang | lra].
    - nra.
  Qed.

  (** ** The speed *)
  Lemma speed_round x y : Rabs (dsqrt P (dadd P (dmul P x x) (dmul P y y)) - norm (x, y)) <= 3 * u * norm (x, y).
  Proof.
    pose proof u_pos as U. pose proof u_small as V. set (N := norm (x, y)). assert (N0 : 0 <= N) by apply norm_pos. assert (NN : N * N = x * x + y * y) by (unfold N; rewrite norm_sq; reflexivity).
    assert (X := drnd_err (x * x)). assert (Y := drnd_err (y * y)). fold (dmul P x x) in X. fold (dmul P y y) in Y. rewrite (Rabs_pos_eq (x * x)) in X by nra. rewrite (Rabs_pos_eq (y * y)) in Y by nra.
    set (p := dmul P x x) in *. set (q := dmul P y y) in *. apply Rabs_le_inv in X, Y.
    assert (Z := drnd_err (p + q)). fold (dadd P p q) in Z. rewrite (Rabs_pos_eq (p + q)) in Z by nra. set (s := dadd P p q) in *. apply Rabs_le_inv in Z.
    assert (S1 : s <= ((1 + u) * N) * ((1 + u) * N)) by nra. assert (S0 : ((1 - u) * N) * ((1 - u) * N) <= s) by nra.
    assert (R1 : sqrt s <= (1 + u) * N) by (rewrite <- (sqrt_square ((1 + u) * N)) by nra; now apply sqrt_le_1_alt).
    assert (R0 : (1 - u) * N <= sqrt s) by (rewrite <- (sqrt_square ((1 - u) * N)) by nra; now apply sqrt_le_1_alt).
    assert (W := drnd_err (sqrt s)). fold (dsqrt P s) in W. rewrite (Rabs_pos_eq (sqrt s)) in W by apply sqrt_pos. apply Rabs_le_inv in W. apply Rabs_le.
    assert (u * (u * N) <= u * N / 200) by nra. split; nra.
  Qed.
  Lemma norm_sub v w : Rabs (norm v - norm w) <= norm (vsub v w).
  Proof.
    apply Rabs_le. split.
    - pose proof (norm_add v (vscale (-1) (vsub v w))) as H. rewrite norm_scale in H. replace (Rabs (-1)) with 1 in H by (rewrite Rabs_left; lra).
      replace (vadd v (vscale (-1) (vsub v w))) with w in H by (destruct v, w; unfold vadd, vscale, vsub; cbn [fst snd]; f_equal; ring). lra.
    - pose proof (norm_add w (vsub v w)) as H. replace (vadd w (vsub v w)) with v in H by (destruct v, w; unfold vadd, vscale, vsub; cbn [fst snd]; f_equal; ring). lra.
  Qed.
  Lemma norm_le_sum v : norm v <= Rabs (fst v) + Rabs (snd v).
  Proof.
    pose proof (Rabs_pos (fst v)). pose proof (Rabs_pos (snd v)). unfold norm, vdot. rewrite <- (sqrt_square (Rabs (fst v) + Rabs (snd v))) by lra. apply sqrt_le_1_alt.
    assert (fst v * fst v = Rabs (fst v) * Rabs (fst v)) by (rewrite <- Rabs_mult, Rabs_pos_eq; nra). assert (snd v * snd v = Rabs (snd v) * Rabs (snd v)) by (rewrite <- Rabs_mult, Rabs_pos_eq; nra). nra.
  Qed.

  Context (q : bool) (D0 D1 D2 : pt).
  Definition vel (t : R) : pt :=
    let '(a, b, c) := wt q t in (a * fst D0 + b * fst D1 + c * fst D2, a * snd D0 + b * snd D1 + c * snd D2).
  Definition size : R := Rabs (fst D0) + Rabs (fst D1) + Rabs (fst D2) + (Rabs (snd D0) + Rabs (snd D1) + Rabs (snd D2)).
  Definition dcs : list (list pt) := [if q then [D0; D1] else [D0; D1; D2]].
  Definition ord : nat := if q then 2 else 3.
  Context (Q0 : q = true -> D2 = (0, 0)).
  Lemma size_pos : 0 <= size.
  Proof. unfold size. pose proof (Rabs_pos (fst D0)). pose proof (Rabs_pos (fst D1)). pose proof (Rabs_pos (fst D2)). pose proof (Rabs_pos (snd D0)). pose proof (Rabs_pos (snd D1)). pose proof (Rabs_pos (snd D2)). lra. Qed.
  Lemma share w x : 0 <= w <= 1 -> Rabs (w * x) <= Rabs x.
  Proof. intros W. rewrite Rabs_mult, (Rabs_pos_eq w) by lra. pose proof (Rabs_pos x). nra. Qed.
  Lemma vel_size t : 0 <= t <= 1 -> norm (vel t) <= size.
  Proof.
    intros T. pose proof (weights q t t T T ltac:(rewrite Rminus_eq_0, Rabs_R0; apply Rlt_le, u_pos)) as W. eapply Rle_trans; [apply norm_le_sum|]. unfold vel, size.
    destruct (wt q t) as [[a b] c], (wt' q t) as [[a' b'] c']. destruct W as ((A & _) & (B & _) & (C & _)). cbn [fst snd].
    apply Rplus_le_compat; (eapply Rle_trans; [apply Rabs_triang|]; apply Rplus_le_compat; [eapply Rle_trans; [apply Rabs_triang|]; apply Rplus_le_compat|]; now apply share).
  Qed.
  Lemma arc_near t t' : 0 <= t <= 1 -> 0 <= t' <= 1 -> Rabs (t' - t) <= u ->
    exists n, decArcfun P dcs ord t' = Ok n /\ Rabs (n - norm (vel t)) <= 21 * u * size.
  Proof.
    intros T T' E. pose proof u_pos as U. pose proof u_small as V. pose proof size_pos as S0. pose proof (weights q t t' T T' E) as W.
    pose proof (vel_size t T) as VS. destruct (wt q t) as [[a b] c] eqn:Ew, (wt' q t') as [[a' b'] c'] eqn:Ew'. destruct W as (A & B & C).
    set (x := coord a' b' c' (fst D0) (fst D1) (fst D2)). set (y := coord a' b' c' (snd D0) (snd D1) (snd D2)).
    exists (dsqrt P (dadd P (dmul P x x) (dmul P y y))). split.
    - unfold decArcfun, decDerivative, dcs, ord. unfold wt' in Ew'. destruct q.
      + injection Ew' as <- <- <-. cbn. unfold x, y, coord. rewrite (Q0 eq_refl). reflexivity.
      + injection Ew' as <- <- <-. reflexivity.
    - pose proof (coord_near _ _ _ _ _ _ (fst D0) (fst D1) (fst D2) A B C) as X. pose proof (coord_near _ _ _ _ _ _ (snd D0) (snd D1) (snd D2) A B C) as Y. fold x in X. fold y in Y.
      assert (F : norm (vsub (x, y) (vel t)) <= 17 * u * size). { eapply Rle_trans; [apply norm_le_sum|]. unfold vel, size. rewrite Ew. cbn [vsub fst snd]. lra. }
      pose proof (norm_sub (x, y) (vel t)) as G. pose proof (speed_round x y) as H. set (n' := dsqrt P _) in *.
      assert (N : norm (x, y) <= size + 17 * u * size) by (apply Rabs_le_inv in G; lra).
      replace (n' - norm (vel t)) with ((n' - norm (x, y)) + (norm (x, y) - norm (vel t))) by ring. eapply Rle_trans; [apply Rabs_triang|].
      pose proof (u_times size S0) as (US & _). pose proof (u_times (u * size) US) as (_ & UU). assert (3 * u * norm (x, y) <= 3 * u * (size + 17 * u * size)) by (apply Rmult_le_compat_l; lra). lra.
  Qed.
  Lemma fold_near l : forall s s' e, List.Forall (fun tc => node_ok tc = true) l -> Rabs (s' - s) <= e -> 0 <= s ->
    s + gsum (fun _ => size) l <= 201 / 100 * size -> e + 21 * u * gsum (fun _ => size) l + INR (length l) * (3 * u * size) <= 115 * u * size ->
    exists r, foldM (fun sum (tc : Z * Z) => let t := dfma P (IZR (fst tc) / IZR tableScale) (1 / 2) (1 / 2) in
      let* a := decArcfun P dcs ord t in Ok (dfma P (IZR (snd tc) / IZR tableScale) a sum)) l s' = Ok r /\
      Rabs (r - (s + gsum (fun t => norm (vel t)) l)) <= e + 21 * u * gsum (fun _ => size) l + INR (length l) * (3 * u * size).
  Proof.
    pose proof u_pos as U. pose proof u_small as V. pose proof size_pos as S0. pose proof scale_pos as SC.
    induction l as [|[tv c] l IH]; intros s s' e K E Sp B1 B2.
    - exists s'. split; [reflexivity|]. cbn [gsum length INR]. rewrite !Rmult_0_r, Rmult_0_l, !Rplus_0_r. exact E.
    - inversion K as [|? ? K1 K2]; subst. unfold node_ok in K1. cbn [fst snd] in K1. apply andb_true_iff in K1 as (K1 & Kc). apply andb_true_iff in K1 as (Ka & Kb). apply Z.leb_le, IZR_le in Ka, Kb, Kc. rewrite opp_IZR in Ka.
      cbn [foldM fst snd gsum] in *. set (w := IZR c / IZR tableScale) in *. set (t := IZR tv / IZR tableScale * (1 / 2) + 1 / 2) in *.
      assert (W0 : 0 <= w) by (apply Rmult_le_pos; [exact Kc | apply Rlt_le, Rinv_0_lt_compat; exact SC]).
      assert (T : 0 <= t <= 1).
      { assert (-1 <= IZR tv / IZR tableScale <= 1); [|unfold t; lra]. split; apply Rmult_le_reg_r with (IZR tableScale); try exact SC; unfold Rdiv; rewrite Rmult_assoc, Rinv_l, Rmult_1_r by lra; lra. }
      assert (T' : 0 <= drnd P t <= 1) by (apply (drnd_unit _ 1); [lia | exact T]).
      assert (TE : Rabs (drnd P t - t) <= u). { eapply Rle_trans; [apply drnd_err|]. rewrite Rabs_pos_eq by lra. nra. }
      destruct (arc_near t (drnd P t) T T' TE) as (n & En & Nn). change (dfma P (IZR tv / IZR tableScale) (1 / 2) (1 / 2)) with (drnd P t). rewrite En. cbn [bind]. clear En.
      set (v := norm (vel t)) in *. assert (v0 : 0 <= v) by apply norm_pos. pose proof (vel_size t T) as vS. fold v in vS.
      set (L := gsum (fun _ => size) l) in *.
      assert (L0 : 0 <= L). { unfold L. clear - K2 S0. induction K2 as [|[tv c] l K1 K2 IH]; cbn [gsum]; [lra|]. unfold node_ok in K1. apply andb_true_iff in K1 as (_ & Kc). cbn [snd] in Kc. apply Z.leb_le, IZR_le in Kc. pose proof scale_pos. assert (0 <= IZR c / IZR tableScale) by (apply Rmult_le_pos; [exact Kc | apply Rlt_le, Rinv_0_lt_compat; assumption]). nra. }
      change (length ((tv, c) :: l)) with (S (length l)) in *. rewrite S_INR in *. pose proof (pos_INR (length l)) as NL. set (k := INR (length l)) in *.
      assert (us : 0 <= u * size) by nra. assert (ksu : 0 <= k * (3 * u * size)) by nra. assert (uL : 0 <= u * L) by nra. assert (ws : 0 <= w * size) by nra. assert (wv : w * v <= w * size) by (apply Rmult_le_compat_l; lra). assert (0 <= w * v) by nra.
      assert (N1 : Rabs (w * n + s' - (s + w * v)) <= e + 21 * u * (w * size)).
      { replace (w * n + s' - (s + w * v)) with (w * (n - v) + (s' - s)) by ring. eapply Rle_trans; [apply Rabs_triang|]. rewrite Rabs_mult, (Rabs_pos_eq w) by exact W0. assert (w * Rabs (n - v) <= w * (21 * u * size)) by (apply Rmult_le_compat_l; lra). lra. }
      assert (e0 : 0 <= e) by (eapply Rle_trans; [apply Rabs_pos | exact E]).
      assert (N2 : Rabs (w * n + s') <= 3 * size).
      { replace (w * n + s') with ((w * n + s' - (s + w * v)) + (s + w * v)) by ring. eapply Rle_trans; [apply Rabs_triang|]. rewrite (Rabs_pos_eq (s + w * v)) by lra. pose proof (u_times size S0). lra. }
      destruct (IH (s + w * v) (dfma P w n s') (e + 21 * u * (w * size) + u * (3 * size)) K2) as (r & Er & Nr).
      + now apply drnd_near.
      + lra.
      + lra.
      + lra.
      + exists r. split; [exact Er|]. replace (s + (w * v + gsum (fun t0 => norm (vel t0)) l)) with (s + w * v + gsum (fun t0 => norm (vel t0)) l) by ring. eapply Rle_trans; [exact Nr|]. lra.
  Qed.
  Theorem sum_near : exists r, decSum P dcs ord = Ok r /\ Rabs (r - gl (fun t => norm (vel t))) <= 59 * u * size.
  Proof.
    pose proof u_pos as U. pose proof u_small as V. pose proof size_pos as S0.
    assert (G : gsum (fun _ => size) nodes = 2 * size * gl (fun _ => 1)). { rewrite (gsum_ext (fun _ => size) (fun _ => size * 1 + 0 * 0)) by (intros; ring). rewrite gsum_lin. unfold gl. lra. }
    pose proof gl_one as O. unfold near in O. assert (TN : tiny <= / 1000000). { unfold tiny. apply Rinv_le; [lra|]. apply IZR_le. vm_compute. discriminate. }
    apply Rabs_le_inv in O. set (o := gl (fun _ => 1)) in *. assert (Ob : 0 <= o <= 1000001 / 1000000) by lra.
    assert (GB : gsum (fun _ => size) nodes <= 2000002 / 1000000 * size) by (rewrite G; nra).
    assert (LN : INR (length nodes) = 24) by (cbn; lra).
    destruct (fold_near nodes 0 0 0 nodes_ok ltac:(rewrite Rminus_0_r, Rabs_R0; lra) ltac:(lra) ltac:(lra)) as (r & Er & Nr).
    { rewrite LN. assert (u * gsum (fun _ => size) nodes <= u * (2000002 / 1000000 * size)) by (apply Rmult_le_compat_l; lra). nra. }
    exists (dmul P (1 / 2) r). split; [unfold decSum; cbv zeta; unfold nodes in Er; cbv zeta in Er; rewrite Er; reflexivity|].
    rewrite Rplus_0_l, LN in Nr. rewrite Rplus_0_l in Nr. unfold gl. set (g := gsum (fun t => norm (vel t)) nodes) in *.
    assert (us : 0 <= u * size) by nra. assert (Nr' : Rabs (r - g) <= 1145 / 10 * (u * size)). { eapply Rle_trans; [exact Nr|]. assert (u * gsum (fun _ => size) nodes <= u * (2000002 / 1000000 * size)) by (apply Rmult_le_compat_l; lra). lra. }
    assert (g0 : 0 <= g <= 201 / 100 * size).
    { split; [|eapply Rle_trans; [apply (gsum_le _ (fun _ => size) nodes nodes_ok)|]; [intros t T; now apply vel_size | lra]].
      replace 0 with (gsum (fun _ => 0) nodes); [apply gsum_le; [exact nodes_ok | intros; apply norm_pos]|]. rewrite (gsum_ext (fun _ => 0) (fun _ => 0 * 0 + 0 * 0)) by (intros; ring). rewrite gsum_lin. ring. }
    eapply Rle_trans; [apply (drnd_near _ _ (1145 / 20 * (u * size)) (13 / 10 * size))|].
    - replace (1 / 2 * r - 1 / 2 * g) with (1 / 2 * (r - g)) by ring. rewrite Rabs_mult, (Rabs_pos_eq (1 / 2)) by lra. lra.
    - rewrite Rabs_mult, (Rabs_pos_eq (1 / 2)) by lra. replace r with ((r - g) + g) by ring. assert (Rabs (r - g + g) <= 1145 / 10 * (u * size) + 201 / 100 * size) by (eapply Rle_trans; [apply Rabs_triang|]; rewrite (Rabs_pos_eq g); lra). assert (u * size <= size / 200) by nra. lra.
    - nra.
  Qed.
End Rounding.
