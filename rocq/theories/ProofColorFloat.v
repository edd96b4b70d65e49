(** Proofs about generated colours in double precision. *)
From Coq Require Import List ZArith Bool Reals Lra Lia Psatz QArith.
From Flocq Require Import Core BinarySingleNaN.
From Verif Require Import Py InstFloat SpecDouble SpecColor SpecColorFloat MColor MColorFloat ProofDouble ProofDouble2 ProofDouble3 ProofDouble4.
Import ListNotations.
Local Open Scope R_scope.
#[local] Existing Instance InstFloat.prec_gt_0.
#[local] Existing Instance InstFloat.prec_lt_emax.

(** ** Python's remainder *)
Lemma val_finite s m e H : val (B754_finite s m e H : b64) = IZR (cond_Zopp s (Zpos m)) * bpow radix2 e.
Proof. reflexivity. Qed.
Lemma lift_exp (z e k : Z) : (k <= e)%Z -> IZR z * bpow radix2 e = IZR (z * 2 ^ (e - k)) * bpow radix2 k.
Proof.
  intros L. rewrite mult_IZR. replace (2 ^ (e - k))%Z with (Zpower radix2 (e - k)) by reflexivity.
  rewrite IZR_Zpower by lia. rewrite Rmult_assoc, <- bpow_plus. do 2 f_equal. lia.
Qed.
Lemma small_multiple (s : bool) m e r : SpecFloat.bounded prec emax m e = true -> (Z.abs r <= Zpos m)%Z -> fl (IZR r * bpow radix2 e) = IZR r * bpow radix2 e.
Proof.
  intros B L. unfold fl. apply round_generic; [apply valid_rnd_round_mode|].
  change (generic_format radix2 (SpecFloat.fexp prec emax) (F2R (Float radix2 r e))). apply generic_format_F2R. intros Nr.
  pose proof (canonical_bounded prec emax s m e B) as C. unfold canonical in C. cbn [Fexp] in C.
  refine (Z.le_trans _ _ _ _ (Z.eq_le_incl _ _ (eq_sym C))).
  unfold cexp. apply (monotone_exp (FLT_exp (SpecFloat.emin prec emax) prec)). apply mag_le_abs.
  - intros Z. apply Nr. exact (eq_0_F2R _ _ _ Z).
  - rewrite <- !F2R_Zabs. apply F2R_le. rewrite abs_cond_Zopp. exact L.
Qed.
Lemma rem_pymod (a b : Z) : (0 < b)%Z -> (a mod b = Z.rem a b + (if Z.rem a b <? 0 then b else 0))%Z.
Proof.
  intros Hb. pose proof (Z.quot_rem' a b) as E. pose proof (Z.rem_bound_abs a b ltac:(lia)) as Bd.
  destruct (Z.ltb_spec (Z.rem a b) 0).
  - symmetry. apply Z.mod_unique with (q := (Z.quot a b - 1)%Z); lia.
  - symmetry. apply Z.mod_unique with (q := Z.quot a b); lia.
Qed.
Lemma rem_le_abs (a b : Z) : (b <> 0)%Z -> (Z.abs (Z.rem a b) <= Z.abs a)%Z.
Proof. intros Nb. rewrite <- Z.rem_abs by exact Nb. apply Z.rem_le; lia. Qed.

Theorem pymod_val (x y : b64) : fin x -> fin y -> 0 < val y ->
  fin (pymod x y) /\ val (pymod x y) = fl (remainderR (val x) (val y)).
Proof.
  intros Fx Fy Py. destruct y as [sy|sy| |sy my ey By]; try discriminate Fy; [cbn in Py; lra|].
  assert (sy = false). { destruct sy; [|reflexivity]. exfalso. rewrite val_finite in Py. cbn [cond_Zopp] in Py.
    pose proof (bpow_gt_0 radix2 ey). pose proof (IZR_lt (Z.opp (Zpos my)) 0 ltac:(lia)). nra. }
  subst sy. set (y := B754_finite false my ey By : b64) in *.
  destruct x as [sx|sx| |sx mx ex Bx]; try discriminate Fx.
  - unfold pymod. assert (neqb (fmod (B754_zero sx) y) (nofZ 0) = true) as -> by (destruct sx; reflexivity).
    cbn [negb]. split; [reflexivity|]. unfold remainderR. change (val (B754_zero sx : b64)) with 0.
    replace (0 / val y) with 0 by (field; lra). rewrite Zfloor_IZR. replace (0 - val y * 0) with 0 by ring.
    symmetry. apply round_0, valid_rnd_round_mode.
  - set (x := B754_finite sx mx ex Bx : b64) in *.
    set (k := Z.min ex ey). set (a := cond_Zopp sx (Zpos mx * 2 ^ (ex - k))%Z). set (b := (Zpos my * 2 ^ (ey - k))%Z).
    assert (Hb : (0 < b)%Z) by (unfold b; apply Z.mul_pos_pos; [lia | apply Z.pow_pos_nonneg; lia]).
    assert (Vx : val x = IZR a * bpow radix2 k).
    { unfold x. rewrite val_finite, (lift_exp _ _ k) by lia. do 2 f_equal. unfold a. destruct sx; cbn [cond_Zopp]; lia. }
    assert (Vy : val y = IZR b * bpow radix2 k).
    { unfold y. rewrite val_finite, (lift_exp _ _ k) by lia. reflexivity. }
    assert (Hr : fl (IZR (Z.rem a b) * bpow radix2 k) = IZR (Z.rem a b) * bpow radix2 k).
    { destruct (Z.le_ge_cases ex ey).
      - assert (k = ex) as K by lia. rewrite K. apply (small_multiple sx mx ex); [exact Bx|].
        pose proof (rem_le_abs a b ltac:(lia)). assert (Z.abs a = Zpos mx); [|lia].
        unfold a. rewrite K, Z.sub_diag, Z.pow_0_r, Z.mul_1_r, abs_cond_Zopp. reflexivity.
      - assert (k = ey) as K by lia. rewrite K. apply (small_multiple false my ey); [exact By|].
        pose proof (Z.rem_bound_abs a b ltac:(lia)). assert (b = Zpos my); [|lia].
        unfold b. rewrite K, Z.sub_diag, Z.pow_0_r, Z.mul_1_r. reflexivity. }
    assert (Lr : Rabs (IZR (Z.rem a b) * bpow radix2 k) <= Rabs (val x)).
    { rewrite Vx, !Rabs_mult, <- !abs_IZR. apply Rmult_le_compat_r; [apply Rabs_pos|]. apply IZR_le, rem_le_abs. lia. }
    pose proof (bpow_gt_0 radix2 k) as Pk.
    assert (M : fin (fmod x y) /\ val (fmod x y) = IZR (Z.rem a b) * bpow radix2 k).
    { unfold fmod, x, y. cbv zeta. fold k a b.
      pose proof (binary_normalize_correct prec emax prec_gt_0 prec_lt_emax mode_NE (Z.rem a b) k sx) as C.
      cbv zeta in C. change (round radix2 (SpecFloat.fexp prec emax) (round_mode mode_NE) (F2R (Float radix2 (Z.rem a b) k)))
        with (fl (IZR (Z.rem a b) * bpow radix2 k)) in C.
      rewrite Hr in C. rewrite Rlt_bool_true in C.
      - destruct C as (C1 & C2 & _). split; assumption.
      - eapply Rle_lt_trans; [exact Lr | apply val_top]. }
    destruct M as (Fm & Vm).
    assert (R0 : remainderR (val x) (val y) = IZR (a mod b) * bpow radix2 k).
    { unfold remainderR. rewrite Vx, Vy. replace (IZR a * bpow radix2 k / (IZR b * bpow radix2 k)) with (IZR a / IZR b).
      - rewrite Zfloor_div by lia. rewrite (Zmod_eq_full a b) by lia. rewrite minus_IZR, mult_IZR. ring.
      - apply IZR_lt in Hb. field. split; lra. }
    rewrite R0. pose proof (rem_pymod a b Hb) as E. clear Hr R0 Lr.
    unfold pymod. set (m := fmod x y) in *. clearbody m. clear Vx.
    assert (F0 : fin (nofZ 0 : b64)) by reflexivity. assert (V0 : val (nofZ 0 : b64) = 0) by reflexivity.
    destruct (Z.eq_dec (Z.rem a b) 0) as [Z0|N0].
    + rewrite (val_neqb m (nofZ 0) Fm F0) by (rewrite Vm, Z0, V0; ring). cbn [negb]. split; [reflexivity|].
      rewrite E, Z0. cbn [Z.ltb Z.compare Z.add]. rewrite Rmult_0_l. symmetry. apply round_0, valid_rnd_round_mode.
    + rewrite (neqb_val m (nofZ 0) Fm F0).
      2:{ rewrite Vm, V0. intros H. apply Rmult_integral in H. destruct H as [H|H]; [apply N0, eq_IZR; exact H | lra]. }
      cbn [negb]. rewrite (proj2 (ltb_val_false y (nofZ 0) Fy F0)) by (rewrite V0; lra). cbn [xorb].
      destruct (Z.ltb_spec (Z.rem a b) 0) as [Hn|Hp].
      * assert (IZR (Z.rem a b) < 0) by (apply IZR_lt; exact Hn).
        assert (Vn : val m < 0) by (rewrite Vm; nra).
        rewrite (proj2 (ltb_val m (nofZ 0) Fm F0)) by (rewrite V0; exact Vn).
        assert (S : val m + val y = IZR (a mod b) * bpow radix2 k) by (rewrite Vm, Vy, E, plus_IZR; ring).
        rewrite <- S. apply plus_fl; [exact Fm | exact Fy |].
        assert (0 <= val m + val y <= val y).
        { split; [rewrite S; apply Rmult_le_pos; [apply IZR_le; destruct (Z.mod_pos_bound a b Hb); assumption | lra] | lra]. }
        apply Rle_lt_trans with (Rabs (val y)); [|apply val_top].
        rewrite (Rabs_pos_eq (val y)) by lra. rewrite Rabs_pos_eq.
        -- eapply Rle_trans; [apply (fl_mono _ (val y)); lra | rewrite fl_val; apply Rle_refl].
        -- replace 0 with (fl 0) by (apply round_0, valid_rnd_round_mode). apply fl_mono. lra.
      * rewrite (proj2 (ltb_val_false m (nofZ 0) Fm F0)).
        2:{ rewrite V0, Vm. apply Rmult_le_pos; [apply IZR_le; exact Hp | lra]. }
        split; [exact Fm|]. rewrite E, Z.add_0_r, <- Vm. symmetry. apply fl_val.
Qed.

(** ** Python's round *)
Theorem fround_val (x : b64) : fin x -> exists z, fround x = Ok z /\ Rabs (IZR z - val x) <= / 2.
Proof.
  intros Fx. exists (Btrunc (Bnearbyint mode_NE x)). split; [destruct x; try discriminate Fx; reflexivity|].
  rewrite (Btrunc_correct _ _ prec_lt_emax). rewrite (proj1 (Bnearbyint_correct _ _ prec_lt_emax mode_NE x)).
  rewrite !round_FIX_IZR, Ztrunc_IZR, Rabs_minus_sym. apply Znearest_half.
Qed.

(** ** Whole hues *)
Local Open Scope Z_scope.
Definition near_half (z : Z) (q : Q) : bool := Qle_bool (- (1 # 2)) (inject_Z z - q) && Qle_bool (inject_Z z - q) (1 # 2).
Definition hue_good (n : nat) : bool :=
  let h := Z.of_nat n in let q := inject_Z h in
  match snd (randomHSLColorI (h - 73)) with
  | Ok (r, g, b) => near_half r (css_channel q (1 # 2) (1 # 2) 0 * 255) && near_half g (css_channel q (1 # 2) (1 # 2) 8 * 255) &&
      near_half b (css_channel q (1 # 2) (1 # 2) 4 * 255) &&
      (let '(r', g', b') := snd (randomHSLColor (h - 73)) in
       Bool.eqb ((r =? r') && (g =? g') && (b =? b')) (negb (existsb (Z.eqb h) ties)))
  | Err _ => false
  end.
Lemma hues_good : forallb hue_good (seq 0 360) = true.
Proof. vm_compute. reflexivity. Qed.
Lemma near_half_spec z q : near_half z q = true -> nearest z q.
Proof. unfold near_half, nearest. intros H. apply andb_true_iff in H. destruct H as (H1 & H2). apply Qle_bool_iff in H1, H2. split; assumption. Qed.
Lemma hueI_mod h : randomHSLColorI h = randomHSLColorI ((h + 73) mod 360 - 73).
Proof. unfold randomHSLColorI. cbv zeta. replace ((h + 73) mod 360 - 73 + 73) with ((h + 73) mod 360) by ring. now rewrite Z.mod_mod by lia. Qed.
Lemma hue_mod h : randomHSLColor h = randomHSLColor ((h + 73) mod 360 - 73).
Proof. unfold randomHSLColor. cbv zeta. replace ((h + 73) mod 360 - 73 + 73) with ((h + 73) mod 360) by ring. now rewrite Z.mod_mod by lia. Qed.
Lemma good_at h : hue_good (Z.to_nat ((h + 73) mod 360)) = true.
Proof.
  pose proof (Z.mod_pos_bound (h + 73) 360 ltac:(lia)) as B. apply (proj1 (forallb_forall _ _) hues_good). apply in_seq. lia.
Qed.
Theorem whole_hues h : exists r g b, randomHSLColorI h = ((h + 73) mod 360, Ok (r, g, b)) /\
  let q := inject_Z ((h + 73) mod 360) in
  nearest r (css_channel q (1 # 2) (1 # 2) 0 * 255) /\ nearest g (css_channel q (1 # 2) (1 # 2) 8 * 255) /\
  nearest b (css_channel q (1 # 2) (1 # 2) 4 * 255).
Proof.
  pose proof (good_at h) as G. pose proof (Z.mod_pos_bound (h + 73) 360 ltac:(lia)) as B. unfold hue_good in G. cbv zeta in G.
  rewrite Z2Nat.id in G by lia. rewrite <- hueI_mod in G.
  destruct (randomHSLColorI h) as [h' [[[r g] b]|e]] eqn:E; cbn [snd] in G; [|discriminate].
  apply andb_true_iff in G. destruct G as (G & _). apply andb_true_iff in G. destruct G as (G & Gb). apply andb_true_iff in G. destruct G as (Gr & Gg).
  exists r, g, b. split.
  - f_equal. unfold randomHSLColorI in E. congruence.
  - split; [|split]; apply near_half_spec; assumption.
Qed.
Theorem ties_only h : snd (randomHSLColorI h) = Ok (snd (randomHSLColor h)) <-> ~ In ((h + 73) mod 360) ties.
Proof.
  pose proof (good_at h) as G. pose proof (Z.mod_pos_bound (h + 73) 360 ltac:(lia)) as B. unfold hue_good in G. cbv zeta in G.
  rewrite Z2Nat.id in G by lia. rewrite <- hueI_mod, <- hue_mod in G.
  destruct (randomHSLColorI h) as [h' [[[r g] b]|e]]; cbn [snd] in G |- *; [|discriminate].
  destruct (randomHSLColor h) as [h2 [[r' g'] b']]; cbn [snd] in G |- *.
  apply andb_true_iff in G. destruct G as (_ & G). apply eqb_prop in G.
  assert (T : existsb (Z.eqb ((h + 73) mod 360)) ties = true <-> In ((h + 73) mod 360) ties).
  { rewrite existsb_exists. split; [intros (x & I & E); apply Z.eqb_eq in E; now subst | intros I; eexists; split; [exact I | apply Z.eqb_refl]]. }
  rewrite <- T. destruct (existsb (Z.eqb ((h + 73) mod 360)) ties); cbn [negb] in G.
  - split; [|intros N; now elim N]. intros E. apply Ok_inj in E. injection E as -> -> ->. rewrite !Z.eqb_refl in G. discriminate.
  - split; [now intros _ K|]. intros _. apply andb_true_iff in G. destruct G as (G & E3). apply andb_true_iff in G. destruct G as (E1 & E2).
    apply Z.eqb_eq in E1, E2, E3. now subst.
Qed.
Local Open Scope R_scope.
