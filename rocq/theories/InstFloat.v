(** IEEE 754 binary64 (Python's float), round to nearest even, as a number instance.  Operations
    are Flocq's; the order of the non-NaN values (infinities and signed zeros included) is total. *)
From Coq Require Import List ZArith Bool Reals Lra Lia Psatz.
From Coq Require Import SpecFloat.
From Flocq Require Import Core BinarySingleNaN.
From Verif Require Import Py SpecOrder.
Import ListNotations.

Definition prec : Z := 53.
Definition emax : Z := 1024.
#[local] Instance prec_gt_0 : Prec_gt_0 prec := eq_refl.
#[local] Instance prec_lt_emax : Prec_lt_emax prec emax := eq_refl.
Definition b64 : Type := binary_float prec emax.

(** Integer literals as floats. *)
Definition bofZ (z : Z) : b64 := binary_normalize prec emax prec_gt_0 prec_lt_emax mode_NE z 0 false.

#[global] Instance FNum : NumOps b64 := {
  nofZ := bofZ;
  nadd := Bplus mode_NE;
  nsub := Bminus mode_NE;
  nmul := Bmult mode_NE;
  nquot := Bdiv mode_NE;
  nopp := Bopp;
  nabs := Babs;
  nleb := Bleb;
  nltb := Bltb;
  neqb := Beqb
}.

(** The math functions: the square root is the correctly rounded one; everything else, about which
    the C library promises nothing, is a parameter. *)
Definition FTrig (sn cs ac : b64 -> b64) (at2 hy pw : b64 -> b64 -> b64) (pi : b64) (r15 : b64 -> b64) : TrigOps b64 := {|
  tsin := sn; tcos := cs; tacos := ac; tatan2 := at2; thypot := hy;
  tsqrt := Bsqrt mode_NE;
  tpow := pw; tpi := pi; tround15 := r15
|}.

(** Comparable values. *)
Definition not_nan (x : b64) : Prop := is_nan x = false.

Local Open Scope R_scope.
(** The place of a value on the extended line, infinities at +-2^1024. *)
Definition place (x : b64) : R :=
  match x with
  | B754_infinity s => if s then - bpow radix2 emax else bpow radix2 emax
  | _ => B2R x
  end.

Lemma place_bound (x : b64) : is_finite x = true -> - bpow radix2 emax < place x < bpow radix2 emax.
Proof.
  intros F. pose proof (abs_B2R_lt_emax prec emax x) as A. apply Rabs_def2 in A.
  destruct x; try discriminate; cbn [place B2R] in *; lra.
Qed.

Lemma cmp_place (x y : b64) : not_nan x -> not_nan y ->
  SFcompare (B2SF x) (B2SF y) = Some (Rcompare (place x) (place y)).
Proof.
  intros Nx Ny.
  assert (E : 0 < bpow radix2 emax) by apply bpow_gt_0.
  destruct (is_finite x) eqn:Fx, (is_finite y) eqn:Fy.
  - pose proof (Bcompare_correct prec emax x y Fx Fy) as C. unfold Bcompare in C. rewrite C.
    destruct x, y; try discriminate; reflexivity.
  - pose proof (place_bound x Fx) as B.
    destruct y as [|s| |]; try discriminate. destruct x as [|sx| |sx]; try discriminate;
      destruct s; simpl B2SF; cbn [SFcompare place]; f_equal; symmetry;
      first [apply Rcompare_Lt | apply Rcompare_Gt]; cbn [place] in B; lra.
  - pose proof (place_bound y Fy) as B.
    destruct x as [|s| |]; try discriminate. destruct y as [|sy| |sy]; try discriminate;
      destruct s; simpl B2SF; cbn [SFcompare place]; f_equal; symmetry;
      first [apply Rcompare_Lt | apply Rcompare_Gt]; cbn [place] in B; lra.
  - destruct x as [|[]| |], y as [|[]| |]; try discriminate; cbn [B2SF SFcompare place]; f_equal; symmetry;
      first [apply Rcompare_Eq; lra | apply Rcompare_Lt; lra | apply Rcompare_Gt; lra].
Qed.

Lemma leb_place (x y : b64) : not_nan x -> not_nan y -> Bleb x y = true <-> place x <= place y.
Proof.
  intros Nx Ny. unfold Bleb, SFleb. rewrite cmp_place by auto.
  destruct (Rcompare_spec (place x) (place y)); split; intros; auto; try discriminate; lra.
Qed.
Lemma ltb_place (x y : b64) : not_nan x -> not_nan y -> Bltb x y = true <-> place x < place y.
Proof.
  intros Nx Ny. unfold Bltb, SFltb. rewrite cmp_place by auto.
  destruct (Rcompare_spec (place x) (place y)); split; intros; auto; try discriminate; lra.
Qed.
Lemma eqb_place (x y : b64) : not_nan x -> not_nan y -> Beqb x y = true <-> place x = place y.
Proof.
  intros Nx Ny. unfold Beqb, SFeqb. rewrite cmp_place by auto.
  destruct (Rcompare_spec (place x) (place y)); split; intros; auto; try discriminate; lra.
Qed.

Definition rnd (z : Z) : R := round radix2 (SpecFloat.fexp prec emax) (round_mode mode_NE) (IZR z).
Lemma bofZ_place (z : Z) : not_nan (bofZ z) /\
  place (bofZ z) = if Rlt_bool (Rabs (rnd z)) (bpow radix2 emax) then rnd z
                   else if Rlt_bool (IZR z) 0 then - bpow radix2 emax else bpow radix2 emax.
Proof.
  pose proof (binary_normalize_correct prec emax prec_gt_0 prec_lt_emax mode_NE z 0 false) as C.
  cbv zeta in C. fold (bofZ z) in C.
  assert (F : F2R (Float radix2 z 0) = IZR z) by (unfold F2R; simpl; ring).
  rewrite F in C. fold (rnd z) in C.
  destruct (Rlt_bool (Rabs (rnd z)) (bpow radix2 emax)).
  - destruct C as (C1 & C2 & _). unfold not_nan. destruct (bofZ z); try discriminate; split; auto.
  - unfold binary_overflow in C. cbn [overflow_to_inf] in C. unfold not_nan.
    destruct (bofZ z); try discriminate. simpl in C. injection C as ->. split; auto.
Qed.

Theorem float_order : TotalOrder not_nan.
Proof.
  constructor; cbn [nofZ nleb nltb neqb FNum].
  - intros z. apply bofZ_place.
  - intros x Dx. apply leb_place; auto; lra.
  - intros x y z Dx Dy Dz. rewrite !leb_place by auto. lra.
  - intros x y Dx Dy. rewrite !leb_place by auto. lra.
  - intros x y Dx Dy. apply eq_true_iff_eq. rewrite negb_true_iff, ltb_place by auto.
    pose proof (leb_place y x Dy Dx) as L. destruct (Bleb y x).
    + assert (place y <= place x) by (apply L; auto). split; intros; [lra | discriminate].
    + split; auto. intros _. destruct (Rlt_le_dec (place x) (place y)) as [|K]; auto. apply L in K; discriminate.
  - intros x y Dx Dy. apply eq_true_iff_eq. rewrite andb_true_iff, eqb_place, !leb_place by auto. lra.
  - intros a b L. destruct (bofZ_place a) as [Na Ea], (bofZ_place b) as [Nb Eb].
    apply leb_place; auto. rewrite Ea, Eb.
    assert (M : rnd a <= rnd b).
    { apply round_le; [apply fexp_correct; reflexivity | apply valid_rnd_round_mode | apply IZR_le; auto]. }
    assert (P : 0 < bpow radix2 emax) by apply bpow_gt_0.
    assert (LR : IZR a <= IZR b) by (apply IZR_le; auto).
    assert (Sg : forall z, Rabs (rnd z) < bpow radix2 emax \/
                 (IZR z < 0 /\ rnd z <= - bpow radix2 emax) \/ (0 <= IZR z /\ bpow radix2 emax <= rnd z)).
    { intros z. destruct (Rlt_le_dec (Rabs (rnd z)) (bpow radix2 emax)) as [|K]; auto. right.
      assert (R0 : round radix2 (SpecFloat.fexp prec emax) (round_mode mode_NE) 0 = 0)
        by (apply round_0; apply valid_rnd_round_mode).
      destruct (Rlt_le_dec (IZR z) 0) as [N|N].
      - left; split; auto. assert (rnd z <= 0).
        { rewrite <- R0. apply round_le; [apply fexp_correct; reflexivity | apply valid_rnd_round_mode | lra]. }
        rewrite Rabs_left1 in K; lra.
      - right; split; auto. assert (0 <= rnd z).
        { rewrite <- R0. apply round_le; [apply fexp_correct; reflexivity | apply valid_rnd_round_mode | lra]. }
        rewrite Rabs_pos_eq in K; lra. }
    destruct (Sg a) as [A|A], (Sg b) as [B|B];
      destruct (Rlt_bool_spec (Rabs (rnd a)) (bpow radix2 emax)), (Rlt_bool_spec (Rabs (rnd b)) (bpow radix2 emax));
      destruct (Rlt_bool_spec (IZR a) 0), (Rlt_bool_spec (IZR b) 0);
      try lra; repeat match goal with K : Rabs _ < _ |- _ => apply Rabs_def2 in K end;
      try lra.
Qed.
