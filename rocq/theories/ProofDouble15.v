(** Straight lines with integer end points in double precision: crossings are rounded once and decided exactly. *)
From Coq Require Import List ZArith Bool Reals Lra Lia Psatz.
From Flocq Require Import Core BinarySingleNaN Relative.
From Verif Require Import Py Inst InstFloat SpecGeom SpecUtil SpecDouble SpecDouble3 MBounds MBezUtil MPathUtil
  ProofUtil ProofDouble ProofDouble2 ProofDouble3 ProofDouble4 ProofDouble9 ProofDouble10 ProofDouble11 ProofDouble12 ProofRoots.
Import ListNotations.
Local Open Scope R_scope.

Definition upto (N : Z) (z : Z * Z) : Prop := (Z.abs (fst z) <= N /\ Z.abs (snd z) <= N)%Z.
Definition rpt (z : Z * Z) : pt := (IZR (fst z), IZR (snd z)).
Lemma int_vpt (p : point b64) (z : Z * Z) : int_pt p z -> vpt p = rpt z.
Proof. intros [[_ X] [_ Y]]. unfold vpt, rpt. now rewrite X, Y. Qed.

(** ** Comparing a rounded quotient with an integer *)
Lemma quot_gap (n d m : Z) : (d <> 0)%Z -> IZR n / IZR d < IZR m -> IZR n / IZR d <= IZR m - / Rabs (IZR d).
Proof.
  intros D L. assert (D0 : IZR d <> 0) by (intros K; apply eq_IZR in K; contradiction).
  destruct (Z_lt_le_dec d 0) as [Neg|Pos].
  - assert (Dn : IZR d < 0) by (apply (IZR_lt d 0); lia). rewrite Rabs_left by exact Dn.
    assert (IZR m * IZR d < IZR n). { replace (IZR n) with (IZR n / IZR d * IZR d) by (field; exact D0). apply Rmult_lt_gt_compat_neg_l with (r := IZR d) in L; lra. }
    rewrite <- mult_IZR in H. apply lt_IZR in H. assert (IZR (m * d + 1) <= IZR n) by (apply IZR_le; lia). rewrite plus_IZR, mult_IZR in H0.
    apply (Rmult_le_reg_r (- IZR d)); [lra|]. replace (IZR n / IZR d * - IZR d) with (- IZR n) by (field; exact D0). replace ((IZR m - / - IZR d) * - IZR d) with (- IZR m * IZR d - 1) by (field; exact D0). lra.
  - assert (Dp : 0 < IZR d) by (apply (IZR_lt 0 d); lia). rewrite Rabs_pos_eq by lra.
    assert (IZR n < IZR m * IZR d). { replace (IZR n) with (IZR n / IZR d * IZR d) by (field; exact D0). apply Rmult_lt_compat_r; lra. }
    rewrite <- mult_IZR in H. apply lt_IZR in H. assert (IZR (n + 1) <= IZR (m * d)) by (apply IZR_le; lia). rewrite plus_IZR, mult_IZR in H0.
    apply (Rmult_le_reg_r (IZR d)); [lra|]. replace (IZR n / IZR d * IZR d) with (IZR n) by (field; exact D0). replace ((IZR m - / IZR d) * IZR d) with (IZR m * IZR d - 1) by (field; exact D0). lra.
Qed.
Lemma fl_step (m : Z) : (Z.abs m <= 2 ^ 15)%Z -> fl (IZR m - / 2 ^ 34) = IZR m - / 2 ^ 34.
Proof.
  intros M. replace (IZR m - / 2 ^ 34) with (IZR (m * 2 ^ 34 - 1) * / 2 ^ 34).
  - apply (fl_dy 34); lia.
  - rewrite minus_IZR, mult_IZR. replace (IZR (2 ^ 34)) with (2 ^ 34) by (rewrite (pow_IZR 2 34); reflexivity). field.
Qed.
Lemma fl_quot_le (n d m : Z) : (d <> 0)%Z -> (Z.abs d <= 2 ^ 34)%Z -> (Z.abs m <= 2 ^ 15)%Z -> (IZR m <= fl (IZR n / IZR d) <-> IZR m <= IZR n / IZR d) /\ (fl (IZR n / IZR d) <= IZR m <-> IZR n / IZR d <= IZR m).
Proof.
  assert (A : forall n d m, (d <> 0)%Z -> (Z.abs d <= 2 ^ 34)%Z -> (Z.abs m <= 2 ^ 15)%Z -> IZR m <= fl (IZR n / IZR d) <-> IZR m <= IZR n / IZR d).
  { clear. intros n d m D Ld M. split; intros H.
    - apply Rnot_lt_le. intros L. apply quot_gap in L; [|exact D].
      assert (G : / 2 ^ 34 <= / Rabs (IZR d)).
      { rewrite <- abs_IZR. apply Rinv_le_contravar; [apply (IZR_lt 0); lia|]. replace (2 ^ 34) with (IZR (2 ^ 34)) by (rewrite (pow_IZR 2 34); reflexivity). apply IZR_le. exact Ld. }
      assert (fl (IZR n / IZR d) <= IZR m - / 2 ^ 34) by (rewrite <- fl_step by exact M; apply fl_mono; lra).
      assert (0 < / 2 ^ 34) by (apply Rinv_0_lt_compat, pow_lt; lra). lra.
    - rewrite <- (fl_IZR m) by lia. apply fl_mono. exact H. }
  intros D Ld M. split; [now apply A|]. specialize (A (- n)%Z d (- m)%Z D Ld ltac:(lia)). rewrite !opp_IZR in A.
  replace (- IZR n / IZR d) with (- (IZR n / IZR d)) in A by (field; intros K; apply eq_IZR in K; contradiction). rewrite fl_opp in A. split; intros H; [assert (K : - IZR m <= - fl (IZR n / IZR d)) by lra | assert (K : - IZR m <= - (IZR n / IZR d)) by lra]; apply A in K; lra.
Qed.

(** ** lli *)
Definition cross_d (a b c d : Z * Z) : Z := ((fst a - fst b) * (snd c - snd d) - (snd a - snd b) * (fst c - fst d))%Z.
Definition cross_x (a b c d : Z * Z) : Z := ((fst a * snd b - snd a * fst b) * (fst c - fst d) - (fst a - fst b) * (fst c * snd d - snd c * fst d))%Z.
Definition cross_y (a b c d : Z * Z) : Z := ((fst a * snd b - snd a * fst b) * (snd c - snd d) - (snd a - snd b) * (fst c * snd d - snd c * fst d))%Z.
Lemma prod_le (a b A B : Z) : (Z.abs a <= A -> Z.abs b <= B -> Z.abs (a * b) <= A * B)%Z.
Proof. intros X Y. rewrite Z.abs_mul. apply Z.mul_le_mono_nonneg; lia. Qed.
Lemma diff_le (a b A B : Z) : (Z.abs a <= A -> Z.abs b <= B -> Z.abs (a - b) <= A + B)%Z.
Proof. lia. Qed.
(** A double holding an integer of bounded size. *)
Definition bint (A : Z) (x : b64) (n : Z) : Prop := is_int x n /\ (Z.abs n <= A)%Z.
Lemma bint_sub (A B : Z) (x y : b64) (n m : Z) : bint A x n -> bint B y m -> (A + B < 2 ^ 53)%Z -> bint (A + B) (nsub x y) (n - m).
Proof. intros [X Nx] [Y Ny] L. split; [apply int_sub; auto; clear - Nx Ny L; lia | clear - Nx Ny L; lia]. Qed.
Lemma bint_mul (A B : Z) (x y : b64) (n m : Z) : bint A x n -> bint B y m -> (A * B < 2 ^ 53)%Z -> bint (A * B) (nmul x y) (n * m).
Proof. intros [X Nx] [Y Ny] L. pose proof (prod_le _ _ _ _ Nx Ny) as K. split; [apply int_mul; auto; clear - K L; lia | exact K]. Qed.
Lemma lli_real (a b c d : Z * Z) : lli4 (rpt a) (rpt b) (rpt c) (rpt d) =
  if Z.eq_dec (cross_d a b c d) 0 then None else Some (IZR (cross_x a b c d) / IZR (cross_d a b c d), IZR (cross_y a b c d) / IZR (cross_d a b c d)).
Proof.
  unfold lli4, lli8, rpt. cbn [fst snd]. numRg. unfold Reqb. rewrite <- ?minus_IZR, <- ?mult_IZR, <- ?minus_IZR, <- ?mult_IZR, <- ?minus_IZR. fold (cross_d a b c d) (cross_x a b c d) (cross_y a b c d).
  destruct (Z.eq_dec (cross_d a b c d) 0) as [E|E], (Req_EM_T (IZR (cross_d a b c d)) 0) as [F|F]; auto.
  - rewrite E in F. contradiction.
  - apply eq_IZR in F. contradiction.
Qed.

Section Lines.
  Context {TO : TrigOps b64}.
  (** The coordinates are rounded once. *)
  Lemma quot_int (x y : b64) (n d : Z) : is_int x n -> is_int y d -> d <> 0%Z -> (Z.abs n <= 2 ^ 51)%Z -> fin (nquot x y) /\ val (nquot x y) = fl (IZR n / IZR d).
  Proof.
    intros [Fx Vx] [Fy Vy] D L. assert (D0 : IZR d <> 0) by (intros K; apply eq_IZR in K; contradiction).
    rewrite <- Vx, <- Vy. apply div_fl; auto; [rewrite Vy; exact D0|]. rewrite Vx, Vy.
    assert (B : Rabs (IZR n / IZR d) <= 2 ^ 51).
    { unfold Rdiv. rewrite Rabs_mult, Rabs_inv, <- !abs_IZR. replace (2 ^ 51) with (IZR (2 ^ 51) * 1) by (rewrite (pow_IZR 2 51), Rmult_1_r; reflexivity).
      apply Rmult_le_compat; [apply IZR_le; lia | left; apply Rinv_0_lt_compat, (IZR_lt 0); lia | apply IZR_le; exact L|].
      rewrite <- Rinv_1. apply Rinv_le_contravar; [lra | apply IZR_le; lia]. }
    apply fl_size in B. pose proof tiny_60. assert (2 ^ 60 <= ProofDouble.top) by (unfold ProofDouble.top; rewrite two_pow; apply bpow_le; unfold emax; lia).
    assert (2 * 2 ^ 51 + 1 <= 2 ^ 60) by (cbn; lra). assert (0 < 2 ^ 51) by (apply pow_lt; lra). lra.
  Qed.
  Lemma lli_double (pa pb pc pd : point b64) (a b c d : Z * Z) : int_pt pa a -> int_pt pb b -> int_pt pc c -> int_pt pd d ->
    upto (2 ^ 16) a -> upto (2 ^ 16) b -> upto (2 ^ 16) c -> upto (2 ^ 16) d ->
    (cross_d a b c d = 0%Z /\ lli4 pa pb pc pd = None) \/
    (cross_d a b c d <> 0%Z /\ (Z.abs (cross_d a b c d) <= 2 ^ 35)%Z /\ exists q, lli4 pa pb pc pd = Some q /\ fin (fst q) /\ fin (snd q) /\
      val (fst q) = fl (IZR (cross_x a b c d) / IZR (cross_d a b c d)) /\ val (snd q) = fl (IZR (cross_y a b c d) / IZR (cross_d a b c d))).
  Proof.
    intros [Ax' Ay'] [Bx' By'] [Cx' Cy'] [Dx' Dy'] [La1 La2] [Lb1 Lb2] [Lc1 Lc2] [Ld1 Ld2].
    pose proof (conj Ax' La1 : bint (2 ^ 16) _ _) as Ax. pose proof (conj Ay' La2 : bint (2 ^ 16) _ _) as Ay. pose proof (conj Bx' Lb1 : bint (2 ^ 16) _ _) as Bx. pose proof (conj By' Lb2 : bint (2 ^ 16) _ _) as By.
    pose proof (conj Cx' Lc1 : bint (2 ^ 16) _ _) as Cx. pose proof (conj Cy' Lc2 : bint (2 ^ 16) _ _) as Cy. pose proof (conj Dx' Ld1 : bint (2 ^ 16) _ _) as Dx. pose proof (conj Dy' Ld2 : bint (2 ^ 16) _ _) as Dy.
    clear Ax' Ay' Bx' By' Cx' Cy' Dx' Dy' La1 La2 Lb1 Lb2 Lc1 Lc2 Ld1 Ld2.
    pose proof (bint_sub _ _ _ _ _ _ Ax Bx eq_refl) as S1. pose proof (bint_sub _ _ _ _ _ _ Cy Dy eq_refl) as S2. pose proof (bint_sub _ _ _ _ _ _ Ay By eq_refl) as S3. pose proof (bint_sub _ _ _ _ _ _ Cx Dx eq_refl) as S4.
    pose proof (bint_sub _ _ _ _ _ _ (bint_mul _ _ _ _ _ _ Ax By eq_refl) (bint_mul _ _ _ _ _ _ Ay Bx eq_refl) eq_refl) as S5.
    pose proof (bint_sub _ _ _ _ _ _ (bint_mul _ _ _ _ _ _ Cx Dy eq_refl) (bint_mul _ _ _ _ _ _ Cy Dx eq_refl) eq_refl) as S6.
    pose proof (bint_sub _ _ _ _ _ _ (bint_mul _ _ _ _ _ _ S5 S4 eq_refl) (bint_mul _ _ _ _ _ _ S1 S6 eq_refl) eq_refl) as NX.
    pose proof (bint_sub _ _ _ _ _ _ (bint_mul _ _ _ _ _ _ S5 S2 eq_refl) (bint_mul _ _ _ _ _ _ S3 S6 eq_refl) eq_refl) as NY.
    pose proof (bint_sub _ _ _ _ _ _ (bint_mul _ _ _ _ _ _ S1 S2 eq_refl) (bint_mul _ _ _ _ _ _ S3 S4 eq_refl) eq_refl) as DD.
    destruct NX as [NX Bx'], NY as [NY By'], DD as [DD Bd'].
    fold (cross_x a b c d) in NX, Bx'. fold (cross_y a b c d) in NY, By'. fold (cross_d a b c d) in DD, Bd'. unfold lli4, lli8. cbv zeta.
    set (nx := nsub (nmul (nsub (nmul (fst pa) (snd pb)) (nmul (snd pa) (fst pb))) (nsub (fst pc) (fst pd))) (nmul (nsub (fst pa) (fst pb)) (nsub (nmul (fst pc) (snd pd)) (nmul (snd pc) (fst pd))))) in *.
    set (ny := nsub (nmul (nsub (nmul (fst pa) (snd pb)) (nmul (snd pa) (fst pb))) (nsub (snd pc) (snd pd))) (nmul (nsub (snd pa) (snd pb)) (nsub (nmul (fst pc) (snd pd)) (nmul (snd pc) (fst pd))))) in *.
    set (dd := nsub (nmul (nsub (fst pa) (fst pb)) (nsub (snd pc) (snd pd))) (nmul (nsub (snd pa) (snd pb)) (nsub (fst pc) (fst pd)))) in *.
    destruct (val_int 0) as [F0 V0]; [reflexivity|]. change (nofZ 0 : b64) with (bofZ 0). pose proof DD as [Fd Vd].
    destruct (Z.eq_dec (cross_d a b c d) 0) as [E|E].
    - left. split; [exact E|]. rewrite (val_neqb dd (bofZ 0)); auto. rewrite Vd, E, V0. reflexivity.
    - right. split; [exact E|]. split; [exact Bd'|]. rewrite (neqb_val dd (bofZ 0)); auto; [|rewrite Vd, V0; intros K; apply eq_IZR in K; contradiction].
      destruct (quot_int nx dd _ _ NX DD E Bx') as [G1 W1]. destruct (quot_int ny dd _ _ NY DD E By') as [G2 W2].
      eexists. split; [reflexivity|]. cbn [fst snd]. repeat split; assumption.
  Qed.

  (** ** intersectionPoint *)
  Lemma box_double (pa pb q : point b64) (a b : Z * Z) : int_pt pa a -> int_pt pb b -> upto (2 ^ 15) a -> upto (2 ^ 15) b -> fin (fst q) -> fin (snd q) ->
    enclosesPoint (BoundsRectangle [pa; pb]) q = true <->
    (IZR (Z.min (fst a) (fst b)) <= val (fst q) <= IZR (Z.max (fst a) (fst b))) /\ (IZR (Z.min (snd a) (snd b)) <= val (snd q) <= IZR (Z.max (snd a) (snd b))).
  Proof.
    destruct pa as [ax ay], pb as [bx by'], q as [qx qy]. cbn [fst snd]. intros [[Fax Vax] [Fay Vay]] [[Fbx Vbx] [Fby Vby]] [A1 A2] [B1 B2] Fx Fy. cbn [fst snd] in *.
    unfold BoundsRectangle. cbn [fold_left addPoint emptyRect left right MBounds.top bottom enclosesPoint].
    destruct (val_int 32768) as [F1 V1]; [reflexivity|]. destruct (val_int (-32768)) as [F2 V2]; [reflexivity|]. change (nofZ 32768 : b64) with (bofZ 32768). change (nofZ (-32768) : b64) with (bofZ (-32768)).
    assert (MN : forall x y : b64, forall n m, fin x -> fin y -> val x = IZR n -> val y = IZR m -> (Z.abs n <= 2 ^ 15)%Z -> fin (pmin (pmin (bofZ 32768) x) y) /\ val (pmin (pmin (bofZ 32768) x) y) = IZR (Z.min n m)).
    { clear - F1 V1. intros x y n m Fx Fy X Y L. destruct (pmin_val (bofZ 32768) x F1 Fx) as [G W]. destruct (pmin_val _ y G Fy) as [G' W']. split; [exact G'|]. rewrite W', W, V1, X, Y.
      assert (IZR n <= 32768) by (apply IZR_le; lia). rewrite (Rmin_right _ (IZR n)) by assumption. destruct (Z.min_spec n m) as [[C ->]|[C ->]]; [apply Rmin_left, Rlt_le, IZR_lt, C | apply Rmin_right, IZR_le, C]. }
    assert (MX : forall x y : b64, forall n m, fin x -> fin y -> val x = IZR n -> val y = IZR m -> (Z.abs n <= 2 ^ 15)%Z -> fin (pmax (pmax (bofZ (-32768)) x) y) /\ val (pmax (pmax (bofZ (-32768)) x) y) = IZR (Z.max n m)).
    { clear - F2 V2. intros x y n m Fx Fy X Y L. destruct (pmax_val (bofZ (-32768)) x F2 Fx) as [G W]. destruct (pmax_val _ y G Fy) as [G' W']. split; [exact G'|]. rewrite W', W, V2, X, Y.
      assert (-32768 <= IZR n) by (apply IZR_le; lia). rewrite (Rmax_right _ (IZR n)) by assumption. destruct (Z.max_spec n m) as [[C ->]|[C ->]]; [apply Rmax_right, Rlt_le, IZR_lt, C | apply Rmax_left, IZR_le, C]. }
    destruct (MN ax bx _ _ Fax Fbx Vax Vbx A1) as [G1 W1]. destruct (MX ax bx _ _ Fax Fbx Vax Vbx A1) as [G2 W2]. destruct (MN ay by' _ _ Fay Fby Vay Vby A2) as [G3 W3]. destruct (MX ay by' _ _ Fay Fby Vay Vby A2) as [G4 W4].
    rewrite !andb_true_iff, !leb_val by assumption. rewrite W1, W2, W3, W4. tauto.
  Qed.
End Lines.
Lemma box_real (a b : Z * Z) (q : pt) : upto (2 ^ 15) a -> upto (2 ^ 15) b ->
  enclosesPoint (BoundsRectangle [rpt a; rpt b]) q = true <->
  (IZR (Z.min (fst a) (fst b)) <= fst q <= IZR (Z.max (fst a) (fst b))) /\ (IZR (Z.min (snd a) (snd b)) <= snd q <= IZR (Z.max (snd a) (snd b))).
Proof.
  destruct a as [ax ay], b as [bx by'], q as [qx qy]. intros [A1 A2] [B1 B2]. unfold rpt, BoundsRectangle. cbn [fst snd fold_left addPoint emptyRect left right MBounds.top bottom enclosesPoint] in *.
  assert (MN : forall n m, (Z.abs n <= 2 ^ 15)%Z -> pmin (pmin (nofZ 32768) (IZR n)) (IZR m) = IZR (Z.min n m)).
  { clear. intros n m L. assert (IZR n <= 32768) by (apply IZR_le; lia). unfold pmin. numRg. destruct (Rltb_spec (IZR n) 32768).
    - destruct (Rltb_spec (IZR m) (IZR n)) as [K|K]; [apply lt_IZR in K|]; [now rewrite Z.min_r by lia|]. rewrite Z.min_l; [reflexivity|]. apply le_IZR. lra.
    - assert (Hn : IZR n = 32768) by lra. apply (eq_IZR n (32768)) in Hn. subst n. destruct (Rltb_spec (IZR m) 32768) as [K|K]; [apply lt_IZR in K; now rewrite Z.min_r by lia|]. rewrite Z.min_l; [reflexivity|]. apply le_IZR. lra. }
  assert (MX : forall n m, (Z.abs n <= 2 ^ 15)%Z -> pmax (pmax (nofZ (-32768)) (IZR n)) (IZR m) = IZR (Z.max n m)).
  { clear. intros n m L. assert (-32768 <= IZR n) by (apply IZR_le; lia). unfold pmax. numRg. destruct (Rltb_spec (-32768) (IZR n)).
    - destruct (Rltb_spec (IZR n) (IZR m)) as [K|K]; [apply lt_IZR in K|]; [now rewrite Z.max_r by lia|]. rewrite Z.max_l; [reflexivity|]. apply le_IZR. lra.
    - assert (Hn : IZR n = -32768) by lra. apply (eq_IZR n (-32768)) in Hn. subst n. destruct (Rltb_spec (-32768) (IZR m)) as [K|K]; [apply lt_IZR in K; now rewrite Z.max_r by lia|]. rewrite Z.max_l; [reflexivity|]. apply le_IZR. lra. }
  rewrite !MN, !MX by assumption. numRg. rewrite !andb_true_iff, !Rleb_true. tauto.
Qed.
Lemma upto_le (A B : Z) (z : Z * Z) : (A <= B)%Z -> upto A z -> upto B z.
Proof. unfold upto. lia. Qed.
Lemma cross_d_small (a b c d : Z * Z) : upto (2 ^ 15) a -> upto (2 ^ 15) b -> upto (2 ^ 15) c -> upto (2 ^ 15) d -> (Z.abs (cross_d a b c d) <= 2 ^ 34)%Z.
Proof.
  intros [A1 A2] [B1 B2] [C1 C2] [D1 D2]. assert (X : (Z.abs (cross_d a b c d) <= 2 ^ 33)%Z); [|lia].
  exact (diff_le _ _ _ _ (prod_le _ _ _ _ (diff_le _ _ _ _ A1 B1) (diff_le _ _ _ _ C2 D2)) (prod_le _ _ _ _ (diff_le _ _ _ _ A2 B2) (diff_le _ _ _ _ C1 D1))).
Qed.
Definition rounded_pt (p : pt) (q : point b64) : Prop := nearest_double (fst p) (fst q) /\ nearest_double (snd p) (snd q).
Lemma fl_is_nearest (r : R) (x : b64) : fin x -> val x = fl r -> nearest_double r x.
Proof. intros F V. split; [exact F|]. intros y _. rewrite V. apply fl_nearest. Qed.
Lemma bool_same (x y : bool) : (x = true <-> y = true) -> x = y.
Proof. destruct x, y; intuition congruence. Qed.

Section Lines2.
  Context {TO : TrigOps b64}.
  (** The result on doubles is the result on the real numbers, rounded once. *)
  Lemma lli_rounded (pa pb pc pd : point b64) (a b c d : Z * Z) : int_pt pa a -> int_pt pb b -> int_pt pc c -> int_pt pd d ->
    upto (2 ^ 16) a -> upto (2 ^ 16) b -> upto (2 ^ 16) c -> upto (2 ^ 16) d ->
    match lli4 (rpt a) (rpt b) (rpt c) (rpt d) with
    | None => lli4 pa pb pc pd = None
    | Some p => exists q, lli4 pa pb pc pd = Some q /\ rounded_pt p q
    end.
  Proof.
    intros Ia Ib Ic Id La Lb Lc Ld. rewrite lli_real. destruct (lli_double pa pb pc pd a b c d Ia Ib Ic Id La Lb Lc Ld) as [[E K]|(E & _ & q & K & F1 & F2 & V1 & V2)]; destruct (Z.eq_dec _ 0); try contradiction.
    - exact K.
    - exists q. split; [exact K|]. split; cbn [fst snd]; now apply fl_is_nearest.
  Qed.
  Lemma intersection_rounded (pa pb pc pd : point b64) (a b c d : Z * Z) : int_pt pa a -> int_pt pb b -> int_pt pc c -> int_pt pd d ->
    upto (2 ^ 15) a -> upto (2 ^ 15) b -> upto (2 ^ 15) c -> upto (2 ^ 15) d ->
    match intersectionPoint [rpt a; rpt b] [rpt c; rpt d] with
    | Ok None => intersectionPoint [pa; pb] [pc; pd] = Ok None
    | Ok (Some p) => exists q, intersectionPoint [pa; pb] [pc; pd] = Ok (Some q) /\ rounded_pt p q
    | Err _ => False
    end.
  Proof.
    intros Ia Ib Ic Id La Lb Lc Ld. unfold intersectionPoint. change (lli [rpt a; rpt b] [rpt c; rpt d]) with (Ok (lli4 (rpt a) (rpt b) (rpt c) (rpt d))). change (lli [pa; pb] [pc; pd]) with (Ok (lli4 pa pb pc pd)). cbn [bind].
    rewrite lli_real. pose proof (cross_d_small a b c d La Lb Lc Ld) as Sd.
    destruct (lli_double pa pb pc pd a b c d Ia Ib Ic Id) as [[E K]|(E & _ & q & K & F1 & F2 & V1 & V2)]; try (eapply upto_le; [|eassumption]; discriminate); rewrite K; destruct (Z.eq_dec _ 0); try contradiction; [reflexivity|].
    assert (B : forall pu pv u v, int_pt pu u -> int_pt pv v -> upto (2 ^ 15) u -> upto (2 ^ 15) v ->
      enclosesPoint (BoundsRectangle [pu; pv]) q = enclosesPoint (BoundsRectangle [rpt u; rpt v]) (IZR (cross_x a b c d) / IZR (cross_d a b c d), IZR (cross_y a b c d) / IZR (cross_d a b c d))).
    { intros pu pv u v Iu Iv Lu Lv. apply bool_same. rewrite (box_double pu pv q u v Iu Iv Lu Lv F1 F2), (box_real u v) by assumption. cbn [fst snd]. rewrite V1, V2.
      assert (M : forall n m N, (Z.abs n <= N -> Z.abs m <= N -> Z.abs (Z.min n m) <= N /\ Z.abs (Z.max n m) <= N)%Z) by (clear; lia).
      destruct Lu as [U1 U2], Lv as [W1 W2]. destruct (M _ _ _ U1 W1) as [M1 M2]. destruct (M _ _ _ U2 W2) as [M3 M4].
      destruct (fl_quot_le (cross_x a b c d) (cross_d a b c d) _ E Sd M1) as [Q1 _]. destruct (fl_quot_le (cross_x a b c d) (cross_d a b c d) _ E Sd M2) as [_ Q2].
      destruct (fl_quot_le (cross_y a b c d) (cross_d a b c d) _ E Sd M3) as [Q3 _]. destruct (fl_quot_le (cross_y a b c d) (cross_d a b c d) _ E Sd M4) as [_ Q4]. rewrite Q1, Q2, Q3, Q4. reflexivity. }
    rewrite (B pa pb a b), (B pc pd c d) by assumption. destruct (_ && _); [|reflexivity].
    exists q. split; [reflexivity|]. split; cbn [fst snd]; now apply fl_is_nearest.
  Qed.

  (** ** pointOnLine *)
  Lemma fl_slopes (n d m e : Z) : (d <> 0)%Z -> (e <> 0)%Z -> (Z.abs n <= 2 ^ 16)%Z -> (Z.abs d <= 2 ^ 16)%Z -> (Z.abs m <= 2 ^ 16)%Z -> (Z.abs e <= 2 ^ 16)%Z ->
    fl (IZR n / IZR d) = fl (IZR m / IZR e) -> IZR n / IZR d = IZR m / IZR e.
  Proof.
    intros D E Ln Ld Lm Le H. assert (D0 : IZR d <> 0) by (intros K; apply eq_IZR in K; contradiction). assert (E0 : IZR e <> 0) by (intros K; apply eq_IZR in K; contradiction).
    destruct (Z.eq_dec (n * e - m * d) 0) as [K|K].
    - apply (f_equal IZR) in K. rewrite minus_IZR, !mult_IZR in K. apply (Rmult_eq_reg_r (IZR d * IZR e)); [|now apply Rmult_integral_contrapositive_currified].
      replace (IZR n / IZR d * (IZR d * IZR e)) with (IZR n * IZR e) by (field; exact D0). replace (IZR m / IZR e * (IZR d * IZR e)) with (IZR m * IZR d) by (field; exact E0). lra.
    - exfalso. assert (P32 : IZR (2 ^ 16 * 2 ^ 16) = 2 ^ 32) by (rewrite (pow_IZR 2 32); reflexivity). assert (P16 : IZR (2 ^ 16) = 2 ^ 16) by (rewrite (pow_IZR 2 16); reflexivity).
      assert (G : / 2 ^ 32 <= Rabs (IZR n / IZR d - IZR m / IZR e)).
      { replace (IZR n / IZR d - IZR m / IZR e) with (IZR (n * e - m * d) / IZR (d * e)) by (rewrite minus_IZR, !mult_IZR; field; auto).
        unfold Rdiv. rewrite Rabs_mult, Rabs_inv, <- !abs_IZR. assert (1 <= IZR (Z.abs (n * e - m * d))) by (apply (IZR_le 1); lia).
        assert (N0 : (d * e <> 0)%Z) by (apply Z.neq_mul_0; auto). assert (0 < IZR (Z.abs (d * e))) by (apply (IZR_lt 0); clear - N0; lia).
        assert (IZR (Z.abs (d * e)) <= 2 ^ 32) by (rewrite <- P32; apply IZR_le, prod_le; assumption).
        assert (/ 2 ^ 32 <= / IZR (Z.abs (d * e))) by (now apply Rinv_le_contravar). assert (0 < / 2 ^ 32) by (apply Rinv_0_lt_compat, pow_lt; lra). nra. }
      assert (S : forall u v, (v <> 0)%Z -> (Z.abs u <= 2 ^ 16)%Z -> Rabs (fl (IZR u / IZR v) - IZR u / IZR v) <= ulp1 * 2 ^ 16 + tiny).
      { clear - P16. intros u v V L. eapply Rle_trans; [apply fl_err|]. apply Rplus_le_compat_r, Rmult_le_compat_l; [pose proof ulp1_pos; lra|].
        unfold Rdiv. rewrite Rabs_mult, Rabs_inv, <- !abs_IZR, <- P16. rewrite <- (Rmult_1_r (IZR (2 ^ 16))).
        apply Rmult_le_compat; [apply IZR_le; lia | left; apply Rinv_0_lt_compat, (IZR_lt 0); lia | apply IZR_le; exact L|].
        rewrite <- Rinv_1. apply Rinv_le_contravar; [lra | apply IZR_le; lia]. }
      pose proof (S n d D Ln) as S1. pose proof (S m e E Lm) as S2. rewrite H in S1.
      assert (2 * (ulp1 * 2 ^ 16 + tiny) < / 2 ^ 32).
      { pose proof ulp_tiny. rewrite ulp_num in *. apply Rmult_lt_reg_r with (2 ^ 32); [apply pow_lt; lra|]. rewrite Rinv_l by (apply pow_nonzero; lra). cbn [pow]. lra. }
      assert (Rabs (IZR n / IZR d - IZR m / IZR e) <= 2 * (ulp1 * 2 ^ 16 + tiny)).
      { replace (IZR n / IZR d - IZR m / IZR e) with ((fl (IZR m / IZR e) - IZR m / IZR e) - (fl (IZR m / IZR e) - IZR n / IZR d)) by ring. unfold Rminus at 1. eapply Rle_trans; [apply Rabs_triang|]. rewrite Rabs_Ropp. lra. }
      lra.
  Qed.
  Lemma slope_int (pa pb : point b64) (a b : Z * Z) : int_pt pa a -> int_pt pb b -> upto (2 ^ 15) a -> upto (2 ^ 15) b ->
    ((fst b - fst a = 0)%Z /\ slope [pa; pb] = Ok SInf /\ slope [rpt a; rpt b] = Ok SInf) \/
    ((fst b - fst a <> 0)%Z /\ exists s, slope [pa; pb] = Ok (SFin s) /\ fin s /\ val s = fl (IZR (snd b - snd a) / IZR (fst b - fst a)) /\
      slope [rpt a; rpt b] = Ok (SFin (IZR (snd b - snd a) / IZR (fst b - fst a)))).
  Proof.
    intros [Ax Ay] [Bx By] [A1 A2] [B1 B2]. destruct (bint_sub _ _ _ _ _ _ (conj Bx B1) (conj Ax A1) eq_refl) as [Dx _]. destruct (bint_sub _ _ _ _ _ _ (conj By B2) (conj Ay A2) eq_refl) as [Dy Ly].
    unfold slope, getDeltas. change (endPoints [pa; pb]) with (Ok (pa, pb)). change (endPoints [rpt a; rpt b]) with (Ok (rpt a, rpt b)). unfold rpt. cbn [bind fst snd]. numRg.
    destruct (val_int 0) as [F0 V0]; [reflexivity|]. change (nofZ 0 : b64) with (bofZ 0). pose proof Dx as [Fd Vd]. rewrite <- !minus_IZR. unfold Reqb.
    destruct (Z.eq_dec (fst b - fst a) 0) as [E|E].
    - left. split; [exact E|]. rewrite (val_neqb _ (bofZ 0)) by (auto; rewrite Vd, E, V0; reflexivity). rewrite E. destruct (Req_EM_T 0 0); [auto | contradiction].
    - right. split; [exact E|]. assert (D0 : IZR (fst b - fst a) <> 0) by (intros K; apply eq_IZR in K; contradiction).
      rewrite (neqb_val _ (bofZ 0)) by (auto; rewrite Vd, V0; exact D0). destruct (quot_int _ _ _ _ Dy Dx E) as [G W]; [clear - Ly; lia|].
      eexists. split; [reflexivity|]. split; [exact G|]. split; [exact W|]. destruct (Req_EM_T _ 0); [contradiction | reflexivity].
  Qed.
  Lemma on_line_same (pp pa pb : point b64) (p a b : Z * Z) : int_pt pp p -> int_pt pa a -> int_pt pb b -> upto (2 ^ 15) p -> upto (2 ^ 15) a -> upto (2 ^ 15) b ->
    pointOnLine pp [pa; pb] = pointOnLine (rpt p) [rpt a; rpt b].
  Proof.
    intros Ip Ia Ib Lp La Lb. unfold pointOnLine. destruct Ip as [[Fpx Vpx] [Fpy Vpy]] eqn:Ip'. clear Ip'.
    assert (B : enclosesPoint (BoundsRectangle [pa; pb]) pp = enclosesPoint (BoundsRectangle [rpt a; rpt b]) (rpt p)).
    { apply bool_same. rewrite (box_double pa pb pp a b), (box_real a b) by assumption. unfold rpt. cbn [fst snd]. rewrite Vpx, Vpy. reflexivity. }
    rewrite B. clear B. destruct (enclosesPoint (BoundsRectangle [rpt a; rpt b]) (rpt p)); [|reflexivity]. change (idx [pa; pb] 0) with (Ok pa). change (idx [rpt a; rpt b] 0) with (Ok (rpt a)).
    pose proof La as [A1 A2]. pose proof Lb as [B1 B2]. pose proof Lp as [P1 P2].
    destruct (slope_int pa pb a b Ia Ib La Lb) as [(E & K & K')|(E & s & K & F & V & K')]; rewrite K, K'; cbn [bind];
      (destruct (slope_int pa pp a p Ia Ip La Lp) as [(G & L & L')|(G & u & L & H & W & L')]; rewrite L, L'; cbn [bind slopeeqb]; try reflexivity).
    f_equal. numRg. apply bool_same. rewrite Reqb_true. split; intros Q.
    - apply eqb_val in Q; auto. rewrite V, W in Q. apply fl_slopes in Q; auto; first [exact (diff_le _ _ _ _ B1 A1) | exact (diff_le _ _ _ _ B2 A2) | exact (diff_le _ _ _ _ P1 A1) | exact (diff_le _ _ _ _ P2 A2)].
    - apply val_neqb; auto. now rewrite V, W, Q.
  Qed.
End Lines2.

(** ** The statements of C121 *)
Lemma grid0 (N : Z) (p : point b64) : on_grid 0 N p -> exists z, int_pt p z /\ upto N z /\ vpt p = rpt z.
Proof.
  intros (x & y & (Fx & Vx) & (Fy & Vy) & Lx & Ly). cbn [pow] in *. rewrite Rinv_1, Rmult_1_r in *. exists (x, y). repeat split; cbn [fst snd]; auto.
  unfold vpt, rpt. cbn [fst snd]. now rewrite Vx, Vy.
Qed.
Lemma near_small (a b : Z * Z) : upto (2 ^ 15) a -> SpecUtil.near (rpt a) (rpt b).
Proof.
  intros [A1 A2]. assert (L : forall z, (Z.abs z <= 2 ^ 15)%Z -> -32768 <= IZR z <= 32768) by (intros z Z; split; apply IZR_le; lia).
  pose proof (L _ A1). pose proof (L _ A2). unfold SpecUtil.near, rpt. cbn [fst snd]. repeat split; left; lra.
Qed.
Section Stated.
  Context {TO : TrigOps b64}.
  Theorem grid_crossing (a b c d : point b64) : on_grid 0 (2 ^ 16) a -> on_grid 0 (2 ^ 16) b -> on_grid 0 (2 ^ 16) c -> on_grid 0 (2 ^ 16) d ->
    (parallel (vpt a) (vpt b) (vpt c) (vpt d) -> lli [a; b] [c; d] = Ok None) /\
    (~ parallel (vpt a) (vpt b) (vpt c) (vpt d) -> exists q x, lli [a; b] [c; d] = Ok (Some q) /\
      on_line (vpt a) (vpt b) x /\ on_line (vpt c) (vpt d) x /\ nearest_double (fst x) (fst q) /\ nearest_double (snd x) (snd q)).
  Proof.
    intros Ga Gb Gc Gd. destruct (grid0 _ _ Ga) as (za & Ia & La & ->), (grid0 _ _ Gb) as (zb & Ib & Lb & ->), (grid0 _ _ Gc) as (zc & Ic & Lc & ->), (grid0 _ _ Gd) as (zd & Id & Ld & ->).
    change (lli [a; b] [c; d]) with (Ok (lli4 a b c d)). pose proof (lli_rounded a b c d za zb zc zd Ia Ib Ic Id La Lb Lc Ld) as H. destruct (lli4 (rpt za) (rpt zb) (rpt zc) (rpt zd)) as [p|] eqn:E.
    - apply lli4_on in E as (NP & O1 & O2). split; [intros P; contradiction|]. intros _. destruct H as (q & K & N1 & N2). exists q, p. rewrite K. auto 10.
    - apply lli4_None in E. split; [now rewrite H | contradiction].
  Qed.
  Theorem grid_intersection (a b c d : point b64) : on_grid 0 (2 ^ 15) a -> on_grid 0 (2 ^ 15) b -> on_grid 0 (2 ^ 15) c -> on_grid 0 (2 ^ 15) d ->
    (exists r, intersectionPoint [a; b] [c; d] = Ok r) /\
    (forall x, ~ parallel (vpt a) (vpt b) (vpt c) (vpt d) -> on_segment (vpt a) (vpt b) x -> on_segment (vpt c) (vpt d) x ->
      exists q, intersectionPoint [a; b] [c; d] = Ok (Some q) /\ nearest_double (fst x) (fst q) /\ nearest_double (snd x) (snd q)) /\
    (forall q, intersectionPoint [a; b] [c; d] = Ok (Some q) -> ~ parallel (vpt a) (vpt b) (vpt c) (vpt d) /\
      exists x, on_segment (vpt a) (vpt b) x /\ on_segment (vpt c) (vpt d) x /\ nearest_double (fst x) (fst q) /\ nearest_double (snd x) (snd q)).
  Proof.
    intros Ga Gb Gc Gd. destruct (grid0 _ _ Ga) as (za & Ia & La & ->), (grid0 _ _ Gb) as (zb & Ib & Lb & ->), (grid0 _ _ Gc) as (zc & Ic & Lc & ->), (grid0 _ _ Gd) as (zd & Id & Ld & ->).
    pose proof (intersection_rounded a b c d za zb zc zd Ia Ib Ic Id La Lb Lc Ld) as H.
    assert (P : parallel (rpt za) (rpt zb) (rpt zc) (rpt zd) -> intersectionPoint [rpt za; rpt zb] [rpt zc; rpt zd] = Ok None) by apply intersectionPoint_parallel.
    pose proof (fun x => intersectionPoint_complete (rpt za) (rpt zb) (rpt zc) (rpt zd) x) as C. pose proof (fun x => intersectionPoint_sound (rpt za) (rpt zb) (rpt zc) (rpt zd) x (near_small _ _ La) (near_small _ _ Lc)) as S.
    destruct (intersectionPoint [rpt za; rpt zb] [rpt zc; rpt zd]) as [[p|]|e]; [| |contradiction].
    - destruct H as (q & K & N1 & N2). rewrite K. split; [now exists (Some q)|]. split.
      + intros x NP O1 O2. specialize (C x NP O1 O2). injection C as <-. now exists q.
      + intros q' Q. apply Ok_inj in Q. assert (q = q') by congruence. subst q'. split; [intros Q'; specialize (P Q'); discriminate|]. destruct (S p eq_refl). now exists p.
    - rewrite H. split; [now exists None|]. split; [|discriminate]. intros x NP O1 O2. specialize (C x NP O1 O2). discriminate.
  Qed.
  Theorem grid_on_line (p a b : point b64) : on_grid 0 (2 ^ 15) p -> on_grid 0 (2 ^ 15) a -> on_grid 0 (2 ^ 15) b ->
    vpt p <> vpt a \/ val (fst a) = val (fst b) -> exists r, pointOnLine p [a; b] = Ok r /\ (r = true <-> on_segment (vpt a) (vpt b) (vpt p)).
  Proof.
    intros Gp Ga Gb. change (val (fst a)) with (fst (vpt a)). change (val (fst b)) with (fst (vpt b)).
    destruct (grid0 _ _ Gp) as (zp & Ip & Lp & ->), (grid0 _ _ Ga) as (za & Ia & La & ->), (grid0 _ _ Gb) as (zb & Ib & Lb & ->). intros N.
    rewrite (on_line_same p a b zp za zb) by assumption. apply pointOnLine_spec; [now apply near_small | exact N].
  Qed.
End Stated.

(** ** Tenths *)
Definition tenths4 : b64 := @B754_finite prec emax true 7205759403792794 (-54) eq_refl.
Definition tenths1 : b64 := @B754_finite prec emax false 7205759403792794 (-56) eq_refl.
Lemma shared_end_missed {TO : TrigOps b64} : exists a b c : point b64, sized 1 a /\ sized 1 b /\ sized 1 c /\
  ~ parallel (vpt a) (vpt b) (vpt b) (vpt c) /\ on_segment (vpt a) (vpt b) (vpt b) /\ on_segment (vpt b) (vpt c) (vpt b) /\
  intersectionPoint [a; b] [b; c] = Ok None.
Proof.
  assert (V4 : val tenths4 = - 7205759403792794 / 18014398509481984) by (unfold tenths4; rewrite val_lit; cbn [bpow Z.pow_pos Pos.iter Z.mul radix_val radix2 Pos.mul]; lra).
  assert (V1 : val tenths1 = 7205759403792794 / 72057594037927936) by (unfold tenths1; rewrite val_lit; cbn [bpow Z.pow_pos Pos.iter Z.mul radix_val radix2 Pos.mul]; lra).
  destruct (val_int 0) as [F0 V0]; [reflexivity|].
  assert (F4 : fin tenths4) by reflexivity. assert (F1 : fin tenths1) by reflexivity.
  exists (bofZ 0, bofZ 0), (tenths4, tenths4), (bofZ 0, tenths1). unfold sized, vpt. cbn [fst snd]. rewrite V0, V1, V4.
  split; [repeat split; auto; apply Rabs_le; lra|]. split; [repeat split; auto; apply Rabs_le; lra|]. split; [repeat split; auto; apply Rabs_le; lra|].
  split; [unfold parallel, vcross, vsub; cbn [fst snd]; lra|].
  split; [exists 1; split; [lra|]; unfold along, vadd, vscale, vsub; cbn [fst snd]; f_equal; ring|].
  split; [exists 0; split; [lra|]; unfold along, vadd, vscale, vsub; cbn [fst snd]; f_equal; ring|].
  vm_compute. reflexivity.
Qed.
