(** Affine transforms in binary64: error bound; exact results on integers and when halving curves. *)
From Coq Require Import List ZArith Bool Reals Lra Lia Psatz.
From Flocq Require Import Core BinarySingleNaN Relative.
From Verif Require Import Py Inst InstFloat InstZ SpecGeom SpecFit SpecBezier SpecDouble MTransform MBezUtil MBezier MContour ProofBezier ProofBezier2 ProofDouble.
Import ListNotations.
Local Open Scope R_scope.
#[local] Existing Instance InstFloat.prec_gt_0.
#[local] Existing Instance InstFloat.prec_lt_emax.

(** ** Dyadic numbers *)
Definition dy (e : nat) (x : b64) (z : Z) : Prop := fin x /\ val x = IZR z * / 2 ^ e.
Lemma fl_dy (e : nat) (z : Z) : (Z.abs z < 2 ^ 53)%Z -> (e <= 1000)%nat ->
  fl (IZR z * / 2 ^ e) = IZR z * / 2 ^ e /\ Rabs (IZR z * / 2 ^ e) < top.
Proof.
  intros H E. rewrite two_pow, <- bpow_opp. split; [apply fl_dyadic; [exact H | lia]|].
  rewrite Rabs_mult, <- abs_IZR, (Rabs_pos_eq (bpow _ _)) by apply bpow_ge_0.
  apply Rle_lt_trans with (IZR (Z.abs z) * 1).
  - apply Rmult_le_compat_l; [apply IZR_le; lia|]. change 1 with (bpow radix2 0). apply bpow_le. lia.
  - rewrite Rmult_1_r. apply Rlt_trans with (IZR (2 ^ 53)); [apply IZR_lt; exact H|].
    change (2 ^ 53)%Z with (radix2 ^ 53)%Z. rewrite IZR_Zpower by lia. apply bpow_lt. reflexivity.
Qed.
Lemma dy_add e x y a b : dy e x a -> dy e y b -> (Z.abs (a + b) < 2 ^ 53)%Z -> (e <= 1000)%nat -> dy e (nadd x y) (a + b).
Proof.
  intros (Fx & Vx) (Fy & Vy) H E. destruct (fl_dy e (a + b) H E) as [A B].
  assert (V : val x + val y = IZR (a + b) * / 2 ^ e) by (rewrite Vx, Vy, plus_IZR; ring).
  destruct (plus_fl x y Fx Fy) as [F W]; [rewrite V, A; exact B|]. split; [exact F|]. now rewrite W, V, A.
Qed.
Lemma dy_sub e x y a b : dy e x a -> dy e y b -> (Z.abs (a - b) < 2 ^ 53)%Z -> (e <= 1000)%nat -> dy e (nsub x y) (a - b).
Proof.
  intros (Fx & Vx) (Fy & Vy) H E. destruct (fl_dy e (a - b) H E) as [A B].
  assert (V : val x - val y = IZR (a - b) * / 2 ^ e) by (rewrite Vx, Vy, minus_IZR; ring).
  destruct (minus_fl x y Fx Fy) as [F W]; [rewrite V, A; exact B|]. split; [exact F|]. now rewrite W, V, A.
Qed.
Lemma dy_mul e f x y a b : dy e x a -> dy f y b -> (Z.abs (a * b) < 2 ^ 53)%Z -> (e + f <= 1000)%nat -> dy (e + f) (nmul x y) (a * b).
Proof.
  intros (Fx & Vx) (Fy & Vy) H E. destruct (fl_dy (e + f) (a * b) H E) as [A B].
  assert (V : val x * val y = IZR (a * b) * / 2 ^ (e + f)).
  { rewrite Vx, Vy, mult_IZR, pow_add. field. split; apply pow_nonzero; lra. }
  destruct (mult_fl x y Fx Fy) as [F W]; [rewrite V, A; exact B|]. split; [exact F|]. now rewrite W, V, A.
Qed.
Lemma dy_up e x a : dy e x a -> dy (S e) x (2 * a).
Proof. intros (F & V). split; [exact F|]. rewrite V, mult_IZR. cbn [pow]. field. apply pow_nonzero; lra. Qed.
Lemma dy_int x z : is_int x z <-> dy 0 x z.
Proof. unfold is_int, dy. cbn [pow]. rewrite Rinv_1, Rmult_1_r. tauto. Qed.
Lemma int_lit z : (Z.abs z < 2 ^ 53)%Z -> is_int (bofZ z) z.
Proof. apply val_int. Qed.
Lemma int_add x y a b : is_int x a -> is_int y b -> (Z.abs (a + b) < 2 ^ 53)%Z -> is_int (nadd x y) (a + b).
Proof. rewrite !dy_int. intros X Y H. apply dy_add; auto; lia. Qed.
Lemma int_sub x y a b : is_int x a -> is_int y b -> (Z.abs (a - b) < 2 ^ 53)%Z -> is_int (nsub x y) (a - b).
Proof. rewrite !dy_int. intros X Y H. apply dy_sub; auto; lia. Qed.
Lemma int_mul x y a b : is_int x a -> is_int y b -> (Z.abs (a * b) < 2 ^ 53)%Z -> is_int (nmul x y) (a * b).
Proof. rewrite !dy_int. intros X Y H. apply (dy_mul 0 0); auto; lia. Qed.
Lemma neqb_val (x y : b64) : fin x -> fin y -> val x <> val y -> neqb x y = false.
Proof. intros Fx Fy N. destruct (neqb x y) eqn:E; [|reflexivity]. apply eqb_val in E; auto. contradiction. Qed.
Lemma val_neqb (x y : b64) : fin x -> fin y -> val x = val y -> neqb x y = true.
Proof. intros Fx Fy E. apply (eqb_place x y (fin_not_nan _ Fx) (fin_not_nan _ Fy)). now rewrite !fin_place. Qed.
Lemma fl_val (x : b64) : fl (val x) = val x.
Proof. apply round_generic; [apply valid_rnd_round_mode | apply generic_format_B2R]. Qed.
Lemma val_top (x : b64) : Rabs (val x) < top.
Proof. apply abs_B2R_lt_emax. Qed.
Lemma div_one (x y : b64) : fin x -> fin y -> val y = 1 -> exists q, ndiv x y = Ok q /\ fin q /\ val q = val x.
Proof.
  intros Fx Fy Vy. unfold ndiv. destruct (val_int 0 ltac:(lia)) as [F0 V0].
  change (nofZ 0) with (bofZ 0). rewrite (neqb_val y (bofZ 0)) by (auto; rewrite Vy, V0; lra). eexists; split; [reflexivity|].
  assert (D : val x / val y = val x) by (rewrite Vy; field).
  destruct (div_fl x y Fx) as [F V]; [lra | rewrite D, fl_val; apply val_top|].
  split; [exact F|]. rewrite V, D. apply fl_val.
Qed.

(** ** Three products *)
Definition dot3 (x a y c o m : b64) : b64 := nadd (nadd (nmul x a) (nmul y c)) (nmul o m).
Lemma dot3_near x a y c o m : fin x -> fin a -> fin y -> fin c -> fin o -> fin m ->
  let S := Rabs (val x) * Rabs (val a) + Rabs (val y) * Rabs (val c) + Rabs (val o) * Rabs (val m) in 2 * S <= top ->
  fin (dot3 x a y c o m) /\ Rabs (val (dot3 x a y c o m) - (val x * val a + val y * val c + val o * val m)) <= 4 * ulp1 * S + 8 * tiny.
Proof.
  intros Fx Fa Fy Fc Fo Fm S L.
  pose proof ulp1_pos as Pu. pose proof ulp1_small as Su. pose proof tiny_pos as Pt. pose proof tiny_small as St. pose proof top_big as Tb.
  pose proof (Rmult_le_pos _ _ (Rabs_pos (val x)) (Rabs_pos (val a))) as P1.
  pose proof (Rmult_le_pos _ _ (Rabs_pos (val y)) (Rabs_pos (val c))) as P2.
  pose proof (Rmult_le_pos _ _ (Rabs_pos (val o)) (Rabs_pos (val m))) as P3.
  assert (K : forall k, (k <= 5)%nat -> (1 + ulp1) ^ k * S + 10 * tiny < top).
  { intros k Hk. pose proof (pow_1001 k ltac:(lia)) as Q. assert ((1 + ulp1) ^ k * S <= 1001 / 1000 * S) by (apply Rmult_le_compat_r; unfold S in *; lra). lra. }
  assert (K' : forall k s, (k <= 5)%nat -> s <= S -> (1 + ulp1) ^ k * s + 10 * tiny < top).
  { intros k s Hk Hs. specialize (K k Hk). pose proof (pow_ge1 k). assert ((1 + ulp1) ^ k * s <= (1 + ulp1) ^ k * S) by (apply Rmult_le_compat_l; lra). lra. }
  assert (Pr : forall u v, fin u -> fin v -> Rabs (val u) * Rabs (val v) <= S -> near (nmul u v) (val u * val v) (Rabs (val u) * Rabs (val v)) 1 tiny).
  { intros u v Fu Fv B. eapply (near_mult u v _ _ _ _ 0 0 0 0); [apply near_exact; [exact Fu | lra] | apply near_exact; [exact Fv | lra] | cbn [pow]; lra |].
    specialize (K' 1%nat _ ltac:(lia) B). cbn [Nat.add]. lra. }
  pose proof (Pr x a Fx Fa ltac:(unfold S in *; lra)) as N1. pose proof (Pr y c Fy Fc ltac:(unfold S in *; lra)) as N2.
  pose proof (Pr o m Fo Fm ltac:(unfold S in *; lra)) as N3.
  assert (ut : ulp1 * tiny <= / 1000000 * tiny) by (apply Rmult_le_compat_r; lra).
  assert (N12 : near (nadd (nmul x a) (nmul y c)) (val x * val a + val y * val c) (Rabs (val x) * Rabs (val a) + Rabs (val y) * Rabs (val c)) 2 (4 * tiny)).
  { eapply near_plus; [exact N1 | exact N2 | lra |]. specialize (K' 2%nat (Rabs (val x) * Rabs (val a) + Rabs (val y) * Rabs (val c)) ltac:(lia) ltac:(unfold S in *; lra)). lra. }
  assert (N : near (dot3 x a y c o m) (val x * val a + val y * val c + val o * val m) S 3 ((6 + / 100) * tiny)).
  { eapply near_plus; [exact N12 | eapply near_le; [exact N3 | lia | apply Rle_refl] | lra |]. specialize (K 3%nat ltac:(lia)). fold S. lra. }
  destruct N as (F & _ & _ & A). split; [exact F|]. eapply Rle_trans; [exact A|].
  pose proof (pow_small 3 ltac:(lia)) as Q. replace (INR 3) with 3 in Q by (simpl; ring).
  assert (S0 : 0 <= S) by (unfold S; lra). assert (((1 + ulp1) ^ 3 - 1) * S <= (4 * ulp1) * S) by (apply Rmult_le_compat_r; lra). lra.
Qed.
Lemma dot3_int x a y c o m zx za zy zc zo zm : is_int x zx -> is_int a za -> is_int y zy -> is_int c zc -> is_int o zo -> is_int m zm ->
  (Z.abs zx * Z.abs za + Z.abs zy * Z.abs zc + Z.abs zo * Z.abs zm < 2 ^ 53)%Z ->
  is_int (dot3 x a y c o m) (zx * za + zy * zc + zo * zm).
Proof.
  intros X A Y C O M L. rewrite <- !Z.abs_mul in L. unfold dot3. repeat first [apply int_add | apply int_mul]; auto; lia.
Qed.

(** ** Points *)
Lemma apply_dot3 (a b c d m n p q s x y : b64) : applyToPoint [[a; b; p]; [c; d; q]; [m; n; s]] (x, y) =
  let* rx := ndiv (dot3 x a y c (bofZ 1) m) (dot3 x p y q (bofZ 1) s) in
  let* ry := ndiv (dot3 x b y d (bofZ 1) n) (dot3 x p y q (bofZ 1) s) in Ok (rx, ry).
Proof. reflexivity. Qed.
(** The divisor of an affine transform is 1. *)
Lemma affine_w (x y p q s : b64) : fin x -> fin y -> fin p -> fin q -> fin s -> val p = 0 -> val q = 0 -> val s = 1 ->
  fin (dot3 x p y q (bofZ 1) s) /\ val (dot3 x p y q (bofZ 1) s) = 1.
Proof.
  intros Fx Fy Fp Fq Fs Vp Vq Vs. destruct (val_int 1 ltac:(lia)) as [F1 V1]. pose proof top_big as Tb.
  assert (E0 : fl 0 = 0) by (apply round_0; apply valid_rnd_round_mode).
  assert (E1 : fl 1 = 1) by (rewrite <- V1; apply fl_val).
  assert (Z1 : forall u v, fin u -> fin v -> val v = 0 -> fin (nmul u v) /\ val (nmul u v) = 0).
  { intros u v Fu Fv V. destruct (mult_fl u v Fu Fv) as [F W]; rewrite V, Rmult_0_r, E0 in *; [rewrite Rabs_R0; lra|auto]. }
  destruct (Z1 x p Fx Fp Vp) as [F2 V2]. destruct (Z1 y q Fy Fq Vq) as [F3 V3].
  destruct (plus_fl _ _ F2 F3) as [F4 V4]; rewrite V2, V3, Rplus_0_r, E0 in *; [rewrite Rabs_R0; lra|].
  destruct (mult_fl _ _ F1 Fs) as [F5 V5]; rewrite V1, Vs, Rmult_1_r, E1 in *; [rewrite Rabs_R1; lra|].
  unfold dot3. destruct (plus_fl _ _ F4 F5) as [F6 V6]; rewrite V4, V5, Rplus_0_l, E1 in *; [rewrite Rabs_R1; lra|]. auto.
Qed.
Theorem apply_near (a b c d m n p q s x y : b64) :
  Forall fin [a; b; c; d; m; n; p; q; s; x; y] -> val p = 0 -> val q = 0 -> val s = 1 ->
  let Sx := Rabs (val x) * Rabs (val a) + Rabs (val y) * Rabs (val c) + Rabs (val m) in
  let Sy := Rabs (val x) * Rabs (val b) + Rabs (val y) * Rabs (val d) + Rabs (val n) in
  2 * Sx <= top -> 2 * Sy <= top ->
  exists r, applyToPoint [[a; b; p]; [c; d; q]; [m; n; s]] (x, y) = Ok r /\ fin (fst r) /\ fin (snd r) /\
    Rabs (val (fst r) - (val x * val a + val y * val c + val m)) <= 4 * ulp1 * Sx + 8 * tiny /\
    Rabs (val (snd r) - (val x * val b + val y * val d + val n)) <= 4 * ulp1 * Sy + 8 * tiny.
Proof.
  intros F Vp Vq Vs Sx Sy Lx Ly.
  repeat match goal with H : Forall _ (_ :: _) |- _ => inversion H; clear H; subst end.
  destruct (val_int 1 ltac:(lia)) as [F1 V1]. rewrite apply_dot3.
  destruct (affine_w x y p q s) as [Fw Vw]; auto.
  assert (A1 : forall u, Rabs (val (bofZ 1)) * Rabs (val u) = Rabs (val u)) by (intros u; rewrite V1, Rabs_R1; ring).
  destruct (dot3_near x a y c (bofZ 1) m) as [Fa Ea]; auto; [rewrite A1; exact Lx|].
  destruct (dot3_near x b y d (bofZ 1) n) as [Fb Eb]; auto; [rewrite A1; exact Ly|].
  rewrite A1, V1, Rmult_1_l in Ea, Eb.
  destruct (div_one _ _ Fa Fw Vw) as (r1 & -> & G1 & W1). destruct (div_one _ _ Fb Fw Vw) as (r2 & -> & G2 & W2). cbn [bind].
  eexists; split; [reflexivity|]. cbn [fst snd]. rewrite W1, W2. auto.
Qed.
(** Integer transforms of integer points. *)
Definition zfits (a c m x y : Z) : Prop := (Z.abs x * Z.abs a + Z.abs y * Z.abs c + Z.abs m < 2 ^ 53)%Z.
Theorem apply_int (mx : list (list b64)) (pt : point b64) (a b c d m n x y : Z) :
  int_matrix mx [[a; b; 0]; [c; d; 0]; [m; n; 1]]%Z -> int_pt pt (x, y) -> zfits a c m x y -> zfits b d n x y ->
  exists r, applyToPoint mx pt = Ok r /\ int_pt r (x * a + y * c + m, x * b + y * d + n)%Z.
Proof.
  unfold int_matrix, int_pt, zfits. intros H [X Y] Lx Ly. destruct pt as [px py]; cbn [fst snd] in X, Y.
  repeat match goal with H : Forall2 _ _ (_ :: _) |- _ => inversion H; clear H; subst | H : Forall2 _ _ [] |- _ => inversion H; clear H; subst end.
  rewrite apply_dot3. pose proof (int_lit 1 ltac:(lia)) as O.
  match goal with H0 : is_int ?p 0%Z, H1 : is_int ?q 0%Z, H2 : is_int ?s 1%Z |- context [dot3 px ?p py ?q (bofZ 1) ?s] =>
    destruct (affine_w px py p q s) as [Fw Vw]; [apply X | apply Y | apply H0 | apply H1 | apply H2 | apply H0 | apply H1 | apply H2|] end.
  match goal with |- context [ndiv (dot3 px ?u py ?v (bofZ 1) ?w) _] => assert (I1 : is_int (dot3 px u py v (bofZ 1) w) (x * a + y * c + 1 * m)%Z) by (apply dot3_int; auto; lia) end.
  match goal with |- context [let* ry := ndiv (dot3 px ?u py ?v (bofZ 1) ?w) _ in _] => assert (I2 : is_int (dot3 px u py v (bofZ 1) w) (x * b + y * d + 1 * n)%Z) by (apply dot3_int; auto; lia) end.
  rewrite Z.mul_1_l in I1, I2.
  destruct (div_one _ _ (proj1 I1) Fw Vw) as (r1 & -> & G1 & W1). destruct (div_one _ _ (proj1 I2) Fw Vw) as (r2 & -> & G2 & W2). cbn [bind].
  eexists; split; [reflexivity|]. cbn [fst snd]. split; split; auto; [rewrite W1; apply I1 | rewrite W2; apply I2].
Qed.
(** Products of integer matrices. *)
Definition small (N : Z) (m : list (list Z)) : Prop := Forall (Forall (fun z => Z.abs z <= N)%Z) m.
Lemma row_int (r : list b64) (m2 : list (list b64)) (zr : list Z) (z2 : list (list Z)) (A B : Z) (z : list Z) :
  Forall2 is_int r zr -> int_matrix m2 z2 -> Forall (fun z => Z.abs z <= A)%Z zr -> small B z2 -> (3 * (A * B) < 2 ^ 53)%Z ->
  multiplyRowByMatrix zr z2 = Ok z -> exists r', multiplyRowByMatrix r m2 = Ok r' /\ Forall2 is_int r' z.
Proof.
  unfold int_matrix, small. intros H1 H2 SA SB L E.
  destruct zr as [|r1 [|r2 [|r3 [|]]]]; cbn in E; try discriminate.
  destruct z2 as [|m1 [|m2' [|m3 [|]]]]; cbn in E; try discriminate.
  destruct m1 as [|m11 [|m12 [|m13 [|]]]]; cbn in E; try discriminate.
  destruct m2' as [|m21 [|m22 [|m23 [|]]]]; cbn in E; try discriminate.
  destruct m3 as [|m31 [|m32 [|m33 [|]]]]; cbn in E; try discriminate.
  assert (Ez : z = [r1 * m11 + r2 * m21 + r3 * m31; r1 * m12 + r2 * m22 + r3 * m32; r1 * m13 + r2 * m23 + r3 * m33]%Z) by congruence. subst z. clear E.
  repeat match goal with H : Forall2 _ _ (_ :: _) |- _ => inversion H; clear H; subst | H : Forall2 _ _ [] |- _ => inversion H; clear H; subst
    | H : Forall _ (_ :: _) |- _ => inversion H; clear H; subst end.
  eexists; split; [reflexivity|].
  assert (P : forall u v, (Z.abs u <= A -> Z.abs v <= B -> Z.abs u * Z.abs v <= A * B)%Z) by (intros u v Hu Hv; apply Z.mul_le_mono_nonneg; lia).
  constructor; [|constructor; [|constructor; [|constructor]]]; match goal with |- is_int _ (?u1 * ?v1 + ?u2 * ?v2 + ?u3 * ?v3)%Z =>
    refine (dot3_int _ _ _ _ _ _ _ _ _ _ _ _ _ _ _ _ _ _ _); try assumption;
    pose proof (P u1 v1 ltac:(assumption) ltac:(assumption)); pose proof (P u2 v2 ltac:(assumption) ltac:(assumption)); pose proof (P u3 v3 ltac:(assumption) ltac:(assumption)); lia end.
Qed.
Theorem product_int (m1 m2 : list (list b64)) (z1 z2 z : list (list Z)) (A B : Z) :
  int_matrix m1 z1 -> int_matrix m2 z2 -> small A z1 -> small B z2 -> (3 * (A * B) < 2 ^ 53)%Z ->
  multiplyMatrixByMatrix z1 z2 = Ok z -> exists m, multiplyMatrixByMatrix m1 m2 = Ok m /\ int_matrix m z.
Proof.
  intros H1 H2 SA SB L. revert z. unfold multiplyMatrixByMatrix. induction H1 as [|r zr m1 z1 Hr H1 IH]; intros z E; cbn [mapM] in *.
  - injection E as <-. exists []. split; [reflexivity | constructor].
  - inversion SA; subst. destruct (multiplyRowByMatrix zr z2) as [zz|] eqn:E1; cbn [bind] in E; [|discriminate].
    match type of E with context [mapM ?f z1] => destruct (mapM f z1) as [zt|] eqn:E2; cbn [bind] in E; [|discriminate] end.
    assert (z = zz :: zt) by congruence. subst z.
    destruct (row_int r m2 zr z2 A B zz Hr H2) as (r' & -> & Hr'); auto.
    destruct (IH ltac:(assumption) zt eq_refl) as (mt & -> & Hm). cbn [bind]. eexists; split; [reflexivity|]. constructor; auto.
Qed.

(** ** Named transforms of integer points *)
Lemma Ok_inj {A} (a b : A) : Ok a = Ok b -> a = b.
Proof. congruence. Qed.
Lemma zprod (a b p c d q m n s a' b' p' c' d' q' m' n' s' : Z) :
  multiplyMatrixByMatrix [[a; b; p]; [c; d; q]; [m; n; s]] [[a'; b'; p']; [c'; d'; q']; [m'; n'; s']] =
  Ok [[a * a' + b * c' + p * m'; a * b' + b * d' + p * n'; a * p' + b * q' + p * s'];
      [c * a' + d * c' + q * m'; c * b' + d * d' + q * n'; c * p' + d * q' + q * s'];
      [m * a' + n * c' + s * m'; m * b' + n * d' + s * n'; m * p' + n * q' + s * s']]%Z.
Proof. reflexivity. Qed.
Lemma translate_int (fx fy tx ty x y : Z) (f t p : point b64) : int_pt f (fx, fy) -> int_pt t (tx, ty) -> int_pt p (x, y) ->
  (Z.abs tx + Z.abs fx + Z.abs x < 2 ^ 53)%Z -> (Z.abs ty + Z.abs fy + Z.abs y < 2 ^ 53)%Z ->
  exists m r, translate f t = Ok m /\ applyToPoint m p = Ok r /\ int_pt r (x + (tx - fx), y + (ty - fy))%Z.
Proof.
  intros [F1 F2] [T1 T2] P Lx Ly. destruct f as [f1 f2], t as [t1 t2]; cbn [fst snd] in *.
  pose proof (int_sub _ _ _ _ T1 F1 ltac:(lia)) as D1. pose proof (int_sub _ _ _ _ T2 F2 ltac:(lia)) as D2.
  pose proof (int_lit 0 ltac:(lia)) as I0. pose proof (int_lit 1 ltac:(lia)) as I1.
  destruct (apply_int [[bofZ 1; bofZ 0; bofZ 0]; [bofZ 0; bofZ 1; bofZ 0]; [nsub t1 f1; nsub t2 f2; bofZ 1]] p 1 0 0 1 (tx - fx) (ty - fy) x y) as (r & E & I).
  - repeat (apply Forall2_cons || apply Forall2_nil); assumption.
  - exact P.
  - unfold zfits; lia.
  - unfold zfits; lia.
  - eexists _, r. split; [reflexivity|]. split; [exact E|]. replace (x + (tx - fx))%Z with (x * 1 + y * 0 + (tx - fx))%Z by ring.
    replace (y + (ty - fy))%Z with (x * 0 + y * 1 + (ty - fy))%Z by ring. exact I.
Qed.
Lemma scale_int (sx sy x y : Z) (fx fy : b64) (p : point b64) : is_int fx sx -> is_int fy sy -> int_pt p (x, y) ->
  (Z.abs (sx * x) < 2 ^ 53)%Z -> (Z.abs (sy * y) < 2 ^ 53)%Z ->
  exists m r, scale fx fy = Ok m /\ applyToPoint m p = Ok r /\ int_pt r (sx * x, sy * y)%Z.
Proof.
  intros F1 F2 P Lx Ly. pose proof (int_lit 0 ltac:(lia)) as I0. pose proof (int_lit 1 ltac:(lia)) as I1.
  destruct (apply_int [[fx; bofZ 0; bofZ 0]; [bofZ 0; fy; bofZ 0]; [bofZ 0; bofZ 0; bofZ 1]] p sx 0 0 sy 0 0 x y) as (r & E & I).
  - repeat (apply Forall2_cons || apply Forall2_nil); assumption.
  - exact P.
  - unfold zfits; lia.
  - unfold zfits; lia.
  - eexists _, r. split; [reflexivity|]. split; [exact E|]. replace (sx * x)%Z with (x * sx + y * 0 + 0)%Z by ring.
    replace (sy * y)%Z with (x * 0 + y * sy + 0)%Z by ring. exact I.
Qed.
Lemma mirror_int (cx cy x y : Z) (c p : point b64) (xa ya : bool) : int_pt c (cx, cy) -> int_pt p (x, y) ->
  (Z.abs cx <= 2 ^ 24)%Z -> (Z.abs cy <= 2 ^ 24)%Z -> (Z.abs x <= 2 ^ 51)%Z -> (Z.abs y <= 2 ^ 51)%Z ->
  exists m r, mirrorAround c xa ya = Ok m /\ applyToPoint m p = Ok r /\
    int_pt r (if ya then 2 * cx - x else x, if xa then 2 * cy - y else y)%Z.
Proof.
  intros [C1 C2] P Lcx Lcy Lx Ly. destruct c as [c1 c2]; cbn [fst snd] in *.
  pose proof (int_lit 0 ltac:(lia)) as I0. pose proof (int_lit 1 ltac:(lia)) as I1. pose proof (int_lit (-1) ltac:(lia)) as I1'.
  set (tx := (if ya then cx else 0)%Z). set (ty := (if xa then cy else 0)%Z).
  set (ftx := if ya then c1 else bofZ 0). set (fty := if xa then c2 else bofZ 0).
  assert (J1 : is_int ftx tx) by (unfold ftx, tx; destruct ya; assumption).
  assert (J2 : is_int fty ty) by (unfold fty, ty; destruct xa; assumption).
  assert (Btx : (Z.abs tx <= 2 ^ 24)%Z) by (unfold tx; destruct ya; lia). assert (Bty : (Z.abs ty <= 2 ^ 24)%Z) by (unfold ty; destruct xa; lia).
  pose proof (int_sub _ _ _ _ C1 J1 ltac:(lia)) as M1. pose proof (int_sub _ _ _ _ C2 J2 ltac:(lia)) as M2.
  pose proof (int_sub _ _ _ _ M1 C1 ltac:(lia)) as D1. pose proof (int_sub _ _ _ _ M2 C2 ltac:(lia)) as D2.
  pose proof (int_sub _ _ _ _ C1 M1 ltac:(lia)) as D1'. pose proof (int_sub _ _ _ _ C2 M2 ltac:(lia)) as D2'.
  set (za := (if ya then -1 else 1)%Z). set (zd := (if xa then -1 else 1)%Z).
  set (fa := if ya then bofZ (-1) else bofZ 1). set (fd := if xa then bofZ (-1) else bofZ 1).
  assert (Ja : is_int fa za) by (unfold fa, za; destruct ya; assumption). assert (Jd : is_int fd zd) by (unfold fd, zd; destruct xa; assumption).
  assert (Ba : (Z.abs za <= 1)%Z) by (unfold za; destruct ya; lia). assert (Bd : (Z.abs zd <= 1)%Z) by (unfold zd; destruct xa; lia).
  set (A := [[bofZ 1; bofZ 0; bofZ 0]; [bofZ 0; bofZ 1; bofZ 0]; [nsub (nsub c1 ftx) c1; nsub (nsub c2 fty) c2; bofZ 1]]).
  set (B := [[fa; bofZ 0; bofZ 0]; [bofZ 0; fd; bofZ 0]; [bofZ 0; bofZ 0; bofZ 1]]).
  set (C := [[bofZ 1; bofZ 0; bofZ 0]; [bofZ 0; bofZ 1; bofZ 0]; [nsub c1 (nsub c1 ftx); nsub c2 (nsub c2 fty); bofZ 1]]).
  set (zA := [[1; 0; 0]; [0; 1; 0]; [cx - tx - cx; cy - ty - cy; 1]]%Z).
  set (zB := [[za; 0; 0]; [0; zd; 0]; [0; 0; 1]]%Z).
  set (zC := [[1; 0; 0]; [0; 1; 0]; [cx - (cx - tx); cy - (cy - ty); 1]]%Z).
  assert (HA : int_matrix A zA) by (repeat (apply Forall2_cons || apply Forall2_nil); assumption).
  assert (HB : int_matrix B zB) by (repeat (apply Forall2_cons || apply Forall2_nil); assumption).
  assert (HC : int_matrix C zC) by (repeat (apply Forall2_cons || apply Forall2_nil); assumption).
  assert (SA : small (2 ^ 24) zA) by (repeat (apply Forall_cons || apply Forall_nil); lia).
  assert (SB : small 1 zB) by (repeat (apply Forall_cons || apply Forall_nil); lia).
  assert (SC : small (2 ^ 24) zC) by (repeat (apply Forall_cons || apply Forall_nil); lia).
  destruct (multiplyMatrixByMatrix zA zB) as [zAB|] eqn:E1; [|discriminate E1].
  destruct (product_int A B zA zB zAB _ _ HA HB SA SB ltac:(lia) E1) as (AB & F1 & HAB).
  assert (zAB = [[za; 0; 0]; [0; zd; 0]; [- tx * za; - ty * zd; 1]]%Z) as ->.
  { unfold zA, zB in E1. rewrite zprod in E1. apply Ok_inj in E1. rewrite <- E1. repeat (f_equal; try ring). }
  assert (SAB : small (2 ^ 24) [[za; 0; 0]; [0; zd; 0]; [- tx * za; - ty * zd; 1]]%Z).
  { repeat (apply Forall_cons || apply Forall_nil); try lia; unfold za, zd; destruct xa, ya; lia. }
  destruct (multiplyMatrixByMatrix [[za; 0; 0]; [0; zd; 0]; [- tx * za; - ty * zd; 1]]%Z zC) as [zM|] eqn:E2; [|discriminate E2].
  destruct (product_int AB C _ zC zM _ _ HAB HC SAB SC ltac:(lia) E2) as (Mx & F2 & HM).
  assert (zM = [[za; 0; 0]; [0; zd; 0]; [- tx * za + tx; - ty * zd + ty; 1]]%Z) as ->.
  { unfold zC in E2. rewrite zprod in E2. apply Ok_inj in E2. rewrite <- E2. repeat (f_equal; try ring). }
  exists Mx. destruct (apply_int Mx p _ _ _ _ _ _ x y HM P) as (r & Er & Ir).
  - unfold zfits, tx, za. destruct ya; lia.
  - unfold zfits, ty, zd. destruct xa; lia.
  - exists r. split; [|split; [exact Er|]].
    + change (mirrorAround (c1, c2) xa ya) with (let* x := multiplyMatrixByMatrix A B in let* y := multiplyMatrixByMatrix x C in Ok y).
      rewrite F1. cbn [bind]. rewrite F2. reflexivity.
    + replace (if ya then (2 * cx - x)%Z else x) with (x * za + y * 0 + (- tx * za + tx))%Z by (unfold tx, za; destruct ya; ring).
      replace (if xa then (2 * cy - y)%Z else y) with (x * 0 + y * zd + (- ty * zd + ty))%Z by (unfold ty, zd; destruct xa; ring). exact Ir.
Qed.

(** ** Splitting *)
Lemma bez_off n e s : 0 <= s <= 1 -> forall f g, (forall i, (i <= n)%nat -> Rabs (f i - g i) <= e) -> Rabs (bez n f s - bez n g s) <= e.
Proof.
  intros Hs. induction n as [|n IH]; intros f g H; [exact (H 0%nat (Nat.le_refl _))|]. cbn [bez].
  replace ((1 - s) * bez n f s + s * bez n (shift f) s - ((1 - s) * bez n g s + s * bez n (shift g) s))
    with ((1 - s) * (bez n f s - bez n g s) + s * (bez n (shift f) s - bez n (shift g) s)) by ring.
  assert (A := IH f g (fun i Hi => H i ltac:(lia))). assert (B := IH (shift f) (shift g) (fun i Hi => H (S i) ltac:(lia))).
  eapply Rle_trans; [apply Rabs_triang|]. rewrite !Rabs_mult, (Rabs_pos_eq s), (Rabs_pos_eq (1 - s)) by lra.
  assert ((1 - s) * Rabs (bez n f s - bez n g s) <= (1 - s) * e) by (apply Rmult_le_compat_l; lra).
  assert (s * Rabs (bez n (shift f) s - bez n (shift g) s) <= s * e) by (apply Rmult_le_compat_l; lra). lra.
Qed.
Lemma curve_off (ps : list (point b64)) (qs : list pt) e s : 0 <= s <= 1 -> Forall2 (off e) ps qs -> ps <> [] ->
  let c := curve (map vpt ps) s in Rabs (fst c - fst (curve qs s)) <= e /\ Rabs (snd c - snd (curve qs s)) <= e.
Proof.
  intros Hs H N c. unfold c. rewrite !curve_cv. unfold cv. cbn [fst snd]. rewrite map_length, <- (Forall2_len _ _ _ H).
  assert (K : forall i, (i <= length ps - 1)%nat -> Rabs (fst (nth i (map vpt ps) (0, 0)) - fst (nth i qs (0, 0))) <= e /\
    Rabs (snd (nth i (map vpt ps) (0, 0)) - snd (nth i qs (0, 0))) <= e).
  { intros i Hi. assert (L : (i < length ps)%nat) by (destruct ps; [congruence | simpl in *; lia]). clear Hi N. revert i L.
    induction H as [|p q ps qs Hp H IH]; intros i L; [simpl in L; lia|]. destruct i as [|i]; [apply Hp|]. cbn [map nth]. apply IH. simpl in L. lia. }
  split; apply bez_off; auto; intros i Hi; apply K; exact Hi.
Qed.
Lemma bmap01F (v a b : b64) : exists y, bmap v (bofZ 0) (bofZ 1) a b = Ok y.
Proof. unfold bmap, ndiv. change (neqb (nsub (bofZ 1) (bofZ 0)) (nofZ 0)) with false. cbn iota. eexists; reflexivity. Qed.
(** What split takes from the hull, for any numbers. *)
Lemma split_picks {T} `{NumOps T} (b : bezier T) t l r h : split1 b t = Ok (l, r, h) -> (length (cps b) = 3 \/ length (cps b) = 4)%nat ->
  h = hull b t /\ forall d, let q i := nth i (hull b t) d in
  cps l = (if Nat.eqb (order b) 2 then [q 0; q 3; q 5] else [q 0; q 4; q 7; q 9])%nat /\
  cps r = (if Nat.eqb (order b) 2 then [q 5; q 4; q 2] else [q 9; q 8; q 6; q 3])%nat.
Proof.
  destruct b as [p u v]; cbn [cps]. intros E L. unfold split1 in E.
  destruct p as [|p0 [|p1 [|p2 [|p3 [|p4 p]]]]]; try (simpl in L; lia); cbn [order cps length Nat.sub Nat.eqb] in *.
  all: cbn [hull cps length hullLoop Nat.ltb Nat.leb dcLevel app] in *; unfold idx in E; cbn [nth_error bind] in E; rewrite !newBezier_ok in E by (simpl; lia); cbn [bind] in E.
  all: repeat match type of E with context [let* _ := bmap ?a ?b ?c ?d ?e in _] => destruct (bmap a b c d e); cbn [bind] in E; [|discriminate] end.
  all: apply Ok_inj in E; assert (El : l = fst (fst (l, r, h))) by reflexivity; assert (Er : r = snd (fst (l, r, h))) by reflexivity; assert (Eh : h = snd (l, r, h)) by reflexivity;
    rewrite <- E in El, Er, Eh; cbn [fst snd] in El, Er, Eh; rewrite El, Er, Eh; split; [reflexivity|]; intros d; split; reflexivity.
Qed.
Lemma split_okF (b : bezier b64) t : (length (cps b) = 3 \/ length (cps b) = 4)%nat -> exists l r, split1 b t = Ok (l, r, hull b t).
Proof.
  destruct b as [p u v]; cbn [cps]. intros L. unfold split1. cbn [bt1 bt2].
  change (nofZ 0) with (bofZ 0). change (nofZ 1) with (bofZ 1).
  destruct (bmap01F (bofZ 0) u v) as [y0 E0], (bmap01F t u v) as [y1 E1], (bmap01F (bofZ 1) u v) as [y2 E2].
  destruct p as [|p0 [|p1 [|p2 [|p3 [|p4 p]]]]]; try (simpl in L; lia); cbn [order cps length Nat.sub Nat.eqb].
  all: cbn [hull cps length hullLoop Nat.ltb Nat.leb dcLevel app]; unfold idx; cbn [nth_error bind]; rewrite !newBezier_ok by (simpl; lia); cbn [bind];
    rewrite E0, E1, E2; cbn [bind]; do 2 eexists; reflexivity.
Qed.
Lemma F2_nth {A B} (P : A -> B -> Prop) l l' i d d' : Forall2 P l l' -> (i < length l)%nat -> P (nth i l d) (nth i l' d').
Proof. intros H. revert i. induction H; intros [|i] L; simpl in *; try lia; auto. apply IHForall2. lia. Qed.
Lemma hull_len {T} `{NumOps T} (b : bezier T) t : (length (cps b) = 3 -> length (hull b t) = 6)%nat /\ (length (cps b) = 4 -> length (hull b t) = 10)%nat.
Proof.
  destruct b as [p u v]; cbn [cps]. split; intros L; destruct p as [|p0 [|p1 [|p2 [|p3 [|p4 p]]]]]; try (simpl in L; lia); reflexivity.
Qed.
Theorem split_near_sized (b : bezier b64) (t : b64) (M : R) : (length (cps b) = 3 \/ length (cps b) = 4)%nat -> fin t -> 0 <= val t <= 1 ->
  Forall (sized M) (cps b) -> 16 * M <= top ->
  exists l r h, split1 b t = Ok (l, r, h) /\ order l = order b /\ order r = order b /\
    bstart l = bstart b /\ bend r = bend b /\ bend l = bstart r /\
    Forall (sized (M + (21 * ulp1 * M + 15 * tiny))) (cps l) /\ Forall (sized (M + (21 * ulp1 * M + 15 * tiny))) (cps r) /\
    forall s, 0 <= s <= 1 -> let e := 21 * ulp1 * M + 15 * tiny in
      (let p := curve (map vpt (cps l)) s in let q := curve (map vpt (cps b)) (val t * s) in
       Rabs (fst p - fst q) <= e /\ Rabs (snd p - snd q) <= e) /\
      (let p := curve (map vpt (cps r)) s in let q := curve (map vpt (cps b)) (val t + (1 - val t) * s) in
       Rabs (fst p - fst q) <= e /\ Rabs (snd p - snd q) <= e).
Proof.
  intros L Ft T A MT. destruct (split_okF b t L) as (l & r & E). exists l, r, (hull b t). split; [exact E|].
  destruct (split_picks b t l r _ E L) as [_ P]. specialize (P (bofZ 0, bofZ 0)). cbv zeta in P. destruct P as [Pl Pr].
  set (b' := mkBez (map vpt (cps b)) 0 1).
  assert (L' : (length (cps b') = 3 \/ length (cps b') = 4)%nat) by (unfold b'; cbn [cps]; now rewrite map_length).
  destruct (split1_ok b' (val t) L') as (l' & r' & E' & _ & _ & Cl & Cr & _).
  destruct (split_picks b' _ l' r' _ E' L') as [_ P']. specialize (P' (0, 0)). cbv zeta in P'. destruct P' as [Pl' Pr'].
  assert (Ob : order b' = order b) by (unfold b', order; cbn [cps]; now rewrite map_length).
  rewrite Ob in Pl', Pr'.
  assert (M0 : 0 <= M).
  { destruct (cps b) as [|x p]; [simpl in L; lia|]. inversion A as [|? ? (_ & _ & B & _)]. pose proof (Rabs_pos (val (fst x))). lra. }
  set (n := (length (cps b) - 1)%nat).
  assert (Nn : INR n <= 3) by (replace 3 with (INR 3) by (simpl; ring); apply le_INR; unfold n; lia).
  assert (NB : INR n <= 2 ^ 40) by (apply Rle_trans with 3; [exact Nn|]; apply Rle_trans with (2 ^ 2); [lra | apply Rle_pow; [lra | lia]]).
  destruct (err_bounds M n M0 MT NB) as [LB Er].
  assert (Er2 : err M n <= 21 * ulp1 * M + 15 * tiny).
  { eapply Rle_trans; [exact Er|]. pose proof ulp1_pos as Pu. pose proof tiny_pos as Pt.
    assert (INR n * (ulp1 * M) <= 3 * (ulp1 * M)) by (apply Rmult_le_compat_r; [apply Rmult_le_pos; lra | lra]).
    assert (INR n * tiny <= 3 * tiny) by (apply Rmult_le_compat_r; lra). lra. }
  assert (H : Forall2 (tracks M (err M n)) (hull b t) (hull b' (val t))).
  { unfold hull, b'. cbn [cps]. rewrite map_length. pose proof (start_tracks M (cps b) A) as S0.
    apply (hull_near t Ft T M n M0 LB _ 0); [exact S0 | lia | unfold n; lia|].
    eapply Forall2_imp; [|exact S0]. intros u v Huv. eapply tracks_le; [exact Huv|]. apply err_mono; [exact M0 | lia]. }
  assert (HO : Forall2 (off (21 * ulp1 * M + 15 * tiny)) (hull b t) (hull b' (val t))).
  { eapply Forall2_imp; [|exact H]. intros u v [(F1 & F2 & E1 & E2) _]. repeat split; auto; lra. }
  assert (HS : Forall (sized (M + (21 * ulp1 * M + 15 * tiny))) (hull b t)).
  { assert (K : Forall2 (fun u _ => sized (M + (21 * ulp1 * M + 15 * tiny)) u) (hull b t) (hull b' (val t))).
    { eapply Forall2_imp; [|exact H]. intros u v [(F1 & F2 & E1 & E2) [X Y]]. apply Rabs_le_inv in E1, E2, X, Y.
      split; [exact F1|]. split; [exact F2|]. split; apply Rabs_le; lra. }
    clear - K. induction K; constructor; auto. }
  destruct (hull_len b t) as [H3 H4].
  assert (KS : forall i, (i < length (hull b t))%nat -> sized (M + (21 * ulp1 * M + 15 * tiny)) (nth i (hull b t) (bofZ 0, bofZ 0)))
    by (intros i Hi; rewrite Forall_forall in HS; apply HS, nth_In, Hi).
  assert (K : forall i, (i < length (hull b t))%nat -> off (21 * ulp1 * M + 15 * tiny) (nth i (hull b t) (bofZ 0, bofZ 0)) (nth i (hull b' (val t)) (0, 0)))
    by (intros i Hi; apply F2_nth; auto).
  assert (Ends : Forall2 (off (21 * ulp1 * M + 15 * tiny)) (cps l) (cps l') /\ Forall2 (off (21 * ulp1 * M + 15 * tiny)) (cps r) (cps r') /\
     order l = order b /\ order r = order b /\ bstart l = bstart b /\ bend r = bend b /\ bend l = bstart r /\
     Forall (sized (M + (21 * ulp1 * M + 15 * tiny))) (cps l) /\ Forall (sized (M + (21 * ulp1 * M + 15 * tiny))) (cps r)).
  { destruct b as [p u v]. unfold order in *. cbn [cps] in *.
    destruct L as [L|L]; rewrite L in *; cbn [Nat.sub Nat.eqb] in *; [specialize (H3 eq_refl); rewrite H3 in K, KS | specialize (H4 eq_refl); rewrite H4 in K, KS];
      unfold bstart, bend; rewrite Pl, Pr, Pl', Pr'; cbn [length Nat.sub cps].
    all: split; [repeat (apply Forall2_cons; [apply K; lia|]); constructor|]; split; [repeat (apply Forall2_cons; [apply K; lia|]); constructor|].
    all: split; [reflexivity|]; split; [reflexivity|].
    all: destruct p as [|p0 [|p1 [|p2 [|p3 [|p4 p]]]]]; try (simpl in L; lia); split; [reflexivity|]; (split; [reflexivity|]; split; [reflexivity|]; split; repeat (apply Forall_cons; [apply KS; lia|]); apply Forall_nil). }
  destruct Ends as (Fl & Fr & Ol & Or & B1 & B2 & B3 & Z1 & Z2). repeat (split; [assumption|]).
  assert (Nl : cps l <> []) by (rewrite Pl; destruct (Nat.eqb _ _); discriminate). assert (Nr : cps r <> []) by (rewrite Pr; destruct (Nat.eqb _ _); discriminate).
  intros s Hs e. cbv zeta. change (cps b') with (map vpt (cps b)) in Cl, Cr. split.
  - rewrite <- (Cl s). apply curve_off; auto.
  - rewrite <- (Cr s). apply curve_off; auto.
Qed.

Theorem split_near (b : bezier b64) (t : b64) (M : R) : (length (cps b) = 3 \/ length (cps b) = 4)%nat -> fin t -> 0 <= val t <= 1 ->
  Forall (sized M) (cps b) -> 16 * M <= top ->
  exists l r h, split1 b t = Ok (l, r, h) /\ order l = order b /\ order r = order b /\
    bstart l = bstart b /\ bend r = bend b /\ bend l = bstart r /\
    forall s, 0 <= s <= 1 -> let e := 21 * ulp1 * M + 15 * tiny in
      (let p := curve (map vpt (cps l)) s in let q := curve (map vpt (cps b)) (val t * s) in
       Rabs (fst p - fst q) <= e /\ Rabs (snd p - snd q) <= e) /\
      (let p := curve (map vpt (cps r)) s in let q := curve (map vpt (cps b)) (val t + (1 - val t) * s) in
       Rabs (fst p - fst q) <= e /\ Rabs (snd p - snd q) <= e).
Proof.
  intros L Ft T A MT. destruct (split_near_sized b t M L Ft T A MT) as (l & r & h & E & X1 & X2 & X3 & X4 & X5 & _ & _ & H).
  exists l, r, h. repeat (split; [assumption|]). exact H.
Qed.

(** ** Halving *)
Definition dyp (e : nat) (N : Z) (p : point b64) : Prop :=
  exists zx zy, dy e (fst p) zx /\ dy e (snd p) zy /\ (Z.abs zx <= N)%Z /\ (Z.abs zy <= N)%Z.
Lemma half_step (t a b : b64) e za zb N : dy 1 t 1 -> dy e a za -> dy e b zb -> (Z.abs za <= N)%Z -> (Z.abs zb <= N)%Z -> (4 * N < 2 ^ 53)%Z -> (e < 900)%nat ->
  let x := nadd a (nmul t (nsub b a)) in dy (S e) x (za + zb) /\ val x = val a + / 2 * (val b - val a).
Proof.
  intros Ht Ha Hb La Lb L E x.
  pose proof (dy_sub e b a zb za Hb Ha ltac:(lia) ltac:(lia)) as D.
  pose proof (dy_mul 1 e t _ 1 (zb - za) Ht D ltac:(lia) ltac:(lia)) as P. rewrite Z.mul_1_l in P. cbn [Nat.add] in P.
  pose proof (dy_add (S e) a _ (2 * za) (zb - za) (dy_up _ _ _ Ha) P ltac:(lia) ltac:(lia)) as S.
  replace (2 * za + (zb - za))%Z with (za + zb)%Z in S by ring. split; [exact S|].
  destruct S as [_ V]. fold x in V. rewrite V. destruct Ha as [_ ->], Hb as [_ ->]. rewrite plus_IZR. cbn [pow]. field. apply pow_nonzero; lra.
Qed.
Lemma level_half t e N : dy 1 t 1 -> (4 * N < 2 ^ 53)%Z -> (e < 900)%nat -> forall ps, Forall (dyp e N) ps ->
  Forall (dyp (S e) (2 * N)) (dcLevel (lerp t) ps) /\ map vpt (dcLevel (lerp t) ps) = dcLevel (lerp (/ 2)) (map vpt ps).
Proof.
  intros Ht L E ps H. induction H as [|p ps Hp H IH]; [split; [constructor|reflexivity]|].
  cbn [dcLevel map]. destruct H as [|p' ps Hp' H]; [split; [constructor|reflexivity]|]. destruct IH as [IH1 IH2].
  cbn [map]. destruct p as [a b], p' as [a' b'].
  destruct Hp as (zx & zy & X & Y & Lx & Ly), Hp' as (zx' & zy' & X' & Y' & Lx' & Ly'). cbn [fst snd] in *.
  destruct (half_step t _ _ e _ _ N Ht X X' Lx Lx' L E) as [X1 X2]. destruct (half_step t _ _ e _ _ N Ht Y Y' Ly Ly' L E) as [Y1 Y2]. split.
  - constructor; [|exact IH1]. exists (zx + zx')%Z, (zy + zy')%Z. unfold lerp; cbn [fst snd]. repeat split; try apply X1; try apply Y1; lia.
  - cbn [map] in IH2. rewrite IH2. f_equal. unfold vpt, lerp; cbn [fst snd]. f_equal; assumption.
Qed.
Lemma hull_half t : dy 1 t 1 -> forall fuel e N ps a, Forall (dyp e N) ps -> (0 <= N)%Z -> (e + length ps < 900)%nat -> (2 * (2 ^ Z.of_nat (length ps) * N) < 2 ^ 53)%Z ->
  map vpt (hullLoop fuel t ps a) = hullLoop fuel (/ 2) (map vpt ps) (map vpt a).
Proof.
  intros Ht. induction fuel as [|f IH]; intros e N ps a H N0 E L; [reflexivity|]. cbn [hullLoop]. rewrite map_length.
  destruct (Nat.ltb_spec 1 (length ps)) as [Q|Q]; [|reflexivity].
  assert (W : (2 ^ Z.of_nat (length ps) = 2 * 2 ^ Z.of_nat (length ps - 1))%Z).
  { replace (Z.of_nat (length ps)) with (Z.succ (Z.of_nat (length ps - 1))) by lia. rewrite Z.pow_succ_r; lia. }
  assert (W2 : (2 <= 2 ^ Z.of_nat (length ps - 1))%Z).
  { replace (Z.of_nat (length ps - 1)) with (Z.succ (Z.of_nat (length ps - 2))) by lia. rewrite Z.pow_succ_r by lia.
    pose proof (Z.pow_pos_nonneg 2 (Z.of_nat (length ps - 2))). lia. }
  destruct (level_half t e N Ht) with (ps := ps) as [A B]; auto; [nia | lia|].
  rewrite (IH (S e) (2 * N)%Z).
  - rewrite map_app, B. reflexivity.
  - exact A.
  - lia.
  - rewrite dcLevel_length. lia.
  - rewrite dcLevel_length. rewrite W in L. lia.
Qed.
(** Halving a curve with integer coordinates is exact. *)
Theorem split_half (b : bezier b64) (t : b64) : (length (cps b) = 3 \/ length (cps b) = 4)%nat -> fin t -> val t = / 2 ->
  Forall (fun p => exists zx zy, int_pt p (zx, zy) /\ (Z.abs zx <= 2 ^ 47)%Z /\ (Z.abs zy <= 2 ^ 47)%Z) (cps b) ->
  exists l r h, split1 b t = Ok (l, r, h) /\ order l = order b /\ order r = order b /\
    (forall s, curve (map vpt (cps l)) s = curve (map vpt (cps b)) (s / 2)) /\
    (forall s, curve (map vpt (cps r)) s = curve (map vpt (cps b)) (/ 2 + s / 2)).
Proof.
  intros L Ft Vt A. destruct (split_okF b t L) as (l & r & E). exists l, r, (hull b t). split; [exact E|].
  destruct (split_picks b t l r _ E L) as [_ P]. specialize (P (bofZ 0, bofZ 0)). cbv zeta in P. destruct P as [Pl Pr].
  set (b' := mkBez (map vpt (cps b)) 0 1).
  assert (L' : (length (cps b') = 3 \/ length (cps b') = 4)%nat) by (unfold b'; cbn [cps]; now rewrite map_length).
  destruct (split1_ok b' (/ 2) L') as (l' & r' & E' & _ & _ & Cl & Cr & _).
  destruct (split_picks b' _ l' r' _ E' L') as [_ P']. specialize (P' (0, 0)). cbv zeta in P'. destruct P' as [Pl' Pr'].
  assert (Ob : order b' = order b) by (unfold b', order; cbn [cps]; now rewrite map_length).
  rewrite Ob in Pl', Pr'.
  assert (Ht : dy 1 t 1) by (split; [exact Ft|]; rewrite Vt; cbn [pow]; field).
  assert (H : map vpt (hull b t) = hull b' (/ 2)).
  { unfold hull, b'. cbn [cps]. rewrite map_length. apply (hull_half t Ht _ 0 (2 ^ 47)).
    - eapply Forall_impl; [|exact A]. intros p (zx & zy & [X Y] & Lx & Ly). exists zx, zy. rewrite <- !dy_int. auto.
    - lia.
    - lia.
    - destruct L as [-> | ->]; reflexivity. }
  destruct (hull_len b t) as [H3 H4].
  assert (K : forall i, (i < length (hull b t))%nat -> vpt (nth i (hull b t) (bofZ 0, bofZ 0)) = nth i (hull b' (/ 2)) (0, 0)).
  { intros i Hi. rewrite <- H. symmetry. apply vpt_nth. exact Hi. }
  assert (Q : map vpt (cps l) = cps l' /\ map vpt (cps r) = cps r' /\ order l = order b /\ order r = order b).
  { destruct b as [p u v]. unfold order in *. cbn [cps] in *.
    destruct L as [L|L]; rewrite L in *; cbn [Nat.sub Nat.eqb] in *; [specialize (H3 eq_refl); rewrite H3 in K | specialize (H4 eq_refl); rewrite H4 in K];
      rewrite Pl, Pr, Pl', Pr'; cbn [map length Nat.sub]; rewrite !K by lia; auto. }
  destruct Q as (Ql & Qr & Ol & Or). split; [exact Ol|]. split; [exact Or|]. change (cps b') with (map vpt (cps b)) in Cl, Cr.
  split; intros s; [rewrite Ql, Cl | rewrite Qr, Cr]; f_equal; field.
Qed.

(** ** Tables *)
Lemma mapM_spec {A B} (f : A -> res B) (P : A -> B -> Prop) l : (forall a, In a l -> exists b, f a = Ok b /\ P a b) ->
  exists l', mapM f l = Ok l' /\ Forall2 P l l'.
Proof.
  induction l as [|a l IH]; intros H; [exists []; split; [reflexivity|constructor]|].
  destruct (H a (or_introl eq_refl)) as (b & E & Pb). destruct IH as (l' & E' & F); [intros; apply H; right; auto|].
  exists (b :: l'). split; [cbn [mapM]; rewrite E; cbn [bind]; rewrite E'; reflexivity | constructor; auto].
Qed.
Lemma fl_mono x y : x <= y -> fl x <= fl y.
Proof. intros L. apply round_le; [apply fexp_correct; reflexivity | apply valid_rnd_round_mode | exact L]. Qed.
Theorem lut_near (b : bezier b64) (M : R) (steps : Z) : (1 <= order b <= 3)%nat -> Forall (sized M) (cps b) -> 16 * M <= top ->
  (2 <= steps <= 2 ^ 53)%Z ->
  exists l, getLUT b steps = Ok l /\ length l = Z.to_nat steps /\ forall i, (i < Z.to_nat steps)%nat ->
    exists p s, nth_error l i = Some p /\ 0 <= s <= 1 /\ Rabs (s - INR i / (IZR steps - 1)) <= 2 * ulp1 /\
      off (10 * ulp1 * M + 32 * tiny) p (curve (map vpt (cps b)) s) /\
      (i = 0%nat -> s = 0 /\ bstart b = Ok p) /\ (i = (Z.to_nat steps - 1)%nat -> s = 1 /\ bend b = Ok p).
Proof.
  intros O A MT St. unfold getLUT. destruct (Z.eqb_spec steps 0) as [|_]; [lia|].
  pose proof ulp1_pos as Pu. pose proof tiny_pos as Pt. pose proof tiny_small as Sm. pose proof top_big as Tb. pose proof ulp1_small as Su.
  set (n := Z.to_nat steps).
  assert (IS : is_int (nofZ (steps - 1)) (steps - 1)) by (apply int_lit; lia). destruct IS as [Fs Vs].
  destruct (val_int 0 ltac:(lia)) as [F0 V0]. destruct (val_int 1 ltac:(lia)) as [F1 V1].
  assert (S1 : 1 <= IZR (steps - 1)) by (apply (IZR_le 1); lia).
  assert (NE : cps b <> []) by (unfold order in O; destruct (cps b); [simpl in O; lia | discriminate]).
  destruct (mapM_spec (fun t => let* x := ndiv (nofZ (Z.of_nat t)) (nofZ (steps - 1)) in get b x)
    (fun i p => exists s, 0 <= s <= 1 /\ Rabs (s - INR i / (IZR steps - 1)) <= 2 * ulp1 /\
      off (10 * ulp1 * M + 32 * tiny) p (curve (map vpt (cps b)) s) /\ (i = 0%nat -> s = 0 /\ bstart b = Ok p) /\ (i = (n - 1)%nat -> s = 1 /\ bend b = Ok p))
    (seq 0 n)) as (l & E & F).
  { intros i Hi. apply in_seq in Hi. unfold ndiv. change (nofZ 0) with (bofZ 0). rewrite (neqb_val _ (bofZ 0)) by (auto; rewrite Vs, V0; lra). cbn [bind].
    assert (II : is_int (nofZ (Z.of_nat i)) (Z.of_nat i)) by (apply int_lit; unfold n in Hi; lia). destruct II as [Fi Vi].
    set (x := INR i / (IZR steps - 1)).
    assert (X : val (nofZ (Z.of_nat i)) / val (nofZ (steps - 1)) = x) by (rewrite Vi, Vs, minus_IZR, <- INR_IZR_INZ; reflexivity).
    rewrite minus_IZR in S1.
    assert (Xi : INR i <= IZR steps - 1) by (rewrite INR_IZR_INZ, <- minus_IZR; apply IZR_le; unfold n in Hi; lia).
    assert (X01 : 0 <= x <= 1).
    { unfold x. split; [apply Rmult_le_pos; [apply pos_INR | left; apply Rinv_0_lt_compat; lra]|].
      apply Rmult_le_reg_r with (IZR steps - 1); [lra|]. unfold Rdiv. rewrite Rmult_assoc, Rinv_l by lra. lra. }
    assert (E0 : fl 0 = 0) by (apply round_0; apply valid_rnd_round_mode). assert (E1 : fl 1 = 1) by (rewrite <- V1; apply fl_val).
    assert (T01 : 0 <= fl x <= 1) by (split; [rewrite <- E0 | rewrite <- E1]; apply fl_mono; lra).
    destruct (div_fl (nofZ (Z.of_nat i)) (nofZ (steps - 1)) Fi) as [Fq Vq]; [rewrite Vs, minus_IZR; lra | rewrite X, Rabs_pos_eq; lra|].
    rewrite X in Vq. set (q := nquot _ _) in *.
    assert (D : Rabs (fl x - x) <= 2 * ulp1).
    { pose proof (fl_err x) as Er. rewrite (Rabs_pos_eq x) in Er by lra. assert (ulp1 * x <= ulp1 * 1) by (apply Rmult_le_compat_l; lra). lra. }
    destruct (get_near b q M Fq ltac:(rewrite Vq; exact T01) A NE MT) as [G _]. destruct (G ltac:(lia)) as (p & Ep & Op).
    exists p. split; [exact Ep|]. exists (fl x). rewrite Vq in Op. split; [exact T01|]. split; [exact D|]. split; [exact Op|]. split.
    - intros ->. assert (Ex : x = 0) by (unfold x, Rdiv; change (INR 0) with 0; ring). rewrite Ex, E0. split; [reflexivity|].
      assert (Eq : neqb q (nofZ 0) = true).
      { change (nofZ 0) with (bofZ 0). apply val_neqb; auto. rewrite Vq, V0, Ex. exact E0. }
      unfold get in Ep. rewrite Eq in Ep. exact Ep.
    - intros ->. assert (Ex : x = 1).
      { unfold x. replace (INR (n - 1)) with (IZR steps - 1); [field; lra|]. rewrite INR_IZR_INZ, <- minus_IZR. f_equal. unfold n. lia. }
      rewrite Ex, E1. split; [reflexivity|].
      assert (Eq : neqb q (nofZ 1) = true).
      { change (nofZ 1) with (bofZ 1). apply val_neqb; auto. rewrite Vq, V1, Ex. exact E1. }
      assert (Eq0 : neqb q (nofZ 0) = false) by (apply neqb_val; auto; rewrite Vq, Ex, E1; change (nofZ 0) with (bofZ 0); rewrite V0; lra).
      unfold get in Ep. rewrite Eq0, Eq in Ep. unfold bend, idx_last. unfold idx, order in Ep. rewrite last_error_nth. exact Ep. }
  exists l. split; [exact E|]. pose proof (Forall2_len _ _ _ F) as Len. rewrite seq_length in Len. split; [symmetry; exact Len|].
  intros i Hi. destruct (nth_error l i) as [p|] eqn:Ei; [|apply nth_error_None in Ei; lia].
  assert (K := F2_nth _ _ _ i 0%nat p F ltac:(rewrite seq_length; exact Hi)). rewrite seq_nth in K by exact Hi. cbn [Nat.add] in K.
  rewrite (nth_error_nth l i p Ei) in K. destruct K as (s & K). exists p, s. split; [reflexivity | exact K].
Qed.

(** ** The statements of the property file *)
Lemma top_2_1020 M : M <= 2 ^ 1020 -> 16 * M <= top.
Proof.
  intros L. rewrite two_pow in L. unfold top. replace (bpow radix2 emax) with (16 * bpow radix2 (Z.of_nat 1020)); [lra|].
  change 16 with (bpow radix2 4). rewrite <- bpow_plus. reflexivity.
Qed.
Lemma half_val : fin (nquot (bofZ 1) (bofZ 2)) /\ val (nquot (bofZ 1) (bofZ 2)) = / 2.
Proof.
  assert (Ht : fin (nquot (bofZ 1) (bofZ 2)) /\ B2SF (nquot (bofZ 1) (bofZ 2)) = SpecFloat.S754_finite false 4503599627370496 (-53)) by (split; vm_compute; reflexivity).
  destruct Ht as [F E]. split; [exact F|]. unfold val. rewrite <- SF2R_B2SF, E. cbn [SF2R cond_Zopp]. unfold F2R; cbn [Fnum Fexp].
  change (bpow radix2 (-53)) with (/ IZR (2 ^ 53)). field_simplify; lra.
Qed.
Theorem get_accuracy (b : bezier b64) (t : b64) (M : R) : (1 <= order b <= 3)%nat -> Forall (sized M) (cps b) -> M <= 2 ^ 1020 ->
  fin t -> 0 <= val t <= 1 -> exists p, get b t = Ok p /\ off (10 * ulp1 * M + 32 * tiny) p (curve (map vpt (cps b)) (val t)).
Proof.
  intros O A L Ft T. destruct (get_near b t M Ft T A) as [G _]; [|apply top_2_1020; exact L | apply G; lia].
  unfold order in O. destruct (cps b); [simpl in O; lia | discriminate].
Qed.
Theorem get_accuracy_high (b : bezier b64) (t : b64) (M : R) : (4 <= order b)%nat -> INR (order b) <= 2 ^ 40 -> Forall (sized M) (cps b) -> M <= 2 ^ 1020 ->
  fin t -> 0 <= val t <= 1 -> exists p, get b t = Ok p /\ off (7 * INR (order b) * ulp1 * M + 5 * INR (order b) * tiny) p (curve (map vpt (cps b)) (val t)).
Proof.
  intros O N A L Ft T. destruct (get_near b t M Ft T A) as [_ G]; [|apply top_2_1020; exact L | apply G; [lia | exact N]].
  unfold order in O. destruct (cps b); [simpl in O; lia | discriminate].
Qed.
Theorem affine_accuracy (a b c d m n p q s x y : b64) :
  Forall fin [a; b; c; d; m; n; p; q; s; x; y] -> val p = 0 -> val q = 0 -> val s = 1 ->
  let Sx := Rabs (val x) * Rabs (val a) + Rabs (val y) * Rabs (val c) + Rabs (val m) in
  let Sy := Rabs (val x) * Rabs (val b) + Rabs (val y) * Rabs (val d) + Rabs (val n) in
  Sx <= 2 ^ 1020 -> Sy <= 2 ^ 1020 ->
  exists r, applyToPoint [[a; b; p]; [c; d; q]; [m; n; s]] (x, y) = Ok r /\ fin (fst r) /\ fin (snd r) /\
    Rabs (val (fst r) - (val x * val a + val y * val c + val m)) <= 4 * ulp1 * Sx + 8 * tiny /\
    Rabs (val (snd r) - (val x * val b + val y * val d + val n)) <= 4 * ulp1 * Sy + 8 * tiny.
Proof.
  intros F Vp Vq Vs Sx Sy Lx Ly. apply top_2_1020 in Lx, Ly.
  assert (0 <= Sx /\ 0 <= Sy).
  { pose proof (Rabs_pos (val m)). pose proof (Rabs_pos (val n)). unfold Sx, Sy.
    pose proof (Rmult_le_pos _ _ (Rabs_pos (val x)) (Rabs_pos (val a))). pose proof (Rmult_le_pos _ _ (Rabs_pos (val x)) (Rabs_pos (val b))).
    pose proof (Rmult_le_pos _ _ (Rabs_pos (val y)) (Rabs_pos (val c))). pose proof (Rmult_le_pos _ _ (Rabs_pos (val y)) (Rabs_pos (val d))). lra. }
  apply (apply_near a b c d m n p q s x y F Vp Vq Vs); fold Sx Sy; lra.
Qed.
Theorem product_ints (m1 m2 : list (list b64)) (a b p c d q m n s a' b' p' c' d' q' m' n' s' A B : Z) :
  let z1 := [[a; b; p]; [c; d; q]; [m; n; s]] in let z2 := [[a'; b'; p']; [c'; d'; q']; [m'; n'; s']] in
  int_matrix m1 z1 -> int_matrix m2 z2 -> Forall (Forall (fun z => Z.abs z <= A)%Z) z1 -> Forall (Forall (fun z => Z.abs z <= B)%Z) z2 -> (3 * (A * B) < 2 ^ 53)%Z ->
  exists r, multiplyMatrixByMatrix m1 m2 = Ok r /\ int_matrix r
    [[a * a' + b * c' + p * m'; a * b' + b * d' + p * n'; a * p' + b * q' + p * s'];
     [c * a' + d * c' + q * m'; c * b' + d * d' + q * n'; c * p' + d * q' + q * s'];
     [m * a' + n * c' + s * m'; m * b' + n * d' + s * n'; m * p' + n * q' + s * s']]%Z.
Proof. intros z1 z2 H1 H2 S1 S2 L. exact (product_int m1 m2 z1 z2 _ A B H1 H2 S1 S2 L (zprod _ _ _ _ _ _ _ _ _ _ _ _ _ _ _ _ _ _)). Qed.
Theorem split_accuracy (b : bezier b64) (t : b64) (M : R) : (length (cps b) = 3 \/ length (cps b) = 4)%nat -> fin t -> 0 <= val t <= 1 ->
  Forall (sized M) (cps b) -> M <= 2 ^ 1020 ->
  exists l r h, split1 b t = Ok (l, r, h) /\ order l = order b /\ order r = order b /\
    bstart l = bstart b /\ bend r = bend b /\ bend l = bstart r /\
    forall s, 0 <= s <= 1 -> let e := 21 * ulp1 * M + 15 * tiny in
      (let p := curve (map vpt (cps l)) s in let q := curve (map vpt (cps b)) (val t * s) in
       Rabs (fst p - fst q) <= e /\ Rabs (snd p - snd q) <= e) /\
      (let p := curve (map vpt (cps r)) s in let q := curve (map vpt (cps b)) (val t + (1 - val t) * s) in
       Rabs (fst p - fst q) <= e /\ Rabs (snd p - snd q) <= e).
Proof. intros L Ft T A B. exact (split_near b t M L Ft T A (top_2_1020 M B)). Qed.
Theorem table_accuracy (b : bezier b64) (M : R) (steps : Z) : (1 <= order b <= 3)%nat -> Forall (sized M) (cps b) -> M <= 2 ^ 1020 ->
  (2 <= steps <= 2 ^ 53)%Z ->
  exists l, getLUT b steps = Ok l /\ length l = Z.to_nat steps /\ forall i, (i < Z.to_nat steps)%nat ->
    exists p s, nth_error l i = Some p /\ 0 <= s <= 1 /\ Rabs (s - INR i / (IZR steps - 1)) <= 2 * ulp1 /\
      off (10 * ulp1 * M + 32 * tiny) p (curve (map vpt (cps b)) s) /\
      (i = 0%nat -> s = 0 /\ bstart b = Ok p) /\ (i = (Z.to_nat steps - 1)%nat -> s = 1 /\ bend b = Ok p).
Proof. intros O A L S. exact (lut_near b M steps O A (top_2_1020 M L) S). Qed.
Lemma sized_int (N a b : Z) : (Z.abs a <= N)%Z -> (Z.abs b <= N)%Z -> (N < 2 ^ 53)%Z -> sized (IZR N) (bofZ a, bofZ b).
Proof.
  intros A B L. destruct (val_int a ltac:(lia)) as [Fa Va]. destruct (val_int b ltac:(lia)) as [Fb Vb]. unfold sized; cbn [fst snd].
  rewrite Va, Vb, <- !abs_IZR. repeat split; auto; apply IZR_le; lia.
Qed.
