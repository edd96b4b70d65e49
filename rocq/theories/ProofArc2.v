(** Proofs: polynomials close to the square root. *)
From Coq Require Import List ZArith Bool Reals Lra Lia Psatz.
From Verif Require Import SpecArc.
Import ListNotations.
Local Open Scope R_scope.

(** ** Integer polynomials *)
Fixpoint zadd (a b : list Z) : list Z :=
  match a, b with [], _ => b | _, [] => a | x :: a, y :: b => (x + y)%Z :: zadd a b end.
Fixpoint zmul (a b : list Z) : list Z :=
  match a with [] => [] | x :: a => zadd (map (Z.mul x) b) (0%Z :: zmul a b) end.
Definition zev (l : list Z) (x : R) : R := poly (map IZR l) x.
Lemma zev_cons a l x : zev (a :: l) x = IZR a + x * zev l x. Proof. reflexivity. Qed.
Lemma zev_add a : forall b x, zev (zadd a b) x = zev a x + zev b x.
Proof.
  induction a as [|u a IH]; intros b x; [cbn [zadd]; unfold zev at 2; cbn; ring|]. destruct b as [|v b]; [cbn [zadd]; unfold zev at 3; cbn; ring|].
  cbn [zadd]. rewrite !zev_cons, IH, plus_IZR. ring.
Qed.
Lemma zev_scale c l x : zev (map (Z.mul c) l) x = IZR c * zev l x.
Proof. induction l as [|a l IH]; cbn [map]; [unfold zev; cbn; ring|]. rewrite !zev_cons, IH, mult_IZR. ring. Qed.
Lemma zev_mul a b x : zev (zmul a b) x = zev a x * zev b x.
Proof. induction a as [|u a IH]; cbn [zmul]; [unfold zev; cbn; ring|]. rewrite zev_add, zev_scale, !zev_cons, IH. ring. Qed.
Lemma zev_app a b x : zev (a ++ b) x = zev a x + x ^ length a * zev b x.
Proof. induction a as [|u a IH]; cbn [app length pow]; [unfold zev at 2; cbn; ring|]. rewrite !zev_cons, IH. ring. Qed.
Lemma zev_zeros n x : zev (repeat 0%Z n) x = 0.
Proof. induction n as [|n IH]; [reflexivity|]. cbn [repeat]. rewrite zev_cons, IH. ring. Qed.
Lemma zev_pos l x : forallb (Z.leb 0) l = true -> 0 <= x -> 0 <= zev l x.
Proof.
  induction l as [|a l IH]; intros F X; [unfold zev; cbn; lra|]. cbn [forallb] in F. apply andb_true_iff in F as (A & F). apply Z.leb_le, IZR_le in A.
  rewrite zev_cons. specialize (IH F X). nra.
Qed.
Lemma zev_abs l x : forallb (Z.leb 0) l = true -> Rabs x <= 1 -> Rabs (zev l x) <= zev l 1.
Proof.
  induction l as [|a l IH]; intros F X; [unfold zev; cbn; rewrite Rabs_R0; lra|]. cbn [forallb] in F. apply andb_true_iff in F as (A & F). apply Z.leb_le, IZR_le in A.
  rewrite !zev_cons, Rmult_1_l. specialize (IH F X). eapply Rle_trans; [apply Rabs_triang|]. rewrite Rabs_pos_eq, Rabs_mult by exact A.
  pose proof (Rabs_pos x). pose proof (Rabs_pos (zev l x)). nra.
Qed.
Fixpoint zpoly (l : list Z) (x : Z) : Z := match l with [] => 0%Z | a :: r => (a + x * zpoly r x)%Z end.
Lemma zev_int l x : zev l (IZR x) = IZR (zpoly l x).
Proof. induction l as [|a l IH]; [reflexivity|]. cbn [zpoly]. rewrite zev_cons, IH, plus_IZR, mult_IZR. reflexivity. Qed.

(** ** The square root of [1 - y]: 4^K times the first K terms of its series. *)
Fixpoint cofs (n : nat) (k u : Z) : list Z := match n with O => [] | S n => u :: cofs n (k + 1) (u * (2 * k - 1) / (2 * k + 2)) end.
Definition tail_of (K : nat) : list Z := cofs K 1 (4 ^ Z.of_nat K / 2).
Definition root_poly (K : nat) : list Z := (4 ^ Z.of_nat K)%Z :: map Z.opp (tail_of K).
Definition rest (K : nat) : list Z := skipn (S K) (zmul (root_poly K) (root_poly K)).
Definition root_ok (K : nat) : bool :=
  let N := (4 ^ Z.of_nat K)%Z in
  forallb (Z.leb 0) (rest K) && forallb (Z.leb 0) (tail_of K) && (0 <? zpoly (root_poly K) 1)%Z &&
  (if list_eq_dec Z.eq_dec (zmul (root_poly K) (root_poly K)) (((N * N) :: (- (N * N)) :: repeat 0 (K - 1)) ++ rest K)%Z then true else false).
Lemma ok11 : root_ok 11 = true. Proof. vm_compute. reflexivity. Qed.
Lemma ok23 : root_ok 23 = true. Proof. vm_compute. reflexivity. Qed.
Lemma zev_opp l x : zev (map Z.opp l) x = - zev l x.
Proof. induction l as [|a l IH]; cbn [map]; [unfold zev; cbn; ring|]. rewrite !zev_cons, IH, opp_IZR. ring. Qed.
Theorem root_near K y : (1 <= K)%nat -> root_ok K = true -> Rabs y <= 1 ->
  let N := IZR (4 ^ Z.of_nat K) in
  Rabs (sqrt (1 - y) - zev (root_poly K) y / N) <= zev (root_poly K) 1 / N * Rabs y ^ (S K).
Proof.
  intros HK O Y N. unfold root_ok in O. apply andb_true_iff in O as (O & E). apply andb_true_iff in O as (O & P). apply andb_true_iff in O as (R0 & T0).
  destruct (list_eq_dec _ _ _) as [Q|] in E; [clear E | discriminate]. apply Z.ltb_lt, IZR_lt in P. rewrite <- zev_int in P.
  assert (PN : 0 < N) by (apply IZR_lt; apply Z.pow_pos_nonneg; lia).
  assert (S : forall x, zev (root_poly K) x * zev (root_poly K) x = N * N * (1 - x) + x ^ S K * zev (rest K) x).
  { intros x. rewrite <- zev_mul, Q, zev_app, !zev_cons, zev_zeros. cbn [length]. rewrite repeat_length. replace (S (S (K - 1))) with (S K) by lia.
    rewrite opp_IZR, mult_IZR. fold N. ring. }
  set (t1 := zev (root_poly K) 1) in *. set (ty := zev (root_poly K) y) in *.
  assert (L : t1 <= ty).
  { unfold t1, ty, root_poly. rewrite !zev_cons, !zev_opp. pose proof (zev_abs (tail_of K) y T0 Y) as A. pose proof (zev_abs (tail_of K) 1 T0 ltac:(rewrite Rabs_R1; lra)) as A1.
    pose proof (Rle_abs (zev (tail_of K) y)). pose proof (Rle_abs (y * zev (tail_of K) y)). rewrite Rabs_mult in *. pose proof (Rabs_pos y). pose proof (Rabs_pos (zev (tail_of K) y)). nra. }
  assert (S1 : t1 * t1 = zev (rest K) 1) by (unfold t1; rewrite S, pow1; ring).
  pose proof (zev_abs (rest K) y R0 Y) as RA. pose proof (S y) as Sy. fold ty in Sy.
  assert (Y1 : 0 <= 1 - y) by (apply Rabs_le_inv in Y || idtac; pose proof (Rle_abs y); lra).
  set (s := sqrt (1 - y)). assert (Ps : 0 <= s) by apply sqrt_pos. assert (Es : s * s = 1 - y) by (apply sqrt_sqrt; exact Y1). clearbody s.
  assert (D : (N * s - ty) * (N * s + ty) = - (y ^ Datatypes.S K * zev (rest K) y)) by nra.
  assert (A : Rabs (N * s - ty) * (N * s + ty) <= Rabs y ^ Datatypes.S K * (t1 * t1)).
  { assert (0 <= N * s + ty) by nra. rewrite <- (Rabs_pos_eq (N * s + ty)) by assumption. rewrite <- Rabs_mult, D, Rabs_Ropp, Rabs_mult, <- RPow_abs.
    apply Rmult_le_compat_l; [apply pow_le, Rabs_pos | lra]. }
  assert (B : Rabs (N * s - ty) * t1 <= Rabs y ^ Datatypes.S K * t1 * t1).
  { apply Rle_trans with (Rabs (N * s - ty) * (N * s + ty)); [apply Rmult_le_compat_l; [apply Rabs_pos | nra] | lra]. }
  apply Rmult_le_reg_r in B; [|exact P].
  replace (s - ty / N) with ((N * s - ty) * / N) by (field; lra). rewrite Rabs_mult, (Rabs_pos_eq (/ N)) by (left; now apply Rinv_0_lt_compat).
  replace (t1 / N * Rabs y ^ Datatypes.S K) with (Rabs y ^ Datatypes.S K * t1 * / N) by (field; lra). apply Rmult_le_compat_r; [left; now apply Rinv_0_lt_compat | exact B].
Qed.

(** ** Real polynomials *)
Fixpoint padd (a b : list R) : list R := match a, b with [], _ => b | _, [] => a | x :: a, y :: b => (x + y) :: padd a b end.
Fixpoint pmul (a b : list R) : list R := match a with [] => [] | x :: a => padd (map (Rmult x) b) (0 :: pmul a b) end.
(** [c] at the polynomial [y]. *)
Fixpoint pcomp (c y : list R) : list R := match c with [] => [] | [a] => [a] | a :: r => padd [a] (pmul y (pcomp r y)) end.
Lemma poly_add a : forall b x, poly (padd a b) x = poly a x + poly b x.
Proof. induction a as [|u a IH]; intros [|v b] x; cbn [padd poly]; try ring. rewrite IH. ring. Qed.
Lemma poly_scale c l x : poly (map (Rmult c) l) x = c * poly l x.
Proof. induction l as [|a l IH]; cbn [map poly]; [ring|]. rewrite IH. ring. Qed.
Lemma poly_mul a b x : poly (pmul a b) x = poly a x * poly b x.
Proof. induction a as [|u a IH]; cbn [pmul poly]; [ring|]. rewrite poly_add, poly_scale. cbn [poly]. rewrite IH. ring. Qed.
Lemma poly_comp c y x : poly (pcomp c y) x = poly c (poly y x).
Proof.
  induction c as [|a [|b c] IH]; [reflexivity | cbn [pcomp poly]; ring|]. change (pcomp (a :: b :: c) y) with (padd [a] (pmul y (pcomp (b :: c) y))).
  rewrite poly_add, poly_mul, IH. cbn [poly]. ring.
Qed.
Lemma len_add a : forall b, length (padd a b) = Nat.max (length a) (length b).
Proof. induction a as [|u a IH]; intros [|v b]; cbn [padd length]; try reflexivity. rewrite IH. reflexivity. Qed.
Lemma len_mul a b : (1 <= length b)%nat -> (length (pmul a b) <= length a + length b - 1)%nat.
Proof. intros B. induction a as [|u a IH]; cbn [pmul length]; [lia|]. rewrite len_add, map_length. cbn [length]. destruct a; cbn [pmul length] in *; lia. Qed.
Lemma len_comp d c y : length y = S d -> c <> [] -> (1 <= length (pcomp c y) <= (length c - 1) * d + 1)%nat.
Proof.
  intros Y. induction c as [|a [|b c] IH]; intros N; [congruence | cbn; lia|]. specialize (IH ltac:(discriminate)).
  change (pcomp (a :: b :: c) y) with (padd [a] (pmul y (pcomp (b :: c) y))). rewrite len_add. cbn [length] in *.
  pose proof (len_mul y (pcomp (b :: c) y) ltac:(lia)) as M. rewrite Y in M. split; [lia|]. replace (S (S (length c)) - 1)%nat with (S (length c)) by lia. cbn [Nat.mul] in *.
  replace (S (length c) - 1)%nat with (length c) in IH by lia. lia.
Qed.
Lemma sum_pos l : 0 <= coef_sum l.
Proof. induction l as [|a l IH]; cbn [coef_sum]; [lra|]. pose proof (Rabs_pos a). lra. Qed.
Lemma sum_add a : forall b, coef_sum (padd a b) <= coef_sum a + coef_sum b.
Proof. induction a as [|u a IH]; intros [|v b]; cbn [padd coef_sum]; try lra. pose proof (Rabs_triang u v). specialize (IH b). lra. Qed.
Lemma sum_scale c l : coef_sum (map (Rmult c) l) = Rabs c * coef_sum l.
Proof. induction l as [|a l IH]; cbn [map coef_sum]; [ring|]. rewrite IH, Rabs_mult. ring. Qed.
Lemma sum_mul a b : coef_sum (pmul a b) <= coef_sum a * coef_sum b.
Proof.
  induction a as [|u a IH]; cbn [pmul coef_sum]; [lra|]. eapply Rle_trans; [apply sum_add|]. rewrite sum_scale. cbn [coef_sum]. rewrite Rabs_R0. lra.
Qed.
Lemma sum_comp c y Y : coef_sum y <= Y -> coef_sum (pcomp c y) <= poly (map Rabs c) Y.
Proof.
  intros H. pose proof (sum_pos y). induction c as [|a [|b c] IH]; [cbn; lra | cbn; lra|].
  change (pcomp (a :: b :: c) y) with (padd [a] (pmul y (pcomp (b :: c) y))). cbn [map poly] in *. eapply Rle_trans; [apply sum_add|]. cbn [coef_sum]. 
  pose proof (sum_mul y (pcomp (b :: c) y)). pose proof (sum_pos (pcomp (b :: c) y)). nra.
Qed.
