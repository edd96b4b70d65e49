(** Proofs for C155: the bounds of lookup tables. *)
From Coq Require Import List ZArith Bool Reals Lra Lia.
From Verif Require Import Py Inst SpecGeom SpecOrder SpecBounds SpecBezier SpecCurve SpecPolyline SpecFrame SpecLattice SpecExtent MBounds MBezier
  ProofBounds ProofLattice ProofFrame ProofBezier ProofBBox ProofCurve ProofPolyline ProofInter ProofBox.
Import ListNotations.
Local Open Scope R_scope.
#[local] Existing Instance RPy.

Lemma cell : forall n z, 0 <= z <= INR (S n) -> exists i lam, (i <= n)%nat /\ 0 <= lam <= 1 /\ z = INR i + lam.
Proof.
  induction n as [|n IH]; intros z Z; [exists 0%nat, z; cbn [INR] in *; split; [lia|split; lra]|].
  destruct (Rle_dec z (INR (S n))) as [L|L]; [destruct (IH z ltac:(lra)) as (i & lam & H & H'); exists i, lam; split; [lia|exact H']|].
  exists (S n), (z - INR (S n)). rewrite (S_INR (S n)) in Z. split; [lia|split; lra].
Qed.
Lemma Rabs_def2b x e : Rabs x <= e -> - e <= x <= e.
Proof. unfold Rabs. destruct (Rcase_abs x); lra. Qed.
Lemma mix lo hi u v lam : lo <= u <= hi -> lo <= v <= hi -> 0 <= lam <= 1 -> lo <= (1 - lam) * u + lam * v <= hi.
Proof. intros. split; nra. Qed.
Lemma coords_near p q e : vdist p q <= e -> Rabs (fst p - fst q) <= e /\ Rabs (snd p - snd q) <= e.
Proof.
  intros H. unfold vdist, dist2 in H. split; (eapply Rle_trans; [|exact H]); rewrite <- sqrt_Rsqr_abs; apply sqrt_le_1_alt; unfold Rsqr; pose proof (pow2_ge_0 (fst p - fst q)); pose proof (pow2_ge_0 (snd p - snd q)); lra.
Qed.
Section Table.
  Variables (b : bezier R) (s : Z) (l : list pt).
  Hypotheses (L : (2 <= length (cps b) <= 4)%nat) (Hs : (2 <= s)%Z) (Hl : getLUT b s = Ok l).
  Let Hb : (1 <= length (cps b))%nat. Proof. lia. Qed.
  Lemma table_on q : In q l -> exists t, 0 <= t <= 1 /\ q = curve (cps b) t.
  Proof. intros I. rewrite (table_is b s l Hb Hs Hl) in I. apply in_map_iff in I as (i & <- & I). apply in_seq in I. eexists. split; [|reflexivity]. eapply in_unit; eassumption || lia. Qed.
  Lemma table_length : length l = S (Z.to_nat (s - 1)).
  Proof. rewrite (table_is b s l Hb Hs Hl). now rewrite map_length, seq_length. Qed.
  Theorem table_box D : small (cps b) -> bent D (cps b) -> 0 <= D ->
    let m := INR (length (cps b) - 1) in let e := m * (m - 1) / 8 * D / (IZR (s - 1)) ^ 2 in let k := BoundsRectangle l in
    exists r, boundsRectangle b = Ok r /\ encloses r k = true /\ left k - e <= left r /\ right r <= right k + e /\ bottom k - e <= bottom r /\ top r <= top k + e.
  Proof.
    intros S B D0 m e k. destruct (box_of b L) as (r & E & F & H). exists r. split; [exact E|]. pose proof table_length as Len. assert (Nl : l <> []) by (intros ->; discriminate).
    split.
    - destruct F as (V1 & V2 & V3 & V4 & V5 & V6). assert (K : forall q, In q l -> left r <= fst q <= right r /\ bottom r <= snd q <= top r).
      { intros q Hq. destruct (table_on q Hq) as (t & T & ->). apply enclosesPoint_R. apply (H t _ T). apply get_ok. exact Hb. }
      destruct (valid_R l Nl) as [W1 W2]. unfold k.
      assert (Z1 : left r <= left (BoundsRectangle l)) by (apply BR_exact_R; split; [assumption|]; intros p Hp; apply (K p Hp)).
      assert (Z2 : right (BoundsRectangle l) <= right r) by (apply BR_exact_R; split; [assumption|]; intros p Hp; apply (K p Hp)).
      assert (Z3 : bottom r <= bottom (BoundsRectangle l)) by (apply BR_exact_R; split; [assumption|]; intros p Hp; apply (K p Hp)).
      assert (Z4 : MBounds.top (BoundsRectangle l) <= MBounds.top r) by (apply BR_exact_R; split; [assumption|]; intros p Hp; apply (K p Hp)).
      apply encloses_R. lra.
    - assert (P : 0 < IZR (s - 1)) by (apply IZR_lt; lia).
      assert (K : forall t c, 0 <= t <= 1 -> get b t = Ok c -> left k - e <= fst c <= right k + e /\ bottom k - e <= snd c <= MBounds.top k + e).
      { intros t c T G. rewrite get_ok in G by exact Hb. apply Ok_inv in G. subst c. destruct (cell (Z.to_nat (s - 1) - 1) (t * IZR (s - 1))) as (i & lam & Hi & Hlam & X).
        { replace (Datatypes.S (Z.to_nat (s - 1) - 1)) with (Z.to_nat (s - 1)) by lia. rewrite INR_IZR_INZ, Z2Nat.id by lia. nra. }
        assert (t = (INR i + lam) / IZR (s - 1)) as -> by (rewrite <- X; field; lra). assert (Li : (Datatypes.S i < length l)%nat) by lia.
        pose proof (coords_near _ _ _ (table_sag b s l Hb Hs Hl D i lam B D0 Li Hlam)) as [N1 N2]. fold m in N1, N2. fold e in N1, N2. apply Rabs_def2b in N1, N2.
        pose proof (BR_in_R l (nth i l (0, 0)) (nth_In l (0, 0) (Nat.lt_trans _ _ _ (Nat.lt_succ_diag_r i) Li))) as I1. pose proof (BR_in_R l (nth (Datatypes.S i) l (0, 0)) (nth_In l (0, 0) Li)) as I2. fold k in I1, I2. unfold part_way in N1, N2. cbn [fst snd] in N1, N2.
        pose proof (mix _ _ _ _ lam (proj1 I1) (proj1 I2) Hlam). pose proof (mix _ _ _ _ lam (proj2 I1) (proj2 I2) Hlam). split; lra. }
      destruct (rect_tight round15 b L S) as (r2 & E2 & (t1 & c1 & T1 & G1 & X1) & (t2 & c2 & T2 & G2 & X2) & (t3 & c3 & T3 & G3 & X3) & (t4 & c4 & T4 & G4 & X4)).
      assert (r2 = r) as -> by (pose proof (eq_trans (eq_sym E2) E) as X; injection X; auto).
      pose proof (K t1 c1 T1 G1). pose proof (K t2 c2 T2 G2). pose proof (K t3 c3 T3 G3). pose proof (K t4 c4 T4 G4). lra.
  Qed.
End Table.
(** With every step divided the bounds can only grow. *)
Theorem table_box_finer (b : bezier R) (s k : Z) l l' : (2 <= length (cps b) <= 4)%nat -> (2 <= s)%Z -> (1 <= k)%Z -> getLUT b s = Ok l -> getLUT b (k * (s - 1) + 1) = Ok l' -> encloses (BoundsRectangle l') (BoundsRectangle l) = true.
Proof.
  intros L Hs Hk E E'. assert (Hb : (1 <= length (cps b))%nat) by lia. assert (Hs' : (2 <= k * (s - 1) + 1)%Z) by nia.
  apply encloses_when; [intros ->; pose proof (table_length b s [] L Hs E) as X; discriminate X|]. intros q Hq. apply (BR_encloses _ R_order); [apply Rgood|].
  rewrite (table_is b s l Hb Hs E) in Hq. rewrite (table_is b _ l' Hb Hs' E'). apply in_map_iff in Hq as (i & <- & I). apply in_seq in I. apply in_map_iff. exists (Z.to_nat k * i)%nat. split.
  - f_equal. replace (Z.to_nat (k * (s - 1) + 1 - 1)) with (Z.to_nat k * Z.to_nat (s - 1))%nat by (rewrite <- Z2Nat.inj_mul by lia; f_equal; lia). rewrite !mult_INR. field. split; apply not_0_INR; lia.
  - apply in_seq. replace (Z.to_nat (k * (s - 1) + 1 - 1)) with (Z.to_nat k * Z.to_nat (s - 1))%nat by (rewrite <- Z2Nat.inj_mul by lia; f_equal; lia). nia.
Qed.
