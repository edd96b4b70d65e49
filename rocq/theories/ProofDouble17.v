(** Derivatives, tangents, normals and offset points in double precision. *)
From Coq Require Import List ZArith Bool Reals Lra Lia Psatz.
From Flocq Require Import Core BinarySingleNaN Relative.
From Verif Require Import Py Inst InstFloat SpecGeom SpecBezier SpecCurve SpecDouble SpecDouble3 MTransform MBezUtil MBezier
  ProofBezier ProofBezier2 ProofScale ProofReduce ProofClosest ProofDouble ProofDouble2 ProofDouble3 ProofDouble4 ProofDouble5 ProofDouble9 ProofDouble10 ProofDouble11 ProofDouble16.
Import ListNotations.
Local Open Scope R_scope.
#[local] Existing Instance InstFloat.prec_gt_0.
#[local] Existing Instance InstFloat.prec_lt_emax.

(** ** The differences of the control points *)
Lemma top_of (x B : R) : Rabs x <= B -> B <= 2 ^ 1010 -> Rabs (fl x) < ProofDouble.top.
Proof.
  intros H L. apply fl_size in H. pose proof tiny_60 as Tn. apply Rle_lt_trans with (1 := H). unfold ProofDouble.top. rewrite two_pow in L.
  assert (bpow radix2 (Z.of_nat 1010) * 16 <= bpow radix2 emax) by (change 16 with (bpow radix2 4); rewrite <- bpow_plus; apply bpow_le; unfold emax; lia).
  assert (1 <= bpow radix2 (Z.of_nat 1010)) by (change 1 with (bpow radix2 0); apply bpow_le; lia). lra.
Qed.
Lemma pow_1010 (M : R) : M <= 2 ^ 1000 -> 100 * M <= 2 ^ 1010.
Proof. intros L. replace (2 ^ 1010) with (2 ^ 1000 * 2 ^ 10) by (rewrite <- pow_add; reflexivity). assert (0 < 2 ^ 1000) by (apply pow_lt; lra). cbn [pow] in *. lra. Qed.
Lemma diff_double (c : nat) (a b : b64) (M : R) : (1 <= c <= 3)%nat -> fin a -> fin b -> Rabs (val a) <= M -> Rabs (val b) <= M -> M <= 2 ^ 1000 ->
  let x := nmul (nofZ (Z.of_nat c)) (nsub b a) in
  fin x /\ Rabs (val x - INR c * (val b - val a)) <= (4 + / 100) * INR c * ulp1 * M + 5 * tiny /\ Rabs (val x) <= (2 + / 100) * INR c * M + 5 * tiny.
Proof.
  intros C Fa Fb Ba Bb L x. pose proof (pow_1010 M L) as L'. pose proof ulp1_pos as Up. pose proof ulp1_small as Us. pose proof tiny_pos as Tp. pose proof tiny_60 as T6. pose proof (Rabs_pos (val a)) as P0.
  assert (B : Rabs (val b - val a) <= 2 * M) by (unfold Rminus; eapply Rle_trans; [apply Rabs_triang|]; rewrite Rabs_Ropp; lra).
  destruct (minus_fl b a Fb Fa) as [F V]; [eapply top_of; [exact B | lra]|].
  pose proof (fl_bound _ _ B) as E. rewrite <- V in E.
  destruct (val_int (Z.of_nat c)) as [Fc Vc]; [lia|]. rewrite <- INR_IZR_INZ in Vc. change (nofZ (Z.of_nat c) : b64) with (bofZ (Z.of_nat c)) in x.
  assert (Hc : 1 <= INR c <= 3) by (split; [change 1 with (INR 1) | replace 3 with (INR 3) by (simpl; lra)]; apply le_INR; lia).
  assert (Bx : Rabs (INR c * val (nsub b a)) <= INR c * (2 * M + (ulp1 * (2 * M) + tiny))).
  { rewrite Rabs_mult, (Rabs_pos_eq (INR c)) by lra. apply Rmult_le_compat_l; [lra|]. replace (val (nsub b a)) with ((val b - val a) + (val (nsub b a) - (val b - val a))) by ring. eapply Rle_trans; [apply Rabs_triang|]. lra. }
  assert (Mu : ulp1 * M <= / 1000000 * M) by (apply Rmult_le_compat_r; lra). assert (Mp : 0 <= ulp1 * M) by (apply Rmult_le_pos; lra).
  destruct (mult_fl (bofZ (Z.of_nat c)) (nsub b a) Fc F) as [Fx Vx]; [rewrite Vc; eapply top_of; [exact Bx|]; assert (2 ^ 10 <= 2 ^ 1010) by (apply Rle_pow; [lra | lia]); cbn [pow] in *; nra|].
  fold x in Fx, Vx. rewrite Vc in Vx. pose proof (fl_bound _ _ Bx) as Ex. split; [exact Fx|].
  set (y := val (nsub b a)) in *. set (c' := INR c) in *. clearbody c' y.
  assert (Er : Rabs (val x - c' * (val b - val a)) <= (4 + / 100) * c' * ulp1 * M + 5 * tiny).
  { replace (val x - c' * (val b - val a)) with ((val x - c' * y) + c' * (y - (val b - val a))) by ring. eapply Rle_trans; [apply Rabs_triang|]. rewrite Vx, (Rabs_mult c'), (Rabs_pos_eq c') by lra.
    assert (c' * Rabs (y - (val b - val a)) <= c' * (ulp1 * (2 * M) + tiny)) by (apply Rmult_le_compat_l; lra).
    assert (U1 : ulp1 * (c' * (2 * M + (ulp1 * (2 * M) + tiny))) <= c' * (2 * (ulp1 * M) + / 1000000 * (2 * (ulp1 * M)) + / 1000000 * tiny)).
    { replace (ulp1 * (c' * (2 * M + (ulp1 * (2 * M) + tiny)))) with (c' * (2 * (ulp1 * M) + ulp1 * (2 * (ulp1 * M)) + ulp1 * tiny)) by ring. apply Rmult_le_compat_l; [lra|].
      assert (ulp1 * (2 * (ulp1 * M)) <= / 1000000 * (2 * (ulp1 * M))) by (apply Rmult_le_compat_r; lra). assert (ulp1 * tiny <= / 1000000 * tiny) by (apply Rmult_le_compat_r; lra). lra. }
    assert (Pc : c' * tiny <= 3 * tiny) by (apply Rmult_le_compat_r; lra). assert (0 <= c' * (ulp1 * M)) by (apply Rmult_le_pos; lra). lra. }
  split; [exact Er|]. replace (val x) with ((val x - c' * (val b - val a)) + c' * (val b - val a)) by ring. eapply Rle_trans; [apply Rabs_triang|]. rewrite (Rabs_mult c'), (Rabs_pos_eq c') by lra.
  assert (c' * Rabs (val b - val a) <= c' * (2 * M)) by (apply Rmult_le_compat_l; lra). assert (c' * (ulp1 * M) <= c' * (/ 1000000 * M)) by (apply Rmult_le_compat_l; lra). assert (0 <= c' * M) by (apply Rmult_le_pos; lra). lra.
Qed.

(** ** _derivative *)
Definition legs (p : list pt) : list pt := dcLevel (diffStep (length p - 1)) p.
Definition err_v (M : R) : R := 73 * ulp1 * M + 50 * tiny.
Lemma plus_zero (x : b64) : fin x -> fin (nadd x (nmul (nofZ 0) (nofZ 0))) /\ val (nadd x (nmul (nofZ 0) (nofZ 0))) = val x.
Proof.
  intros F. assert (Z : val (nmul (nofZ 0 : b64) (nofZ 0)) = 0 /\ fin (nmul (nofZ 0 : b64) (nofZ 0))) by (split; reflexivity). destruct Z as [V0 F0].
  destruct (plus_fl x (nmul (nofZ 0) (nofZ 0)) F F0) as [Fx Vx]; rewrite V0, Rplus_0_r, fl_val in *; [apply val_top | auto].
Qed.
Lemma zero_plus (x : b64) : fin (nadd x (nmul (nofZ 0) (nofZ 0))) -> fin x.
Proof. destruct x as [s|s| |s m e B]; intros F; [reflexivity | exfalso; destruct s; vm_compute in F; discriminate | exfalso; vm_compute in F; discriminate | reflexivity]. Qed.
Lemma quad3_near (t : b64) (Ft : fin t) (T : 0 <= val t <= 1) (M : R) (MT : 16 * M <= ProofDouble.top) (x0 x1 x2 : b64) : fin x0 -> fin x1 -> fin x2 -> Rabs (val x0) <= M -> Rabs (val x1) <= M -> Rabs (val x2) <= M ->
  let mt := nsub (bofZ 1) t in let x := nadd (nadd (nmul (nmul mt mt) x0) (nmul (nmul (nmul mt t) (bofZ 2)) x1)) (nmul (nmul t t) x2) in
  fin x /\ Rabs (val x - ((1 - val t) * (1 - val t) * val x0 + (1 - val t) * val t * 2 * val x1 + val t * val t * val x2)) <= 10 * ulp1 * M + 32 * tiny.
Proof.
  intros F0 F1 F2 B0 B1 B2 mt x. destruct (quad_near t Ft T M MT x0 x1 x2 (bofZ 0) F0 F1 F2 B0 B1 B2 eq_refl) as [F E]. fold mt in F, E. fold x in F, E.
  assert (Fx : fin x) by (apply zero_plus; exact F). split; [exact Fx|]. destruct (plus_zero x Fx) as [_ V]. rewrite <- V. exact E.
Qed.
Lemma derivative_double {TO : TrigOps b64} (b : bezier b64) (t : b64) (M : R) : (length (cps b) = 3 \/ length (cps b) = 4)%nat -> Forall (sized M) (cps b) -> M <= 2 ^ 1000 -> fin t -> 0 <= val t <= 1 ->
  exists d, derivative b t = Ok d /\ off (err_v M) d (curve (legs (map vpt (cps b))) (val t)).
Proof.
  intros Len S L Ft T. destruct b as [p u v]. cbn [cps] in *. pose proof (pow_1010 M L) as L'. pose proof tiny_pos as Tp. pose proof ulp1_pos as Up. pose proof tiny_60 as T6. pose proof ulp1_small as Us. pose proof ulp_tiny as Ut.
  assert (Top : forall K, 0 <= K <= 7 -> 0 <= M -> 16 * (K * M + 5 * tiny) <= ProofDouble.top).
  { intros K HK P. unfold ProofDouble.top. rewrite two_pow in L'. assert (bpow radix2 (Z.of_nat 1010) * 16 <= bpow radix2 emax) by (change 16 with (bpow radix2 4); rewrite <- bpow_plus; apply bpow_le; unfold emax; lia).
    assert (1 <= bpow radix2 (Z.of_nat 1010)) by (change 1 with (bpow radix2 0); apply bpow_le; lia). assert (K * M <= 7 * M) by (apply Rmult_le_compat_r; lra). lra. }
  destruct p as [|[x0 y0] [|[x1 y1] [|[x2 y2] [|[x3 y3] [|p4 r]]]]]; try (simpl in Len; lia).
  - apply Forall_cons_iff in S as [(Fx0 & Fy0 & Bx0 & By0) S]. apply Forall_cons_iff in S as [(Fx1 & Fy1 & Bx1 & By1) S]. apply Forall_cons_iff in S as [(Fx2 & Fy2 & Bx2 & By2) _]. cbn [fst snd] in *.
    assert (P : 0 <= M) by (pose proof (Rabs_pos (val x0)); lra).
    assert (K : forall a0 a1 a2, fin a0 -> fin a1 -> fin a2 -> Rabs (val a0) <= M -> Rabs (val a1) <= M -> Rabs (val a2) <= M ->
      let x := nadd (nadd (nmul (nsub (nofZ 1) t) (nmul (nofZ (Z.of_nat 2)) (nsub a1 a0))) (nmul t (nmul (nofZ (Z.of_nat 2)) (nsub a2 a1)))) (nmul (nofZ 0) (nofZ 0)) in
      fin x /\ Rabs (val x - ((1 - val t) * (2 * (val a1 - val a0)) + val t * (2 * (val a2 - val a1)))) <= err_v M).
    { intros a0 a1 a2 F0 F1 F2 B0 B1 B2 x. destruct (diff_double 2 a0 a1 M ltac:(lia) F0 F1 B0 B1 L) as (G0 & E0 & Z0). destruct (diff_double 2 a1 a2 M ltac:(lia) F1 F2 B1 B2 L) as (G1 & E1 & Z1).
      replace (INR 2) with 2 in * by (simpl; lra).
      set (d0 := nmul (nofZ (Z.of_nat 2)) (nsub a1 a0)) in *. set (d1 := nmul (nofZ (Z.of_nat 2)) (nsub a2 a1)) in *.
      destruct (line_near t Ft T ((2 + / 100) * 2 * M + 5 * tiny) (Top ((2 + / 100) * 2) ltac:(lra) P) d0 d1 G0 G1 Z0 Z1) as [Fl El]. destruct (plus_zero _ Fl) as [Fz Vz]. split; [exact Fz|]. unfold x. change (nofZ 1 : b64) with (bofZ 1). rewrite Vz.
      assert (ulp1 * M <= / 1000000 * M) by (apply Rmult_le_compat_r; lra). assert (0 <= ulp1 * M) by (apply Rmult_le_pos; lra). assert (ulp1 * tiny <= / 1000000 * tiny) by (apply Rmult_le_compat_r; lra).
      apply Rabs_le_inv in El, E0, E1. apply Rabs_le. unfold err_v. set (s := val t) in *.
      assert (A0 : - ((4 + / 100) * 2 * ulp1 * M + 5 * tiny) <= (1 - s) * (val d0 - 2 * (val a1 - val a0)) + s * (val d1 - 2 * (val a2 - val a1)) <= (4 + / 100) * 2 * ulp1 * M + 5 * tiny) by (clear - E0 E1 T; nra).
      lra. }
    destruct (K x0 x1 x2) as [FX EX]; auto. destruct (K y0 y1 y2) as [FY EY]; auto.
    eexists. split; [reflexivity|]. unfold legs. cbn [map vpt fst snd length Nat.sub dcLevel]. rewrite curve2. unfold diffStep. cbn [fst snd]. split; [exact FX|]. split; [exact FY|]. split; [exact EX | exact EY].
  - apply Forall_cons_iff in S as [(Fx0 & Fy0 & Bx0 & By0) S]. apply Forall_cons_iff in S as [(Fx1 & Fy1 & Bx1 & By1) S]. apply Forall_cons_iff in S as [(Fx2 & Fy2 & Bx2 & By2) S]. apply Forall_cons_iff in S as [(Fx3 & Fy3 & Bx3 & By3) _]. cbn [fst snd] in *.
    assert (P : 0 <= M) by (pose proof (Rabs_pos (val x0)); lra).
    assert (K : forall a0 a1 a2 a3, fin a0 -> fin a1 -> fin a2 -> fin a3 -> Rabs (val a0) <= M -> Rabs (val a1) <= M -> Rabs (val a2) <= M -> Rabs (val a3) <= M ->
      let mt := nsub (nofZ 1) t in
      let x := nadd (nadd (nmul (nmul mt mt) (nmul (nofZ (Z.of_nat 3)) (nsub a1 a0))) (nmul (nmul (nmul mt t) (nofZ 2)) (nmul (nofZ (Z.of_nat 3)) (nsub a2 a1)))) (nmul (nmul t t) (nmul (nofZ (Z.of_nat 3)) (nsub a3 a2))) in
      fin x /\ Rabs (val x - ((1 - val t) * (1 - val t) * (3 * (val a1 - val a0)) + (1 - val t) * val t * 2 * (3 * (val a2 - val a1)) + val t * val t * (3 * (val a3 - val a2)))) <= err_v M).
    { intros a0 a1 a2 a3 F0 F1 F2 F3 B0 B1 B2 B3 mt x. destruct (diff_double 3 a0 a1 M ltac:(lia) F0 F1 B0 B1 L) as (G0 & E0 & Z0). destruct (diff_double 3 a1 a2 M ltac:(lia) F1 F2 B1 B2 L) as (G1 & E1 & Z1). destruct (diff_double 3 a2 a3 M ltac:(lia) F2 F3 B2 B3 L) as (G2 & E2 & Z2).
      replace (INR 3) with 3 in * by (simpl; lra).
      set (d0 := nmul (nofZ (Z.of_nat 3)) (nsub a1 a0)) in *. set (d1 := nmul (nofZ (Z.of_nat 3)) (nsub a2 a1)) in *. set (d2 := nmul (nofZ (Z.of_nat 3)) (nsub a3 a2)) in *.
      destruct (quad3_near t Ft T ((2 + / 100) * 3 * M + 5 * tiny) (Top ((2 + / 100) * 3) ltac:(lra) P) d0 d1 d2 G0 G1 G2 Z0 Z1 Z2) as [Fl El]. split; [exact Fl|].
      change (val x) with (val (nadd (nadd (nmul (nmul (nsub (bofZ 1) t) (nsub (bofZ 1) t)) d0) (nmul (nmul (nmul (nsub (bofZ 1) t) t) (bofZ 2)) d1)) (nmul (nmul t t) d2))).
      assert (ulp1 * M <= / 1000000 * M) by (apply Rmult_le_compat_r; lra). assert (0 <= ulp1 * M) by (apply Rmult_le_pos; lra). assert (ulp1 * tiny <= / 1000000 * tiny) by (apply Rmult_le_compat_r; lra).
      apply Rabs_le_inv in El. apply Rabs_le. unfold err_v. set (s := val t) in *.
      set (r0 := val d0 - 3 * (val a1 - val a0)) in *. set (r1 := val d1 - 3 * (val a2 - val a1)) in *. set (r2 := val d2 - 3 * (val a3 - val a2)) in *. apply Rabs_le_inv in E0, E1, E2.
      set (B := (4 + / 100) * 3 * ulp1 * M + 5 * tiny) in *.
      assert (A0 : - B <= (1 - s) * (1 - s) * r0 + (1 - s) * s * 2 * r1 + s * s * r2 <= B).
      { assert (W0 : 0 <= (1 - s) * (1 - s)) by (clear - T; nra). assert (W1 : 0 <= (1 - s) * s * 2) by (clear - T; nra). assert (W2 : 0 <= s * s) by (clear - T; nra).
        assert (W : B = (1 - s) * (1 - s) * B + (1 - s) * s * 2 * B + s * s * B) by ring.
        pose proof (Rmult_le_compat_l _ _ _ W0 (proj1 E0)). pose proof (Rmult_le_compat_l _ _ _ W0 (proj2 E0)). pose proof (Rmult_le_compat_l _ _ _ W1 (proj1 E1)). pose proof (Rmult_le_compat_l _ _ _ W1 (proj2 E1)).
        pose proof (Rmult_le_compat_l _ _ _ W2 (proj1 E2)). pose proof (Rmult_le_compat_l _ _ _ W2 (proj2 E2)). lra. }
      unfold r0, r1, r2, B in A0. lra. }
    destruct (K x0 x1 x2 x3) as [FX EX]; auto. destruct (K y0 y1 y2 y3) as [FY EY]; auto.
    eexists. split; [reflexivity|]. unfold legs. cbn [map vpt fst snd length Nat.sub dcLevel]. rewrite curve3. unfold diffStep. cbn [fst snd]. split; [exact FX|]. split; [exact FY|]. split; [eapply Rle_trans; [right | exact EX] | eapply Rle_trans; [right | exact EY]];
      (apply (f_equal Rabs), (f_equal2 Rminus); [reflexivity|]); change (@nofZ R RNum (Z.of_nat 3)) with 3; numRg; unfold vpt; cbn [fst snd]; ring.
Qed.

(** ** Dividing by the length *)
Definition len (d : pt) : R := sqrt (vdot d d).
Lemma len_vdist (d : pt) : len d = vdist d (0, 0).
Proof. unfold len, vdist, dist2, vdot. cbn [fst snd]. f_equal. ring. Qed.
Lemma len_pos (d : pt) : 0 <= len d. Proof. apply sqrt_pos. Qed.
Lemma len_sq (d : pt) : len d * len d = vdot d d.
Proof. apply sqrt_sqrt. unfold vdot. nra. Qed.
Lemma len_coord (d : pt) : Rabs (fst d) <= len d /\ Rabs (snd d) <= len d.
Proof. pose proof (len_pos d). pose proof (len_sq d) as Q. unfold vdot in Q. split; apply Rabs_le; nra. Qed.
Lemma len_near (d D : pt) (z : R) : Rabs (fst d - fst D) <= z -> Rabs (snd d - snd D) <= z -> Rabs (len d - len D) <= 2 * z.
Proof.
  intros X Y. rewrite !len_vdist. pose proof (dist_taxi d D) as T. pose proof (dist_tri d D (0, 0)) as T1. pose proof (dist_tri D d (0, 0)) as T2. rewrite (dist_sym D d) in T2. apply Rabs_le. lra.
Qed.
Lemma part_near (x X l L z : R) : 0 < L -> 0 < l -> Rabs x <= l -> Rabs (x - X) <= z -> Rabs (l - L) <= 2 * z -> Rabs (x / l - X / L) <= 3 * z / L.
Proof.
  intros HL Hl Bx Ex El. replace (x / l - X / L) with ((x - X) / L + (x / l) * ((L - l) / L)) by (field; lra).
  pose proof (Rinv_0_lt_compat _ HL) as IL. eapply Rle_trans; [apply Rabs_triang|]. rewrite Rabs_mult. unfold Rdiv at 1 3. rewrite !Rabs_mult, (Rabs_pos_eq (/ L)) by lra. rewrite (Rabs_minus_sym L l).
  assert (Q : Rabs (x / l) <= 1).
  { unfold Rdiv. rewrite Rabs_mult, (Rabs_pos_eq (/ l)) by (left; now apply Rinv_0_lt_compat). apply Rmult_le_reg_r with l; [exact Hl|]. rewrite Rmult_assoc, Rinv_l by lra. lra. }
  assert (A : Rabs (x - X) * / L <= z * / L) by (apply Rmult_le_compat_r; lra).
  assert (B : Rabs (l - L) * / L <= 2 * z * / L) by (apply Rmult_le_compat_r; lra).
  assert (C : Rabs (x / l) * (Rabs (l - L) * / L) <= 1 * (2 * z * / L)) by (apply Rmult_le_compat; [apply Rabs_pos | apply Rmult_le_pos; [apply Rabs_pos | lra] | exact Q | exact B]).
  unfold Rdiv. lra.
Qed.
Lemma quot_near (x q : b64) (l k : R) : fin x -> fin q -> 0 < l -> Rabs (val x) <= l -> 0 <= k <= / 50 -> Rabs (val q - l) <= k * l ->
  val q <> 0 /\ fin (nquot x q) /\ Rabs (val (nquot x q) - val x / l) <= 103 / 100 * k + 11 / 10 * ulp1.
Proof.
  intros Fx Fq Hl Bx Hk Eq. apply Rabs_le_inv in Eq. pose proof ulp1_pos as Up. pose proof ulp_num as Un. pose proof ulp_tiny as Ut. pose proof tiny_pos as Tp.
  assert (KL : k * l <= / 50 * l) by (apply Rmult_le_compat_r; lra). assert (Pq : 49 / 50 * l <= val q) by lra. assert (Q0 : 0 < val q) by lra. split; [lra|].
  assert (Dq : Rabs (val x / val q - val x / l) <= 1021 / 1000 * k).
  { replace (val x / val q - val x / l) with ((val x / l) * ((l - val q) / val q)) by (field; lra). rewrite Rabs_mult.
    assert (A : Rabs (val x / l) <= 1).
    { unfold Rdiv. rewrite Rabs_mult, (Rabs_pos_eq (/ l)) by (left; now apply Rinv_0_lt_compat). apply Rmult_le_reg_r with l; [exact Hl|]. rewrite Rmult_assoc, Rinv_l by lra. lra. }
    assert (B : Rabs ((l - val q) / val q) <= 1021 / 1000 * k).
    { unfold Rdiv. rewrite Rabs_mult, (Rabs_pos_eq (/ val q)) by (left; now apply Rinv_0_lt_compat). apply Rmult_le_reg_r with (val q); [exact Q0|]. rewrite Rmult_assoc, Rinv_l, Rmult_1_r by lra.
      apply Rle_trans with (k * l); [apply Rabs_le; lra|]. assert (k * (49 / 50 * l) <= k * val q) by (apply Rmult_le_compat_l; lra). assert (0 <= k * l) by (apply Rmult_le_pos; lra). lra. }
    replace (1021 / 1000 * k) with (1 * (1021 / 1000 * k)) by ring. apply Rmult_le_compat; auto using Rabs_pos. }
  assert (Bq : Rabs (val x / val q) <= 1021 / 1000).
  { unfold Rdiv. rewrite Rabs_mult, (Rabs_pos_eq (/ val q)) by (left; now apply Rinv_0_lt_compat). apply Rmult_le_reg_r with (val q); [exact Q0|]. rewrite Rmult_assoc, Rinv_l, Rmult_1_r by lra. lra. }
  destruct (div_fl x q Fx) as [F V]; [lra | apply below_top; cbn [pow]; lra|]. split; [exact F|]. rewrite V. pose proof (fl_bound _ _ Bq) as E.
  replace (fl (val x / val q) - val x / l) with ((fl (val x / val q) - val x / val q) + (val x / val q - val x / l)) by ring. eapply Rle_trans; [apply Rabs_triang|]. lra.
Qed.

(** ** sqrt(dx*dx + dy*dy) *)
Lemma small_sq : tiny <= / 1000 * ulp1 * (/ 2 ^ 400 * / 2 ^ 400).
Proof.
  rewrite tiny_bpow, ulp1_bpow, !two_pow. rewrite <- !bpow_opp, <- !bpow_plus. change (/ 1000 * bpow radix2 (-53) * bpow radix2 (- Z.of_nat 400 + - Z.of_nat 400)) with (/ 1000 * bpow radix2 (-53) * bpow radix2 (-800)).
  rewrite Rmult_assoc, <- bpow_plus. apply Rmult_le_reg_l with 1000; [lra|]. rewrite <- Rmult_assoc, Rinv_r, Rmult_1_l by lra. apply Rle_trans with (bpow radix2 10 * bpow radix2 (-1075)); [apply Rmult_le_compat_r; [apply bpow_ge_0 | cbn; lra]|].
  rewrite <- bpow_plus. apply bpow_le. lia.
Qed.
Lemma root_len {TO : TrigOps b64} (HS : forall x : b64, tsqrt x = Bsqrt mode_NE x) (d : point b64) : sized (2 ^ 500) d -> / 2 ^ 400 <= len (vpt d) ->
  exists q, bsqrt (nadd (nmul (fst d) (fst d)) (nmul (snd d) (snd d))) = Some q /\ fin q /\ Rabs (val q - len (vpt d)) <= 21 / 10 * ulp1 * len (vpt d).
Proof.
  intros (Fx & Fy & Bx & By) Ln. pose proof ulp1_pos as Up. pose proof ulp1_small as Us. pose proof tiny_pos as Tp. pose proof small_sq as Sq. pose proof (len_sq (vpt d)) as Ls. pose proof (len_pos (vpt d)) as Lp.
  set (l := len (vpt d)) in *. unfold vdot, vpt in Ls. cbn [fst snd] in Ls. set (x := val (fst d)) in *. set (y := val (snd d)) in *. set (S := x * x + y * y) in *.
  assert (P4 : 0 < / 2 ^ 400) by (apply Rinv_0_lt_compat, pow_lt; lra).
  assert (Q4 : / 2 ^ 400 <= 1) by (rewrite <- Rinv_1; apply Rinv_le; [lra | apply pow_R1_Rle; lra]). set (e4 := / 2 ^ 400) in *. clearbody e4.
  assert (Ts : tiny <= / 1000 * (ulp1 * S)).
  { eapply Rle_trans; [exact Sq|]. rewrite Rmult_assoc. apply Rmult_le_compat_l; [lra|]. apply Rmult_le_compat_l; [lra|]. rewrite <- Ls. apply Rmult_le_compat; lra. }
  assert (Big : forall z, Rabs z <= 2 ^ 500 -> Rabs (z * z) <= 2 ^ 1000).
  { intros z Z. rewrite Rabs_mult. replace (2 ^ 1000) with (2 ^ 500 * 2 ^ 500) by (rewrite <- pow_add; reflexivity). apply Rmult_le_compat; auto using Rabs_pos. }
  assert (E10 : 2 ^ 1010 = 2 ^ 1000 * 1024) by (replace (2 ^ 1010) with (2 ^ 1000 * 2 ^ 10) by (rewrite <- pow_add; reflexivity); cbn [pow]; ring). assert (P10 : 1 <= 2 ^ 1000) by (apply pow_R1_Rle; lra). set (e10 := 2 ^ 1000) in *. clearbody e10.
  destruct (mult_fl (fst d) (fst d) Fx Fx) as [F1 V1]; [eapply top_of; [apply Big; exact Bx | lra]|]. destruct (mult_fl (snd d) (snd d) Fy Fy) as [F2 V2]; [eapply top_of; [apply Big; exact By | lra]|]. fold x in V1. fold y in V2.
  pose proof (Big _ Bx) as Sx. pose proof (Big _ By) as Sy. fold x in Sx. fold y in Sy.
  assert (Px : 0 <= x * x) by nra. assert (Py : 0 <= y * y) by nra. pose proof (fl_err (x * x)) as E1. pose proof (fl_err (y * y)) as E2. rewrite (Rabs_pos_eq _ Px) in E1, Sx. rewrite (Rabs_pos_eq _ Py) in E2, Sy. rewrite <- V1 in E1. rewrite <- V2 in E2.
  assert (N1 : 0 <= val (nmul (fst d) (fst d))) by (rewrite V1, <- fl0; now apply fl_mono). assert (N2 : 0 <= val (nmul (snd d) (snd d))) by (rewrite V2, <- fl0; now apply fl_mono).
  set (a := nmul (fst d) (fst d)) in *. set (b := nmul (snd d) (snd d)) in *. apply Rabs_le_inv in E1, E2.
  assert (U1 : ulp1 * (x * x) <= / 1000000 * (x * x)) by (apply Rmult_le_compat_r; lra). assert (U2 : ulp1 * (y * y) <= / 1000000 * (y * y)) by (apply Rmult_le_compat_r; lra). pose proof tiny_60 as T6.
  assert (Bs : Rabs (val a + val b) <= (1 + / 1000000) * S + 2 * tiny) by (rewrite Rabs_pos_eq by lra; unfold S; lra).
  destruct (plus_fl a b F1 F2) as [F3 V3]; [eapply top_of; [exact Bs | unfold S; lra]|]. pose proof (fl_bound _ _ Bs) as E3. rewrite <- V3 in E3. apply Rabs_le_inv in E3.
  assert (N3 : 0 <= val (nadd a b)) by (rewrite V3, <- fl0; apply fl_mono; lra). set (s := nadd a b) in *.
  assert (SP : 0 <= S) by (unfold S; lra). assert (US : 0 <= ulp1 * S) by (apply Rmult_le_pos; lra).
  assert (UT : ulp1 * (2 * tiny) <= tiny) by nra.
  assert (Es : Rabs (val s - S) <= 201 / 100 * (ulp1 * S)).
  { apply Rabs_le. replace (ulp1 * ((1 + / 1000000) * S + 2 * tiny)) with ((1 + / 1000000) * (ulp1 * S) + ulp1 * (2 * tiny)) in E3 by ring. assert (SS : ulp1 * (x * x) + ulp1 * (y * y) = ulp1 * S) by (unfold S; ring). assert (SE : x * x + y * y = S) by reflexivity. clear - E1 E2 E3 SS SE UT Ts US. lra. }
  destruct (sqrt_val HS s F3 N3) as (Eb & Fq & Vq). exists (Bsqrt mode_NE s). split; [exact Eb|]. split; [exact Fq|]. rewrite Vq. set (r := sqrt (val s)).
  assert (Rp : 0 <= r) by apply sqrt_pos. assert (Rs : r * r = val s) by (now apply sqrt_sqrt). apply Rabs_le_inv in Es. rewrite <- Rs, <- Ls in Es.
  assert (L0 : 0 < l) by lra. assert (UL : 0 <= ulp1 * l) by (apply Rmult_le_pos; lra).
  assert (UU : ulp1 * (l * l) <= / 1000000 * (l * l)) by (apply Rmult_le_compat_r; nra).
  assert (R1 : 99 / 100 * l <= r) by (clear - Es UU L0 Rp; nra).
  assert (R2 : Rabs (r - l) <= 102 / 100 * (ulp1 * l)).
  { apply Rmult_le_reg_r with (r + l); [lra|]. rewrite <- (Rabs_pos_eq (r + l)) at 1 by lra. rewrite <- Rabs_mult. replace ((r - l) * (r + l)) with (r * r - l * l) by ring.
    apply Rle_trans with (201 / 100 * (ulp1 * (l * l))); [apply Rabs_le; lra|]. replace (201 / 100 * (ulp1 * (l * l))) with (ulp1 * l * (201 / 100 * l)) by ring.
    replace (102 / 100 * (ulp1 * l) * (r + l)) with (ulp1 * l * (102 / 100 * (r + l))) by ring. apply Rmult_le_compat_l; [exact UL|]. lra. }
  assert (R3 : Rabs r <= 101 / 100 * l). { apply Rabs_le_inv in R2. assert (ulp1 * l <= / 1000000 * l) by (apply Rmult_le_compat_r; lra). rewrite Rabs_pos_eq; lra. }
  pose proof (fl_bound _ _ R3) as E4. assert (TL : tiny <= / 100 * (ulp1 * l)).
  { eapply Rle_trans; [exact Sq|]. assert (e4 * e4 <= 1 * l) by (apply Rmult_le_compat; lra).
    replace (/ 1000 * ulp1 * (e4 * e4)) with (ulp1 * (/ 1000 * (e4 * e4))) by ring. replace (/ 100 * (ulp1 * l)) with (ulp1 * (/ 100 * l)) by ring. apply Rmult_le_compat_l; lra. }
  apply Rabs_le_inv in E4, R2. apply Rabs_le. lra.
Qed.

(** ** normal, _tangent, _normal *)
Lemma ndiv_ok (x q : b64) : fin q -> val q <> 0 -> ndiv x q = Ok (nquot x q).
Proof. intros F N. unfold ndiv. destruct (val_int 0) as [F0 V0]; [reflexivity|]. change (nofZ 0 : b64) with (bofZ 0). now rewrite (neqb_val q (bofZ 0) F F0) by (rewrite V0; exact N). Qed.
Section Direction.
  Context {TO : TrigOps b64} (d : point b64) (D : pt) (z : R) (Hd : off z d D) (HL : 4 * z <= len D) (Hl : / 2 ^ 390 <= len D).
  Lemma true_near : / 2 ^ 400 <= len (vpt d) /\ 0 < len (vpt d) /\ Rabs (len (vpt d) - len D) <= 2 * z.
  Proof.
    destruct Hd as (_ & _ & X & Y). pose proof (len_near (vpt d) D z X Y) as N. split; [|split; [|exact N]]; apply Rabs_le_inv in N.
    - assert (/ 2 ^ 400 <= / 2 ^ 390 * / 2); [|lra]. rewrite <- Rinv_mult by (try apply pow_nonzero; lra). apply Rinv_le; [apply Rmult_lt_0_compat; [apply pow_lt; lra | lra]|]. replace (2 ^ 390 * 2) with (2 ^ 391) by (rewrite <- (Rmult_comm 2); reflexivity). apply Rle_pow; [lra | lia].
    - assert (0 < / 2 ^ 390) by (apply Rinv_0_lt_compat, pow_lt; lra). lra.
  Qed.
  Lemma direction_near (q : b64) (k : R) : fin q -> 0 <= k <= / 50 -> Rabs (val q - len (vpt d)) <= k * len (vpt d) ->
    val q <> 0 /\ off (103 / 100 * k + 11 / 10 * ulp1 + 3 * z / len D) (nquot (fst d) q, nquot (snd d) q) (vscale (/ len D) D) /\
    off (103 / 100 * k + 11 / 10 * ulp1 + 3 * z / len D) (nquot (nopp (snd d)) q, nquot (fst d) q) (vscale (/ len D) (SpecCurve.turned D)).
  Proof.
    intros Fq Hk Eq. destruct true_near as (_ & P & N). destruct Hd as (Fx & Fy & X & Y). destruct (len_coord (vpt d)) as [Cx Cy]. unfold vpt in Cx, Cy. cbn [fst snd] in Cx, Cy.
    assert (PL : 0 < len D) by (assert (0 < / 2 ^ 390) by (apply Rinv_0_lt_compat, pow_lt; lra); lra).
    destruct (opp_val (snd d) Fy) as [Fo Vo].
    destruct (quot_near (fst d) q _ k Fx Fq P Cx Hk Eq) as (Nq & Gx & Ex). destruct (quot_near (snd d) q _ k Fy Fq P Cy Hk Eq) as (_ & Gy & Ey).
    destruct (quot_near (nopp (snd d)) q _ k Fo Fq P ltac:(rewrite Vo, Rabs_Ropp; exact Cy) Hk Eq) as (_ & Go & Eo). rewrite Vo in Eo.
    pose proof (part_near _ _ _ _ z PL P Cx X N) as Tx. pose proof (part_near _ _ _ _ z PL P Cy Y N) as Ty.
    assert (To : Rabs (- val (snd d) / len (vpt d) - - snd D / len D) <= 3 * z / len D) by (replace (- val (snd d) / len (vpt d) - - snd D / len D) with (- (val (snd d) / len (vpt d) - snd D / len D)) by (field; lra); now rewrite Rabs_Ropp).
    assert (J : forall u v w m n, Rabs (u - v) <= m -> Rabs (v - w) <= n -> Rabs (u - w) <= m + n) by (intros u v w m n A B; replace (u - w) with ((u - v) + (v - w)) by ring; eapply Rle_trans; [apply Rabs_triang | lra]).
    split; [exact Nq|]. unfold vscale, SpecCurve.turned. split; (split; [cbn [fst]; assumption|]); (split; [cbn [snd]; assumption|]); cbn [fst snd]; rewrite !(Rmult_comm (/ len D)); (split; eapply J; [first [exact Ex | exact Ey | exact Eo] | assumption | first [exact Ex | exact Ey | exact Eo] | assumption]).
  Qed.
End Direction.

Section Vectors.
  Context {TO : TrigOps b64} (b : bezier b64) (t : b64) (M : R) (Len : (length (cps b) = 3 \/ length (cps b) = 4)%nat) (SZ : Forall (sized M) (cps b)) (HM : M <= 2 ^ 490) (Ft : fin t) (T : 0 <= val t <= 1).
  Let C := map vpt (cps b).
  Lemma mag_pos : 0 <= M.
  Proof. destruct (cps b) as [|p ps]; [simpl in Len; lia|]. inversion SZ as [|? ? (_ & _ & X & _)]. pose proof (Rabs_pos (val (fst p))). lra. Qed.
  Lemma coords_in (p : pt) : In p C -> Rabs (fst p) <= M /\ Rabs (snd p) <= M.
  Proof. intros I. apply in_map_iff in I. destruct I as (q & <- & I). destruct (proj1 (Forall_forall _ _) SZ q I) as (_ & _ & X & Y). unfold vpt. cbn [fst snd]. auto. Qed.
  Lemma legs_in (p : pt) : In p (legs C) -> Rabs (fst p) <= 6 * M /\ Rabs (snd p) <= 6 * M.
  Proof.
    assert (K : forall c (u v : pt), 0 <= c <= 3 -> (Rabs (fst u) <= M /\ Rabs (snd u) <= M) -> (Rabs (fst v) <= M /\ Rabs (snd v) <= M) ->
      Rabs (c * (fst v - fst u)) <= 6 * M /\ Rabs (c * (snd v - snd u)) <= 6 * M).
    { intros c u v Hc [U1 U2] [V1 V2]. apply Rabs_le_inv in U1, U2, V1, V2. pose proof mag_pos. split; apply Rabs_le; nra. }
    assert (L : length C = length (cps b)) by apply map_length. pose proof coords_in as I. intros Hp. unfold legs in Hp. rewrite L in Hp.
    destruct Len as [E | E]; rewrite E in Hp, L; (destruct C as [|p0 [|p1 [|p2 [|p3 [|p4 r]]]]]; try discriminate L); cbn in Hp;
      (destruct Hp as [<- | Hp]; [|destruct Hp as [<- | Hp]; [|try (destruct Hp as [<- | Hp])]]); try contradiction; cbn; apply K; try lra; apply I; cbn; auto.
  Qed.
  Lemma curve_box : Rabs (fst (curve C (val t))) <= M /\ Rabs (snd (curve C (val t))) <= M.
  Proof.
    assert (N : C <> []) by (unfold C; destruct (cps b); [simpl in Len; lia | discriminate]).
    destruct (curve_in_box C (val t) (- M) M (- M) M N) as [X Y]; auto.
    - intros p I. apply coords_in in I. destruct I as [X Y]. apply Rabs_le_inv in X, Y. lra.
    - split; apply Rabs_le; lra.
  Qed.
  Lemma legs_box : Rabs (fst (curve (legs C) (val t))) <= 6 * M /\ Rabs (snd (curve (legs C) (val t))) <= 6 * M.
  Proof.
    assert (N : legs C <> []).
    { unfold legs, C. rewrite map_length. destruct (cps b) as [|p0 [|p1 r]]; [simpl in Len; lia | simpl in Len; lia | discriminate]. }
    destruct (curve_in_box (legs C) (val t) (- (6 * M)) (6 * M) (- (6 * M)) (6 * M) N) as [X Y]; auto.
    - intros p I. apply legs_in in I. destruct I as [X Y]. apply Rabs_le_inv in X, Y. lra.
    - split; apply Rabs_le; lra.
  Qed.
  Lemma velocity_size (d : point b64) (D : pt) : off (err_v M) d D -> Rabs (fst D) <= 6 * M -> Rabs (snd D) <= 6 * M -> sized (2 ^ 500) d.
  Proof.
    intros (F1 & F2 & X & Y) BX BY. pose proof mag_pos as M0. pose proof ulp1_small as Us. pose proof ulp1_pos as Up. pose proof tiny_60 as T6.
    assert (E5 : 2 ^ 500 = 2 ^ 490 * 1024) by (replace (2 ^ 500) with (2 ^ 490 * 2 ^ 10) by (rewrite <- pow_add; reflexivity); cbn [pow]; ring). assert (P : 1 <= 2 ^ 490) by (apply pow_R1_Rle; lra).
    rewrite E5. assert (B : err_v M <= M + 1) by (unfold err_v; assert (ulp1 * M <= / 1000000 * M) by (apply Rmult_le_compat_r; lra); lra). set (e := 2 ^ 490) in *. clearbody e.
    apply Rabs_le_inv in X, Y, BX, BY. split; [exact F1|]. split; [exact F2|]. split; apply Rabs_le; lra.
  Qed.
  Lemma le_1000 : M <= 2 ^ 1000.
  Proof. eapply Rle_trans; [exact HM|]. apply Rle_pow; [lra | lia]. Qed.
  Lemma tiny_len (l : R) : / 2 ^ 400 <= l -> tiny <= / 100 * ulp1 * l.
  Proof.
    intros H. pose proof small_sq as Sq. assert (P4 : 0 < / 2 ^ 400) by (apply Rinv_0_lt_compat, pow_lt; lra). assert (Q4 : / 2 ^ 400 <= 1) by (rewrite <- Rinv_1; apply Rinv_le; [lra | apply pow_R1_Rle; lra]).
    set (e4 := / 2 ^ 400) in *. clearbody e4. pose proof ulp1_pos as Up. assert (e4 * e4 <= 1 * l) by (apply Rmult_le_compat; lra). assert (ulp1 * (e4 * e4) <= ulp1 * (1 * l)) by (apply Rmult_le_compat_l; lra). nra.
  Qed.
  Let D := curve (legs C) (val t).
  Lemma velocity_double : exists d, derivative b t = Ok d /\ off (err_v M) d D /\ sized (2 ^ 500) d.
  Proof. destruct (derivative_double b t M Len SZ le_1000 Ft T) as (d & E & O). exists d. split; [exact E|]. split; [exact O|]. eapply velocity_size; [exact O | apply legs_box | apply legs_box]. Qed.
  Context (HL : 4 * err_v M <= len D) (Hl : / 2 ^ 390 <= len D).
  Theorem normal_double (HS : forall x : b64, tsqrt x = Bsqrt mode_NE x) : exists n, normal b t = Ok n /\ off (4 * ulp1 + 3 * err_v M / len D) n (unit_left D).
  Proof.
    destruct velocity_double as (d & E & O & S). destruct (true_near d D _ O HL Hl) as (L4 & _ & _). destruct (root_len HS d S L4) as (q & Eq & Fq & Bq). pose proof ulp_num as Un. pose proof ulp1_pos as Up.
    destruct (direction_near d D _ O HL Hl q (21 / 10 * ulp1) Fq ltac:(lra) Bq) as (N & _ & R). exists (nquot (nopp (snd d)) q, nquot (fst d) q). split.
    - unfold normal. rewrite E. cbn [bind]. destruct d as [dx dy]. cbn [fst snd] in *. rewrite Eq. rewrite !ndiv_ok by assumption. reflexivity.
    - destruct R as (R1 & R2 & R3 & R4). split; [exact R1|]. split; [exact R2|]. change (unit_left D) with (vscale (/ len D) (SpecCurve.turned D)). split; lra.
  Qed.
  Theorem tangent_double (e : R) : 0 <= e <= / 100 -> hypot_within e thypot -> exists u n, tangent b t = Ok u /\ normal_ b t = Ok n /\
    off (2 * (e + ulp1) + 3 * err_v M / len D) u (vscale (/ len D) D) /\ off (2 * (e + ulp1) + 3 * err_v M / len D) n (unit_left D).
  Proof.
    intros He HH. destruct velocity_double as (d & E & O & S). destruct (true_near d D _ O HL Hl) as (L4 & _ & _). pose proof ulp_num as Un. pose proof ulp1_pos as Up. pose proof (tiny_len _ L4) as Tl.
    destruct S as (F1 & F2 & S1 & S2). assert (Pw : 2 ^ 500 <= 2 ^ 1000) by (apply Rle_pow; [lra | lia]). destruct (HH (fst d) (snd d) F1 F2) as [Fq Bq]; [eapply Rle_trans; eassumption | eapply Rle_trans; eassumption|]. cbv zeta in Bq.
    replace (sqrt (val (fst d) ^ 2 + val (snd d) ^ 2)) with (len (vpt d)) in Bq by (unfold len, vdot, vpt; cbn [fst snd]; f_equal; ring).
    destruct (direction_near d D _ O HL Hl (thypot (fst d) (snd d)) (e + / 50 * ulp1) Fq ltac:(lra) ltac:(lra)) as (N & (A1 & A2 & A3 & A4) & (R1 & R2 & R3 & R4)).
    exists (nquot (fst d) (thypot (fst d) (snd d)), nquot (snd d) (thypot (fst d) (snd d))), (nquot (nopp (snd d)) (thypot (fst d) (snd d)), nquot (fst d) (thypot (fst d) (snd d))).
    unfold tangent, normal_. rewrite !E. cbn [bind]. rewrite !ndiv_ok by assumption. cbn [bind]. split; [reflexivity|]. split; [reflexivity|].
    split; (split; [assumption|]); (split; [assumption|]); [|change (unit_left D) with (vscale (/ len D) (SpecCurve.turned D))]; split; lra.
  Qed.
  Theorem offset_double (HS : forall x : b64, tsqrt x = Bsqrt mode_NE x) (fuel : nat) (k : b64) : fin k -> val k <> 0 -> Rabs (val k) <= 2 ^ 490 ->
    exists c n p, offset fuel b t (Some k) = Ok (OPoints c n p) /\ off (10 * ulp1 * M + 32 * tiny) c (curve C (val t)) /\ off (4 * ulp1 + 3 * err_v M / len D) n (unit_left D) /\
      off (12 * ulp1 * M + Rabs (val k) * (9 * ulp1 + 3 * err_v M / len D) + 40 * tiny) p (vadd (curve C (val t)) (vscale (val k) (unit_left D))).
  Proof.
    intros Fk Nk Bk. destruct (normal_double HS) as (n & En & On). assert (O3 : (1 <= order b <= 3)%nat) by (unfold order; lia). assert (M2 : M <= 2 ^ 1020) by (eapply Rle_trans; [exact HM|]; apply Rle_pow; [lra | lia]).
    destruct (get_accuracy b t M O3 SZ M2 Ft T) as (c & Ec & Oc). exists c, n, (nadd (fst c) (nmul (fst n) k), nadd (snd c) (nmul (snd n) k)). split.
    { unfold offset, offsetPoint. destruct (val_int 0 eq_refl) as [F0 V0]. change (nofZ 0 : b64) with (bofZ 0). rewrite (neqb_val k (bofZ 0) Fk F0) by (rewrite V0; exact Nk). rewrite Ec, En. reflexivity. }
    split; [exact Oc|]. split; [exact On|].
    assert (PL : 0 < len D) by (assert (0 < / 2 ^ 390) by (apply Rinv_0_lt_compat, pow_lt; lra); lra).
    pose proof ulp_num as Un. pose proof ulp1_pos as Up. pose proof tiny_60 as T6. pose proof tiny_pos as Tp. pose proof ulp_tiny as Ut. pose proof mag_pos as M0.
    assert (Z0 : 0 <= err_v M) by (unfold err_v; assert (0 <= ulp1 * M) by (apply Rmult_le_pos; lra); lra).
    assert (Z1 : 0 <= 3 * err_v M / len D <= 3 / 4).
    { split; [apply Rmult_le_pos; [lra | left; now apply Rinv_0_lt_compat]|]. apply Rmult_le_reg_r with (len D); [exact PL|]. unfold Rdiv at 1. rewrite Rmult_assoc, Rinv_l, Rmult_1_r by lra. lra. }
    set (w := 3 * err_v M / len D) in *. clearbody w.
    assert (UN : Rabs (fst (unit_left D)) <= 1 /\ Rabs (snd (unit_left D)) <= 1).
    { destruct (len_coord D) as [Cx Cy]. change (unit_left D) with (vscale (/ len D) (SpecCurve.turned D)). unfold vscale, SpecCurve.turned. cbn [fst snd]. rewrite !Rabs_mult, Rabs_Ropp, (Rabs_pos_eq (/ len D)) by (left; now apply Rinv_0_lt_compat).
      split; (apply Rmult_le_reg_l with (len D); [exact PL|]); rewrite <- Rmult_assoc, Rinv_r by lra; lra. }
    assert (E5 : 2 ^ 1010 = 2 ^ 490 * 2 ^ 520) by (rewrite <- pow_add; reflexivity). assert (P5 : 1024 <= 2 ^ 520) by (change 1024 with (IZR 1024); replace (IZR 1024) with (2 ^ 10) by (cbn; lra); apply Rle_pow; [lra | lia]). assert (P4 : 1 <= 2 ^ 490) by (apply pow_R1_Rle; lra).
    assert (TT : 2 ^ 490 * 1024 <= 2 ^ 1010) by (rewrite E5; apply Rmult_le_compat_l; lra). clear E5 P5.
    assert (One : forall (x n : b64) (X N : R), fin x -> fin n -> Rabs (val x - X) <= 10 * ulp1 * M + 32 * tiny -> Rabs (val n - N) <= 4 * ulp1 + w -> Rabs X <= M -> Rabs N <= 1 ->
      fin (nadd x (nmul n k)) /\ Rabs (val (nadd x (nmul n k)) - (X + val k * N)) <= 12 * ulp1 * M + Rabs (val k) * (9 * ulp1 + w) + 40 * tiny).
    { clear - Fk Bk Un Up T6 Tp Ut M0 HM Z1 P4 TT. set (B := 2 ^ 490) in *. clearbody B. intros x n X N Fx Fn Ex En BX BN. pose proof (Rabs_pos (val k)) as K0. set (K := Rabs (val k)) in *.
      assert (Bn : Rabs (val n) <= 2) by (replace (val n) with ((val n - N) + N) by ring; eapply Rle_trans; [apply Rabs_triang | lra]).
      assert (Bm : Rabs (val n * val k) <= 2 * K) by (rewrite Rabs_mult; fold K; apply Rmult_le_compat_r; assumption).
      destruct (mult_fl n k Fn Fk) as [Fm Vm]; [eapply top_of; [exact Bm | lra]|]. pose proof (fl_bound _ _ Bm) as Em. rewrite <- Vm in Em.
      assert (UM : ulp1 * M <= / 1000000 * M) by (apply Rmult_le_compat_r; lra). assert (UK : ulp1 * K <= / 1000000 * K) by (apply Rmult_le_compat_r; lra).
      assert (UM0 : 0 <= ulp1 * M) by (apply Rmult_le_pos; lra). assert (UK0 : 0 <= ulp1 * K) by (apply Rmult_le_pos; lra).
      assert (Bx : Rabs (val x) <= 101 / 100 * M + 32 * tiny) by (replace (val x) with ((val x - X) + X) by ring; eapply Rle_trans; [apply Rabs_triang | lra]).
      assert (Bs : Rabs (val x + val (nmul n k)) <= 101 / 100 * M + 201 / 100 * K + 33 * tiny).
      { eapply Rle_trans; [apply Rabs_triang|]. replace (val (nmul n k)) with ((val (nmul n k) - val n * val k) + val n * val k) by ring. pose proof (Rabs_triang (val (nmul n k) - val n * val k) (val n * val k)). lra. }
      destruct (plus_fl x (nmul n k) Fx Fm) as [Fs Vs]; [eapply top_of; [exact Bs | lra]|]. pose proof (fl_bound _ _ Bs) as Es. rewrite <- Vs in Es. split; [exact Fs|].
      assert (P : Rabs (val n * val k - val k * N) <= K * (4 * ulp1 + w)) by (replace (val n * val k - val k * N) with (val k * (val n - N)) by ring; rewrite Rabs_mult; apply Rmult_le_compat_l; assumption).
      replace (val (nadd x (nmul n k)) - (X + val k * N)) with ((val (nadd x (nmul n k)) - (val x + val (nmul n k))) + (val x - X) + (val (nmul n k) - val n * val k) + (val n * val k - val k * N)) by ring.
      eapply Rle_trans; [apply Rabs_triang|]. eapply Rle_trans; [apply Rplus_le_compat_r, Rabs_triang|]. eapply Rle_trans; [apply Rplus_le_compat_r, Rplus_le_compat_r, Rabs_triang|].
      assert (ulp1 * (101 / 100 * M + 201 / 100 * K + 33 * tiny) <= 101 / 100 * (ulp1 * M) + 201 / 100 * (ulp1 * K) + tiny) by nra. nra. }
    destruct Oc as (Fc1 & Fc2 & Ec1 & Ec2). destruct On as (Fn1 & Fn2 & En1 & En2). destruct curve_box as [X Y]. destruct UN as [U1 U2].
    destruct (One _ _ _ _ Fc1 Fn1 Ec1 En1 X U1) as [A1 A2]. destruct (One _ _ _ _ Fc2 Fn2 Ec2 En2 Y U2) as [B1 B2]. split; [exact A1|]. split; [exact B1|]. unfold vadd, vscale. cbn [fst snd]. split; assumption.
  Qed.
End Vectors.

(** ** Coinciding control points *)
Lemma zero_mul (x y : b64) : fin x -> fin y -> val x = 0 \/ val y = 0 -> fin (nmul x y) /\ val (nmul x y) = 0.
Proof.
  intros Fx Fy Z. assert (E : val x * val y = 0) by (destruct Z as [-> | ->]; ring). destruct (mult_fl x y Fx Fy) as [F V]; rewrite E, fl0 in *; [|auto]. rewrite Rabs_R0. unfold ProofDouble.top. apply bpow_gt_0.
Qed.
Lemma zero_add (x y : b64) : fin x -> fin y -> val x = 0 -> val y = 0 -> fin (nadd x y) /\ val (nadd x y) = 0.
Proof.
  intros Fx Fy Zx Zy. assert (E : val x + val y = 0) by (rewrite Zx, Zy; ring). destruct (plus_fl x y Fx Fy) as [F V]; rewrite E, fl0 in *; [|auto]. rewrite Rabs_R0. unfold ProofDouble.top. apply bpow_gt_0.
Qed.
Lemma zero_sub (x y : b64) : fin x -> fin y -> val x = val y -> fin (nsub x y) /\ val (nsub x y) = 0.
Proof.
  intros Fx Fy Z. assert (E : val x - val y = 0) by (rewrite Z; ring). destruct (minus_fl x y Fx Fy) as [F V]; rewrite E, fl0 in *; [|auto]. rewrite Rabs_R0. unfold ProofDouble.top. apply bpow_gt_0.
Qed.
Lemma normal_stalled {TO : TrigOps b64} (HS : forall x : b64, tsqrt x = Bsqrt mode_NE x) (b : bezier b64) (t : b64) (d : point b64) :
  derivative b t = Ok d -> fin (fst d) -> fin (snd d) -> val (fst d) = 0 -> val (snd d) = 0 -> normal b t = Err ZeroDivisionError.
Proof.
  intros E F1 F2 Z1 Z2. unfold normal. rewrite E. cbn [bind]. destruct d as [x y]. cbn [fst snd] in *.
  destruct (zero_mul x x F1 F1 (or_introl Z1)) as [G1 V1]. destruct (zero_mul y y F2 F2 (or_introl Z2)) as [G2 V2]. destruct (zero_add _ _ G1 G2 V1 V2) as [G V].
  destruct (sqrt_val HS _ G ltac:(lra)) as (-> & Fq & Vq). rewrite V, sqrt_0, fl0 in Vq. unfold ndiv. destruct (val_int 0 eq_refl) as [F0 V0]. change (nofZ 0 : b64) with (bofZ 0).
  now rewrite (val_neqb _ (bofZ 0) Fq F0) by (rewrite Vq, V0; reflexivity).
Qed.
Lemma normal_start {TO : TrigOps b64} (HS : forall x : b64, tsqrt x = Bsqrt mode_NE x) (b : bezier b64) (M : R) : (length (cps b) = 3 \/ length (cps b) = 4)%nat -> Forall (sized M) (cps b) -> M <= 2 ^ 1000 ->
  vpt (nth 0 (cps b) (bofZ 0, bofZ 0)) = vpt (nth 1 (cps b) (bofZ 0, bofZ 0)) -> normal b (bofZ 0) = Err ZeroDivisionError.
Proof.
  intros Len SZ L Eq. destruct (val_int 0 eq_refl) as [F0 V0]. destruct (val_int 1 eq_refl) as [F1 V1].
  assert (Fm : fin (nsub (bofZ 1) (bofZ 0)) /\ val (nsub (bofZ 1) (bofZ 0)) = 1).
  { destruct (minus_fl (bofZ 1) (bofZ 0) F1 F0) as [F V]; rewrite V1, V0 in *; replace (1 - 0) with (val (bofZ 1)) in * by (rewrite V1; ring); rewrite fl_val in *; auto. apply val_top. }
  destruct Fm as [Fm Vm].
  assert (Fmm : fin (nmul (nsub (bofZ 1) (bofZ 0)) (nsub (bofZ 1) (bofZ 0)))).
  { destruct (mult_fl (nsub (bofZ 1) (bofZ 0)) (nsub (bofZ 1) (bofZ 0)) Fm Fm) as [F _]; [|exact F]. rewrite Vm, Rmult_1_l. replace 1 with (val (bofZ 1)) by exact V1. rewrite fl_val. apply val_top. }
  destruct (zero_mul (nsub (bofZ 1) (bofZ 0)) (bofZ 0) Fm F0 (or_intror V0)) as [Fc Vc]. destruct (val_int 2 eq_refl) as [F2 V2]. destruct (zero_mul _ (bofZ 2) Fc F2 (or_introl Vc)) as [Fd Vd].
  destruct (zero_mul (bofZ 0) (bofZ 0) F0 F0 (or_introl V0)) as [Fe Ve].
  assert (DF : forall (c : nat) (a e : b64), (2 <= c <= 3)%nat -> fin a -> fin e -> Rabs (val a) <= M -> Rabs (val e) <= M -> fin (nmul (nofZ (Z.of_nat c)) (nsub e a)) /\ (val a = val e -> val (nmul (nofZ (Z.of_nat c)) (nsub e a)) = 0)).
  { intros c a e Hc Fa Fb Ba Bb. destruct (diff_double c a e M ltac:(lia) Fa Fb Ba Bb L) as (G & _). split; [exact G|]. intros Z. destruct (zero_sub e a Fb Fa (eq_sym Z)) as [Fs Vs]. destruct (val_int (Z.of_nat c)) as [Fk _]; [lia|]. now apply (zero_mul (bofZ (Z.of_nat c))); auto. }
  destruct b as [p u v]. cbn [cps] in *. destruct p as [|[x0 y0] [|[x1 y1] [|[x2 y2] [|[x3 y3] [|p4 r]]]]]; try (simpl in Len; lia); unfold vpt in Eq; cbn [nth fst snd] in Eq; apply pair_equal_spec in Eq; destruct Eq as [EX EY].
  - apply Forall_cons_iff in SZ as [(Fx0 & Fy0 & Bx0 & By0) SZ]. apply Forall_cons_iff in SZ as [(Fx1 & Fy1 & Bx1 & By1) SZ]. apply Forall_cons_iff in SZ as [(Fx2 & Fy2 & Bx2 & By2) _]. cbn [fst snd] in *.
    assert (K : forall a0 a1 a2, fin a0 -> fin a1 -> fin a2 -> Rabs (val a0) <= M -> Rabs (val a1) <= M -> Rabs (val a2) <= M -> val a0 = val a1 ->
      let x := nadd (nadd (nmul (nsub (bofZ 1) (bofZ 0)) (nmul (nofZ (Z.of_nat 2)) (nsub a1 a0))) (nmul (bofZ 0) (nmul (nofZ (Z.of_nat 2)) (nsub a2 a1)))) (nmul (bofZ 0) (bofZ 0)) in fin x /\ val x = 0).
    { intros a0 a1 a2 G0 G1 G2 B0 B1 B2 E x. destruct (DF 2%nat a0 a1) as [A1 A2]; auto. destruct (DF 2%nat a1 a2) as [A3 A4]; auto.
      destruct (zero_mul _ _ Fm A1 (or_intror (A2 E))) as [H1 H2]. destruct (zero_mul _ _ F0 A3 (or_introl V0)) as [H3 H4]. destruct (zero_add _ _ H1 H3 H2 H4) as [H5 H6]. now apply zero_add. }
    destruct (K x0 x1 x2) as [GX WX]; auto. destruct (K y0 y1 y2) as [GY WY]; auto.
    eapply normal_stalled; [exact HS | reflexivity | exact GX | exact GY | exact WX | exact WY].
  - apply Forall_cons_iff in SZ as [(Fx0 & Fy0 & Bx0 & By0) SZ]. apply Forall_cons_iff in SZ as [(Fx1 & Fy1 & Bx1 & By1) SZ]. apply Forall_cons_iff in SZ as [(Fx2 & Fy2 & Bx2 & By2) SZ]. apply Forall_cons_iff in SZ as [(Fx3 & Fy3 & Bx3 & By3) _]. cbn [fst snd] in *.
    assert (K : forall a0 a1 a2 a3, fin a0 -> fin a1 -> fin a2 -> fin a3 -> Rabs (val a0) <= M -> Rabs (val a1) <= M -> Rabs (val a2) <= M -> Rabs (val a3) <= M -> val a0 = val a1 ->
      let mt := nsub (bofZ 1) (bofZ 0) in
      let x := nadd (nadd (nmul (nmul mt mt) (nmul (nofZ (Z.of_nat 3)) (nsub a1 a0))) (nmul (nmul (nmul mt (bofZ 0)) (bofZ 2)) (nmul (nofZ (Z.of_nat 3)) (nsub a2 a1)))) (nmul (nmul (bofZ 0) (bofZ 0)) (nmul (nofZ (Z.of_nat 3)) (nsub a3 a2))) in
      fin x /\ val x = 0).
    { intros a0 a1 a2 a3 G0 G1 G2 G3 B0 B1 B2 B3 E mt x. destruct (DF 3%nat a0 a1) as [A1 A2]; auto. destruct (DF 3%nat a1 a2) as [A3 A4]; auto. destruct (DF 3%nat a2 a3) as [A5 A6]; auto.
      destruct (zero_mul _ _ Fmm A1 (or_intror (A2 E))) as [H1 H2]. destruct (zero_mul _ _ Fd A3 (or_introl Vd)) as [H3 H4]. destruct (zero_add _ _ H1 H3 H2 H4) as [H5 H6]. destruct (zero_mul _ _ Fe A5 (or_introl Ve)) as [H7 H8]. now apply zero_add. }
    destruct (K x0 x1 x2 x3) as [GX WX]; auto. destruct (K y0 y1 y2 y3) as [GY WY]; auto.
    eapply normal_stalled; [exact HS | reflexivity | exact GX | exact GY | exact WX | exact WY].
Qed.

(** ** In terms of the derivative and the left normal *)
Section Statements.
  Context {TO : TrigOps b64} (b : bezier b64) (t : b64) (M : R) (Len : (length (cps b) = 3 \/ length (cps b) = 4)%nat) (SZ : Forall (sized M) (cps b)) (Ft : fin t) (T : 0 <= val t <= 1).
  Lemma velocity_is (D : pt) : is_deriv (curve (map vpt (cps b))) (val t) D -> D = curve (legs (map vpt (cps b))) (val t).
  Proof. intros H. eapply is_deriv_unique; [exact H|]. apply curve_deriv. rewrite map_length. lia. Qed.
  Theorem derivative_doubles (D : pt) : M <= 2 ^ 1000 -> is_deriv (curve (map vpt (cps b))) (val t) D -> exists d, derivative b t = Ok d /\ off (73 * ulp1 * M + 50 * tiny) d D.
  Proof. intros HM H. rewrite (velocity_is D H). exact (derivative_double b t M Len SZ HM Ft T). Qed.
  Lemma left_is (D N : pt) : left_normal D N -> N = unit_left D.
  Proof.
    intros H. eapply left_normal_unique; [exact H|]. apply unit_left_normal. intros ->. destruct H as (_ & _ & C). unfold vcross in C. cbn [fst snd] in C. lra.
  Qed.
  Theorem normal_doubles (D N : pt) : (forall x : b64, tsqrt x = Bsqrt mode_NE x) -> M <= 2 ^ 490 -> is_deriv (curve (map vpt (cps b))) (val t) D -> left_normal D N ->
    let z := 73 * ulp1 * M + 50 * tiny in let l := vdist D (0, 0) in 4 * z <= l -> / 2 ^ 390 <= l -> exists n, normal b t = Ok n /\ off (4 * ulp1 + 3 * z / l) n N.
  Proof. intros HS HM H HN z l. unfold l. rewrite <- len_vdist, (left_is D N HN), (velocity_is D H). intros A B. exact (normal_double b t M Len SZ HM Ft T A B HS). Qed.
  Theorem tangent_doubles (e : R) (D N : pt) : 0 <= e <= / 100 -> hypot_within e thypot -> M <= 2 ^ 490 -> is_deriv (curve (map vpt (cps b))) (val t) D -> left_normal D N ->
    let z := 73 * ulp1 * M + 50 * tiny in let l := vdist D (0, 0) in 4 * z <= l -> / 2 ^ 390 <= l ->
    exists u n, tangent b t = Ok u /\ normal_ b t = Ok n /\ off (2 * (e + ulp1) + 3 * z / l) u (vscale (/ l) D) /\ off (2 * (e + ulp1) + 3 * z / l) n N.
  Proof. intros He HH HM H HN z l. unfold l. rewrite <- len_vdist, (left_is D N HN), (velocity_is D H). intros A B. exact (tangent_double b t M Len SZ HM Ft T A B e He HH). Qed.
  Theorem offset_doubles (fuel : nat) (k : b64) (D N : pt) : (forall x : b64, tsqrt x = Bsqrt mode_NE x) -> M <= 2 ^ 490 -> is_deriv (curve (map vpt (cps b))) (val t) D -> left_normal D N ->
    let z := 73 * ulp1 * M + 50 * tiny in let l := vdist D (0, 0) in 4 * z <= l -> / 2 ^ 390 <= l -> fin k -> val k <> 0 -> Rabs (val k) <= 2 ^ 490 ->
    exists c n p, offset fuel b t (Some k) = Ok (OPoints c n p) /\ off (10 * ulp1 * M + 32 * tiny) c (curve (map vpt (cps b)) (val t)) /\ off (4 * ulp1 + 3 * z / l) n N /\
      off (12 * ulp1 * M + Rabs (val k) * (9 * ulp1 + 3 * z / l) + 40 * tiny) p (vadd (curve (map vpt (cps b)) (val t)) (vscale (val k) N)).
  Proof. intros HS HM H HN z l. unfold l. rewrite <- len_vdist, (left_is D N HN), (velocity_is D H). intros A B. exact (offset_double b t M Len SZ HM Ft T A B HS fuel k). Qed.
End Statements.
