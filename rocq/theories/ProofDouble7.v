(** Curve intersection of quadratics in binary64: how far apart reported meetings may be; a missed one. *)
From Coq Require Import List ZArith Bool Reals Lra Lia Psatz.
From Flocq Require Import Core BinarySingleNaN.
From Verif Require Import Py Inst InstFloat SpecGeom SpecFit SpecBezier SpecCurve SpecDouble MTransform MBounds MBezUtil MPathUtil MBezier
  ProofBezier ProofBezier2 ProofDouble ProofDouble2 ProofDouble3 ProofDouble4 ProofDouble5 ProofDouble6.
From Verif Require ProofInter.
Import ListNotations.
Local Open Scope R_scope.
#[local] Existing Instance InstFloat.prec_gt_0.
#[local] Existing Instance InstFloat.prec_lt_emax.

(** ** More recursion depth does not change a result, for any numbers *)
Lemma pair_more {T} {N : NumOps T} {TO : TrigOps T} (thr : T) : forall fuel c1 c2 res k,
  pairiteration fuel thr c1 c2 = Ok res -> pairiteration (fuel + k) thr c1 c2 = Ok res.
Proof.
  induction fuel as [|f IH]; intros c1 c2 res k E; [discriminate|]. cbn [Nat.add pairiteration] in *.
  apply bind_Ok in E as (b1 & E1 & E). apply bind_Ok in E as (b2 & E2 & E). rewrite E1, E2. cbn [bind].
  destruct (_ && _)%bool; [exact E|].
  apply bind_Ok in E as ([[l1 r1] h1] & S1 & E). apply bind_Ok in E as ([[l2 r2] h2] & S2 & E). rewrite S1, S2. cbn [bind].
  apply bind_Ok in E as (pairs & F & E). rewrite F. cbn [bind]. destruct (Nat.eqb (length pairs) 0); [exact E|].
  apply bind_Ok in E as (rs & M & E).
  replace (mapM (fun pr => pairiteration (f + k) thr (fst pr) (snd pr)) pairs) with (Ok rs); [exact E|]. symmetry.
  apply mapM_Ok. apply mapM_Ok in M. clear - M IH. induction M; constructor; auto.
Qed.
Lemma pair_same {T} {N : NumOps T} {TO : TrigOps T} (thr : T) f g c1 c2 r r' :
  pairiteration f thr c1 c2 = Ok r -> pairiteration g thr c1 c2 = Ok r' -> r = r'.
Proof.
  intros E1 E2. apply pair_more with (k := g) in E1. apply pair_more with (k := f) in E2. rewrite Nat.add_comm in E2.
  rewrite E1 in E2. now injection E2.
Qed.
Lemma dups_sub {A} (eqf : A -> A -> bool) (l : list A) x : In x (removeDuplicates eqf l) -> In x l.
Proof.
  unfold removeDuplicates.
  assert (K : forall (q : list (nat * A)) acc, In x (fold_left (fun result iv => match index_of eqf (snd iv) l with
      | Some j => if Nat.eqb j (fst iv) then result ++ [snd iv] else result | None => result end) q acc) -> In x acc \/ exists i, In (i, x) q).
  { induction q as [|[i y] q IH]; intros acc I; [now left|]. cbn [fold_left fst snd] in I. apply IH in I. destruct I as [I|[j I]]; [|right; exists j; now right].
    destruct (index_of eqf y l) as [j|]; [destruct (Nat.eqb j i)|]; try (now left).
    apply in_app_iff in I. destruct I as [I|[<-|[]]]; [now left | right; exists i; now left]. }
  intros I. destruct (K _ _ I) as [[]|[i J]]. now apply in_combine_r in J.
Qed.
Lemma In_mapM' {A B} (f : A -> res B) l bs : mapM f l = Ok bs -> forall b, In b bs -> exists a, In a l /\ f a = Ok b.
Proof.
  intros E. apply mapM_Ok in E. induction E as [|a b l bs H E IH]; intros c I; [destruct I|].
  destruct I as [<-|I]; [exists a; split; [now left | exact H]|]. destruct (IH c I) as (a' & I' & H'). exists a'. split; [now right | exact H'].
Qed.

(** ** Parameter intervals of halves are exact *)
Lemma split_times {T} {N : NumOps T} (b : bezier T) t l r h : split1 b t = Ok (l, r, h) ->
  bmap (nofZ 0) (nofZ 0) (nofZ 1) (bt1 b) (bt2 b) = Ok (bt1 l) /\ bmap t (nofZ 0) (nofZ 1) (bt1 b) (bt2 b) = Ok (bt2 l) /\
  bmap t (nofZ 0) (nofZ 1) (bt1 b) (bt2 b) = Ok (bt1 r) /\ bmap (nofZ 1) (nofZ 0) (nofZ 1) (bt1 b) (bt2 b) = Ok (bt2 r).
Proof.
  unfold split1. intros E. apply bind_Ok in E as ([l' r'] & _ & E).
  apply bind_Ok in E as (x1 & E1 & E). apply bind_Ok in E as (x2 & E2 & E). apply bind_Ok in E as (x3 & E3 & E). apply bind_Ok in E as (x4 & E4 & E).
  injection E as <- <- _. unfold withInterval. cbn [bt1 bt2]. auto.
Qed.
Lemma bmap_dy (k : nat) (i z : Z) (a b v y : b64) : (k <= 48)%nat -> (0 <= i < 2 ^ Z.of_nat k)%Z -> (0 <= z <= 2)%Z -> dy k a i -> dy k b (i + 1) -> dy 1 v z ->
  bmap v (nofZ 0) (nofZ 1) a b = Ok y -> dy (S k) y (2 * i + z).
Proof.
  intros Hk Hi Hz Da Db Dv E. unfold bmap, ndiv in E. change (neqb (nsub (nofZ 1) (nofZ 0)) (nofZ 0)) with false in E. cbn iota in E. cbn [bind] in E.
  injection E as <-. assert (P : (2 ^ Z.of_nat k <= 2 ^ 48)%Z) by (apply Z.pow_le_mono_r; lia).
  assert (D2 : dy k (nsub b a) (i + 1 - i)) by (apply dy_sub; auto; lia). replace (i + 1 - i)%Z with 1%Z in D2 by ring.
  assert (D0 : dy 1 (nofZ 0) (2 * 0)) by (apply dy_up, dy_int, int_lit; lia).
  assert (Dv2 : dy 1 (nsub v (nofZ 0)) (z - 2 * 0)) by (apply dy_sub; auto; lia). replace (z - 2 * 0)%Z with z in Dv2 by ring.
  assert (Dq : dy 1 (nquot (nsub v (nofZ 0)) (nsub (nofZ 1) (nofZ 0))) z).
  { destruct Dv2 as [F V]. assert (D1 : dy 0 (nsub (nofZ 1) (nofZ 0)) (1 - 0)) by (apply dy_sub; try (apply dy_int, int_lit); lia).
    destruct D1 as [F1 V1]. cbn [pow] in V1. replace (1 - 0)%Z with 1%Z in V1 by ring. rewrite Rinv_1, Rmult_1_r in V1.
    destruct (fl_dy 1 z) as [X Y]; [lia | lia|].
    assert (Q : val (nsub v (nofZ 0)) / val (nsub (nofZ 1) (nofZ 0)) = IZR z * / 2 ^ 1) by (rewrite V, V1; field).
    destruct (div_fl (nsub v (nofZ 0)) (nsub (nofZ 1) (nofZ 0)) F) as [F' V']; [rewrite V1; lra | rewrite Q, X; exact Y|].
    split; [exact F' | rewrite V', Q; exact X]. }
  assert (Dm : dy (k + 1) (nmul (nsub b a) (nquot (nsub v (nofZ 0)) (nsub (nofZ 1) (nofZ 0)))) (1 * z)) by (apply dy_mul; auto; lia).
  replace (k + 1)%nat with (S k) in Dm by lia. replace (1 * z)%Z with z in Dm by ring.
  apply dy_add; [now apply dy_up | exact Dm | lia | lia].
Qed.

Section Sound.
  Context {TO : TrigOps b64}.
  Definition cutErr (M : R) : R := 21 * ulp1 * M + 15 * tiny.
  (** [c] is, up to [e], the part of [o] between i/2^k and (i+1)/2^k. *)
  Definition piece (M : R) (o : bezier b64) (k : nat) (c : bezier b64) (i : Z) : Prop :=
    length (cps c) = 3%nat /\ Forall (sized M) (cps c) /\ (0 <= i < 2 ^ Z.of_nat k)%Z /\ dy k (bt1 c) i /\ dy k (bt2 c) (i + 1) /\
    forall s, 0 <= s <= 1 -> let p := curve (map vpt (cps c)) s in let q := curve (map vpt (cps o)) ((IZR i + s) * / 2 ^ k) in
      Rabs (fst p - fst q) <= INR k * cutErr M /\ Rabs (snd p - snd q) <= INR k * cutErr M.
  Lemma piece_self M o : length (cps o) = 3%nat -> Forall (sized M) (cps o) -> is_int (bt1 o) 0 -> is_int (bt2 o) 1 -> piece M o 0 o 0.
  Proof.
    intros L A T1 T2. split; [exact L|]. split; [exact A|]. split; [cbn; lia|]. split; [now apply dy_int|]. split; [now apply dy_int|].
    intros s Hs. cbv zeta. replace ((0 + s) * / 2 ^ 0) with s by (cbn [pow]; lra).
    rewrite !Rminus_diag_eq, Rabs_R0 by reflexivity. cbn [INR]. lra.
  Qed.
  Lemma piece_flat M o k c i : piece M o k c i -> flat M (2 * M) c.
  Proof. intros (L & A & _). apply sized_flat; auto. Qed.
  Lemma piece_split M o k c i : piece M o k c i -> (k <= 48)%nat -> M <= 32768 ->
    exists l r h, split1 c (nlit 1 2) = Ok (l, r, h) /\ piece M o (S k) l (2 * i) /\ piece M o (S k) r (2 * i + 1).
  Proof.
    intros P K LM. pose proof (piece_flat _ _ _ _ _ P) as Fl. destruct P as (L & A & Hi & D1 & D2 & C). destruct half_val as [Fh Vh].
    change (nlit 1 2) with (nquot (bofZ 1) (bofZ 2)).
    assert (MT : 16 * M <= ProofDouble.top) by (apply top_2_1020, (Rle_trans _ (2 ^ 15)); [lra | apply Rle_pow; [lra | lia]]).
    destruct (split_near c (nquot (bofZ 1) (bofZ 2)) M (or_introl L) Fh) as (l & r & h & E & Ol & Or & _ & _ & _ & G); [rewrite Vh; lra | exact A | exact MT|].
    destruct (split_flat c _ M (2 * M) Fl Fh Vh MT) as (l' & r' & h' & E' & (Ll & Al & _) & (Lr & Ar & _)).
    rewrite E in E'. injection E' as <- <- <-. exists l, r, h. split; [exact E|].
    destruct (split_times _ _ _ _ _ E) as (T1 & T2 & T3 & T4).
    assert (Dh : dy 1 (nquot (bofZ 1) (bofZ 2)) 1) by (split; [exact Fh | rewrite Vh; cbn [pow]; lra]).
    assert (D0 : dy 1 (nofZ 0 : b64) 0) by (apply (dy_up 0 _ 0), dy_int, int_lit; lia).
    assert (D3 : dy 1 (nofZ 1 : b64) 2) by (apply (dy_up 0 _ 1), dy_int, int_lit; lia).
    assert (P2 : (2 ^ Z.of_nat (S k) = 2 * 2 ^ Z.of_nat k)%Z) by (rewrite Nat2Z.inj_succ, Z.pow_succ_r; lia).
    assert (P0 : 2 ^ k <> 0) by (apply pow_nonzero; lra).
    unfold order in Ol, Or. rewrite L in Ol, Or.
    split; (split; [lia|]); (split; [assumption|]); (split; [rewrite P2; lia|]).
    - split; [rewrite <- (Z.add_0_r (2 * i)); eapply bmap_dy; eauto; lia|]. split; [eapply bmap_dy; eauto; lia|].
      intros s Hs. cbv zeta. destruct (G s Hs) as [[X Y] _]. destruct (C (/ 2 * s) ltac:(lra)) as [X' Y']. rewrite Vh in X, Y. rewrite S_INR.
      replace ((IZR (2 * i) + s) * / 2 ^ S k) with ((IZR i + / 2 * s) * / 2 ^ k) by (rewrite mult_IZR; cbn [pow]; field; exact P0).
      fold (cutErr M) in X, Y. cbv zeta in *. apply Rabs_le_inv in X, Y, X', Y'. split; apply Rabs_le; lra.
    - split; [eapply bmap_dy; eauto; lia|]. split; [replace (2 * i + 1 + 1)%Z with (2 * i + 2)%Z by ring; eapply bmap_dy; eauto; lia|].
      intros s Hs. cbv zeta. destruct (G s Hs) as [_ [X Y]]. destruct (C (/ 2 + (1 - / 2) * s) ltac:(lra)) as [X' Y']. rewrite Vh in X, Y. rewrite S_INR.
      replace ((IZR (2 * i + 1) + s) * / 2 ^ S k) with ((IZR i + (/ 2 + (1 - / 2) * s)) * / 2 ^ k) by (rewrite plus_IZR, mult_IZR; cbn [pow]; field; exact P0).
      fold (cutErr M) in X, Y. cbv zeta in *. apply Rabs_le_inv in X, Y, X', Y'. split; apply Rabs_le; lra.
  Qed.

  (** ** The reported parameter *)
  Lemma report_dy (k : nat) (i : Z) (a b : b64) : (k <= 48)%nat -> (0 <= i < 2 ^ Z.of_nat k)%Z -> dy k a i -> dy k b (i + 1) ->
    let t := nquot (nquot (nmul (nofZ 100000) (nadd a b)) (nofZ 2)) (nofZ 100000) in
    fin t /\ 0 <= val t <= 1 /\ Rabs (val t - (IZR i + / 2) * / 2 ^ k) <= 4 * ulp1.
  Proof.
    intros Hk Hi Da Db t. assert (P : (2 ^ Z.of_nat k <= 2 ^ 48)%Z) by (apply Z.pow_le_mono_r; lia).
    assert (Ds : dy k (nadd a b) (i + (i + 1))) by (apply dy_add; auto; lia). destruct Ds as [Fs Vs].
    set (m := (IZR i + / 2) * / 2 ^ k) in *.
    assert (Q0 : 0 < / 2 ^ k) by (apply Rinv_0_lt_compat, pow_lt; lra).
    assert (Vs' : val (nadd a b) = 2 * m) by (rewrite Vs; unfold m; rewrite !plus_IZR; field; apply pow_nonzero; lra).
    assert (Q1 : / 2 ^ 48 <= / 2 ^ k) by (apply Rinv_le_contravar; [apply pow_lt; lra | apply Rle_pow; [lra | lia]]).
    assert (U : 32 * ulp1 = / 2 ^ 48) by (unfold ulp1; field).
    assert (I0 : 0 <= IZR i) by (apply IZR_le; lia).
    assert (I1 : IZR i + 1 <= 2 ^ k) by (rewrite <- plus_IZR; replace (2 ^ k) with (IZR (2 ^ Z.of_nat k)) by (rewrite <- pow_IZR; reflexivity); apply IZR_le; lia).
    assert (Mm : / 2 * / 2 ^ k <= m /\ m <= 1 - / 2 * / 2 ^ k).
    { unfold m. split; [apply Rmult_le_compat_r; lra|]. assert ((IZR i + 1) * / 2 ^ k <= 2 ^ k * / 2 ^ k) by (apply Rmult_le_compat_r; lra).
      rewrite Rinv_r in H by (apply pow_nonzero; lra). lra. }
    pose proof ulp1_pos as Pu. pose proof tiny_pos as Pt. pose proof ulp1_small as Su. pose proof tiny_small as St. pose proof top_1000000 as Tb.
    destruct (val_int 100000) as [Fr Vr]; [lia|]. destruct (val_int 2) as [F2 V2]; [lia|].
    change (nofZ 100000) with (bofZ 100000) in t. change (nofZ 2) with (bofZ 2) in t.
    assert (B1 : Rabs (100000 * (2 * m)) <= 200000) by (rewrite Rabs_pos_eq; lra).
    pose proof (fl_bound _ _ B1) as E1. pose proof (fl_size _ _ B1) as S1.
    destruct (mult_fl (bofZ 100000) (nadd a b) Fr Fs) as [Fm Vm]; rewrite Vr, Vs' in *; [lra|].
    set (y1 := nmul (bofZ 100000) (nadd a b)) in *. apply Rabs_le_inv in E1.
    assert (B2 : Rabs (val y1 / 2) <= 100001) by (rewrite Vm; apply Rabs_le; lra).
    pose proof (fl_bound _ _ B2) as E2. pose proof (fl_size _ _ B2) as S2.
    destruct (div_fl y1 (bofZ 2) Fm) as [Fd Vd]; rewrite ?V2; [lra | lra|]. rewrite V2 in Vd.
    set (y2 := nquot y1 (bofZ 2)) in *. apply Rabs_le_inv in E2. rewrite <- Vd in E2, S2.
    assert (B3 : Rabs (val y2 / 100000) <= 2) by (apply Rabs_le; lra).
    pose proof (fl_size _ _ B3) as S3.
    assert (B3' : Rabs (val y2 / 100000) <= 1 + / 1000) by (apply Rabs_le; lra). pose proof (fl_bound _ _ B3') as E3.
    destruct (div_fl y2 (bofZ 100000) Fd) as [Ft Vt]; rewrite ?Vr; [lra | lra|]. rewrite Vr in Vt. fold t in Ft, Vt. rewrite <- Vt in E3.
    apply Rabs_le_inv in E3. assert (E : Rabs (val t - m) <= 4 * ulp1) by (apply Rabs_le; lra).
    split; [exact Ft|]. split; [|exact E]. apply Rabs_le_inv in E. lra.
  Qed.

  (** ** A box that passes the size test, and its curve *)
  Lemma size_test (c : bezier b64) (r : rect b64) (M : R) (thr : b64) : length (cps c) = 3%nat -> Forall (sized M) (cps c) -> M <= 32768 -> fin thr ->
    boundsRectangle c = Ok r -> nltb (nadd (height r) (width r)) thr = true ->
    (val (MBounds.top r) - val (bottom r)) + (val (right r) - val (left r)) <= val thr + 11 * ulp1 * M + 10 * tiny /\
    fin (left r) /\ fin (right r) /\ fin (bottom r) /\ fin (MBounds.top r).
  Proof.
    intros L A LM Ft E H. pose proof ulp1_pos as Pu. pose proof tiny_pos as Pt. pose proof ulp1_small as Su. pose proof tiny_small as St. pose proof top_1000000 as Tb.
    pose proof (sized_pos M c (or_introl L) A) as M0.
    destruct (box_in c M (- M) M (- M) M (or_introl L) A LM) as (r' & E' & (F1 & L1 & L2) & (F2 & R1 & R2) & (F3 & T1 & T2) & (F4 & B1 & B2)); try lra.
    { intros p Hp. rewrite Forall_forall in A. destruct (A p Hp) as (_ & _ & X & Y). apply Rabs_le_inv in X, Y. lra. }
    rewrite E in E'. injection E' as <-. split; [|auto].
    assert (UM : 0 <= ulp1 * M) by (apply Rmult_le_pos; lra). assert (UM' : ulp1 * M <= / 1000000 * 32768) by (apply Rmult_le_compat; lra).
    assert (UU : ulp1 * (ulp1 * M) <= / 1000000 * (ulp1 * M)) by (apply Rmult_le_compat_r; lra). assert (UT : 0 <= ulp1 * tiny <= / 1000000 * tiny) by (split; [apply Rmult_le_pos; lra | apply Rmult_le_compat_r; lra]).
    set (W := 2 * M + 2 * evalErr M) in *.
    assert (Wb : 0 <= W <= 65536 + 1) by (unfold W, evalErr; lra).
    assert (UW : ulp1 * W <= 2 * (ulp1 * M) + / 1000 * (ulp1 * M) + tiny) by (unfold W, evalErr; lra).
    unfold height, width in H.
    assert (Hh : Rabs (val (MBounds.top r) - val (bottom r)) <= W) by (unfold W; apply Rabs_le; lra).
    assert (Hw : Rabs (val (right r) - val (left r)) <= W) by (unfold W; apply Rabs_le; lra).
    pose proof (fl_bound _ _ Hh) as E1. pose proof (fl_size _ _ Hh) as S1. pose proof (fl_bound _ _ Hw) as E2. pose proof (fl_size _ _ Hw) as S2.
    destruct (minus_fl (MBounds.top r) (bottom r) F3 F4) as [Fh Vh]; [lra|]. destruct (minus_fl (right r) (left r) F2 F1) as [Fw Vw]; [lra|].
    rewrite <- Vh in E1, S1. rewrite <- Vw in E2, S2. set (h := nsub (MBounds.top r) (bottom r)) in *. set (w := nsub (right r) (left r)) in *.
    assert (Hs : Rabs (val h + val w) <= 2 * W + / 1000000 * (2 * W) + 2 * tiny) by (eapply Rle_trans; [apply Rabs_triang|]; lra).
    pose proof (fl_bound _ _ Hs) as E3. pose proof (fl_size _ _ Hs) as S3. destruct (plus_fl h w Fh Fw) as [Fs Vs]; [lra|].
    apply (ltb_val _ _ Fs Ft) in H. rewrite Vs in H. apply Rabs_le_inv in E1, E2, E3.
    assert (UW' : 0 <= ulp1 * W) by (apply Rmult_le_pos; lra).
    lra.
  Qed.
  Lemma meet_boxes (a b : rect b64) : fin (left a) -> fin (right a) -> fin (bottom a) -> fin (MBounds.top a) -> fin (left b) -> fin (right b) -> fin (bottom b) -> fin (MBounds.top b) ->
    intersection a b <> None -> val (left b) <= val (right a) /\ val (left a) <= val (right b) /\ val (bottom b) <= val (MBounds.top a) /\ val (bottom a) <= val (MBounds.top b).
  Proof.
    intros F1 F2 F3 F4 G1 G2 G3 G4 H. unfold intersection in H. destruct (pmax_val _ _ F1 G1) as [A1 V1]. destruct (pmin_val _ _ F2 G2) as [A2 V2].
    destruct (pmax_val _ _ F3 G3) as [A3 V3]. destruct (pmin_val _ _ F4 G4) as [A4 V4].
    destruct (nltb (pmin (right a) (right b)) (pmax (left a) (left b))) eqn:E1; [cbn [orb] in H; congruence|].
    destruct (nltb (pmin (MBounds.top a) (MBounds.top b)) (pmax (bottom a) (bottom b))) eqn:E2; [cbn [orb] in H; congruence|].
    apply ltb_val_false in E1; auto. apply ltb_val_false in E2; auto. rewrite V1, V2 in E1. rewrite V3, V4 in E2.
    unfold Rmax, Rmin in *. repeat destruct (Rle_dec _ _); lra.
  Qed.
  Lemma lip_quad (c : bezier b64) M s t : length (cps c) = 3%nat -> Forall (sized M) (cps c) -> 0 <= s <= 1 -> 0 <= t <= 1 ->
    Rabs (fst (curve (map vpt (cps c)) t) - fst (curve (map vpt (cps c)) s)) <= 8 * M * Rabs (t - s) /\
    Rabs (snd (curve (map vpt (cps c)) t) - snd (curve (map vpt (cps c)) s)) <= 8 * M * Rabs (t - s).
  Proof.
    intros L A S T. destruct c as [c u v]; cbn [cps] in *. destruct c as [|p0 [|p1 [|p2 [|]]]]; try (simpl in L; lia).
    inversion A as [|? ? S0 A1]. inversion A1 as [|? ? S1 A2]. inversion A2 as [|? ? S2 _]. subst. cbn [map]. rewrite !curve3. cbn [fst snd vpt].
    destruct S0 as (_ & _ & X0 & Y0), S1 as (_ & _ & X1 & Y1), S2 as (_ & _ & X2 & Y2). apply Rabs_le_inv in X0, Y0, X1, Y1, X2, Y2.
    split; (eapply Rle_trans; [apply ProofInter.lip2; assumption|]); (apply Rmult_le_compat_r; [apply Rabs_pos|]).
    - assert (Rabs (val (fst p1) - val (fst p0)) <= 2 * M) by (apply Rabs_le; lra). assert (Rabs (val (fst p2) - val (fst p1)) <= 2 * M) by (apply Rabs_le; lra). lra.
    - assert (Rabs (val (snd p1) - val (snd p0)) <= 2 * M) by (apply Rabs_le; lra). assert (Rabs (val (snd p2) - val (snd p1)) <= 2 * M) by (apply Rabs_le; lra). lra.
  Qed.
  (** The point at the reported parameter is near the middle of the piece, which is in its box. *)
  Lemma piece_mid M o k c i r t : length (cps o) = 3%nat -> Forall (sized M) (cps o) -> piece M o k c i -> (k <= 48)%nat -> M <= 32768 -> boundsRectangle c = Ok r ->
    0 <= val t <= 1 -> Rabs (val t - (IZR i + / 2) * / 2 ^ k) <= 4 * ulp1 ->
    let q := curve (map vpt (cps o)) (val t) in let e := 1104 * ulp1 * M + 800 * tiny in
    val (left r) - e <= fst q <= val (right r) + e /\ val (bottom r) - e <= snd q <= val (MBounds.top r) + e.
  Proof.
    intros Lo Ao P K LM E T R q e. pose proof P as (L & A & Hi & _ & _ & C).
    destruct (quad_box c M L A LM) as (r' & E' & B). rewrite E in E'. injection E' as <-. specialize (B (/ 2) ltac:(lra)). cbv zeta in B.
    destruct (C (/ 2) ltac:(lra)) as [X Y]. cbv zeta in X, Y. set (m := (IZR i + / 2) * / 2 ^ k) in *.
    assert (Mm : 0 <= m <= 1).
    { assert (I0 : 0 <= IZR i) by (apply IZR_le; lia). assert (Q0 : 0 < / 2 ^ k) by (apply Rinv_0_lt_compat, pow_lt; lra).
      assert (I1 : IZR i + 1 <= 2 ^ k) by (rewrite <- plus_IZR; replace (2 ^ k) with (IZR (2 ^ Z.of_nat k)) by (rewrite <- pow_IZR; reflexivity); apply IZR_le; lia).
      unfold m. split; [apply Rmult_le_pos; lra|]. assert ((IZR i + 1) * / 2 ^ k <= 2 ^ k * / 2 ^ k) by (apply Rmult_le_compat_r; lra).
      rewrite Rinv_r in H by (apply pow_nonzero; lra). assert (0 <= / 2 * / 2 ^ k) by lra. lra. }
    destruct (lip_quad o M m (val t) Lo Ao Mm T) as [X' Y']. fold q in X', Y'.
    pose proof ulp1_pos as Pu. pose proof tiny_pos as Pt. pose proof (sized_pos M o (or_introl Lo) Ao) as M0.
    assert (UM : 0 <= ulp1 * M) by (apply Rmult_le_pos; lra).
    assert (Z : 8 * M * Rabs (val t - m) <= 32 * (ulp1 * M)).
    { assert (8 * M * Rabs (val t - m) <= 8 * M * (4 * ulp1)) by (apply Rmult_le_compat_l; lra). lra. }
    assert (KI : INR k * cutErr M <= 48 * cutErr M).
    { apply Rmult_le_compat_r; [unfold cutErr; lra|]. apply le_INR in K. replace (INR 48) with 48 in K by (rewrite INR_IZR_INZ; reflexivity). exact K. }
    unfold cutErr in *. unfold e. apply Rabs_le_inv in X, Y, X', Y'. lra.
  Qed.
  Definition close_by (M : R) (thr : b64) (o1 o2 : bezier b64) (ts : point b64) : Prop :=
    fin (fst ts) /\ fin (snd ts) /\ 0 <= val (fst ts) <= 1 /\ 0 <= val (snd ts) <= 1 /\
    taxi (curve (map vpt (cps o1)) (val (fst ts))) (curve (map vpt (cps o2)) (val (snd ts))) <= 2 * val thr + 4500 * ulp1 * M + 4000 * tiny.
  Lemma leaf M thr o1 o2 k c1 c2 i j r1 r2 : length (cps o1) = 3%nat -> Forall (sized M) (cps o1) -> length (cps o2) = 3%nat -> Forall (sized M) (cps o2) ->
    M <= 32768 -> fin thr -> (k <= 48)%nat -> piece M o1 k c1 i -> piece M o2 k c2 j -> boundsRectangle c1 = Ok r1 -> boundsRectangle c2 = Ok r2 -> overlaps c1 c2 = Ok true ->
    nltb (nadd (height r1) (width r1)) thr = true -> nltb (nadd (height r2) (width r2)) thr = true -> close_by M thr o1 o2 (reportPair c1 c2).
  Proof.
    intros Lo1 Ao1 Lo2 Ao2 LM Ft K P1 P2 E1 E2 O S1 S2.
    pose proof P1 as (L1 & A1 & Hi & D1 & D1' & _). pose proof P2 as (L2 & A2 & Hj & D2 & D2' & _).
    destruct (report_dy k i (bt1 c1) (bt2 c1) K Hi D1 D1') as (Fa & Ta & Ra). destruct (report_dy k j (bt1 c2) (bt2 c2) K Hj D2 D2') as (Fb & Tb & Rb).
    unfold reportPair, close_by. cbn [fst snd]. set (t := nquot _ (nofZ 100000)) in *. set (s := nquot (nquot (nmul (nofZ 100000) (nadd (bt1 c2) (bt2 c2))) (nofZ 2)) (nofZ 100000)) in *.
    do 4 (split; [assumption|]).
    pose proof (piece_mid M o1 k c1 i r1 t Lo1 Ao1 P1 K LM E1 Ta Ra) as Q1. pose proof (piece_mid M o2 k c2 j r2 s Lo2 Ao2 P2 K LM E2 Tb Rb) as Q2. cbv zeta in Q1, Q2.
    destruct (size_test c1 r1 M thr L1 A1 LM Ft E1 S1) as (W1 & F1 & F2 & F3 & F4). destruct (size_test c2 r2 M thr L2 A2 LM Ft E2 S2) as (W2 & G1 & G2 & G3 & G4).
    assert (N : intersection r1 r2 <> None) by (unfold overlaps in O; rewrite E1, E2 in O; cbn [bind] in O; destruct (intersection r1 r2); [discriminate | discriminate O]).
    destruct (meet_boxes r1 r2 F1 F2 F3 F4 G1 G2 G3 G4 N) as (I1 & I2 & I3 & I4).
    pose proof ulp1_pos as Pu. pose proof tiny_pos as Pt. pose proof (sized_pos M o1 (or_introl Lo1) Ao1) as M0. assert (UM : 0 <= ulp1 * M) by (apply Rmult_le_pos; lra).
    unfold taxi, Rabs. destruct (Rcase_abs _), (Rcase_abs _); lra.
  Qed.
  Theorem pair_soundF M thr o1 o2 : length (cps o1) = 3%nat -> Forall (sized M) (cps o1) -> length (cps o2) = 3%nat -> Forall (sized M) (cps o2) -> M <= 32768 -> fin thr ->
    forall fuel k c1 c2 i j res ts, (k + fuel <= 49)%nat -> piece M o1 k c1 i -> piece M o2 k c2 j -> overlaps c1 c2 = Ok true ->
      pairiteration fuel thr c1 c2 = Ok res -> In ts res -> close_by M thr o1 o2 ts.
  Proof.
    intros Lo1 Ao1 Lo2 Ao2 LM Ft. induction fuel as [|f IH]; intros k c1 c2 i j res ts K P1 P2 O E I; [discriminate|]. cbn [pairiteration] in E.
    apply bind_Ok in E as (r1 & E1 & E). apply bind_Ok in E as (r2 & E2 & E).
    destruct (nltb (nadd (height r1) (width r1)) thr && nltb (nadd (height r2) (width r2)) thr)%bool eqn:T.
    - apply andb_prop in T as [T1 T2]. injection E as <-. destruct I as [<-|[]]. apply (leaf M thr o1 o2 k c1 c2 i j r1 r2); auto; lia.
    - destruct (piece_split M o1 k c1 i P1 ltac:(lia) LM) as (l1 & q1 & h1 & S1 & Pl1 & Pq1). destruct (piece_split M o2 k c2 j P2 ltac:(lia) LM) as (l2 & q2 & h2 & S2 & Pl2 & Pq2).
      rewrite S1, S2 in E. cbn [bind] in E. apply bind_Ok in E as (pairs & F & E). destruct (Nat.eqb (length pairs) 0); [injection E as <-; destruct I|].
      apply bind_Ok in E as (rs & Mp & E). injection E as <-. apply dups_sub in I. apply in_concat in I as (x & Hx & I).
      destruct (In_mapM' _ _ _ Mp x Hx) as (pr & Hp & Ep). apply (filterM_Ok _ _ _ F) in Hp as (Hq & Ho).
      destruct Hq as [<-|[<-|[<-|[<-|[]]]]]; cbn [fst snd] in *; (eapply (IH (S k)); [lia | | | exact Ho | exact Ep | exact I]); eassumption.
  Qed.
  Theorem curves_soundF (thr : b64) (M : R) (c1 c2 : list (bezier b64)) (fuel : nat) res t s :
    let good c := length (cps c) = 3%nat /\ Forall (sized M) (cps c) /\ is_int (bt1 c) 0 /\ is_int (bt2 c) 1 in
    Forall good c1 -> Forall good c2 -> M <= 32768 -> fin thr -> M / 2 ^ 43 <= val thr -> / 2 ^ 1000 <= val thr ->
    curveIntersects fuel thr c1 c2 = Ok res -> In (t, s) res ->
    exists a b, In a c1 /\ In b c2 /\ fin t /\ fin s /\ 0 <= val t <= 1 /\ 0 <= val s <= 1 /\
      taxi (curve (map vpt (cps a)) (val t)) (curve (map vpt (cps b)) (val s)) <= 2 * val thr + 4500 * ulp1 * M + 4000 * tiny.
  Proof.
    intros good G1 G2 LM Ft T1 T2 E I. rewrite Forall_forall in G1, G2. unfold curveIntersects in E.
    apply bind_Ok in E as (pairs & F & E). apply bind_Ok in E as (rs & Mp & E). injection E as <-. apply in_concat in I as (x & Hx & I).
    destruct (In_mapM' _ _ _ Mp x Hx) as ([a b] & Hp & Ep). apply (filterM_Ok _ _ _ F) in Hp as (Hq & Ho). apply in_prod_iff in Hq as [Ha Hb]. cbn [fst snd] in *.
    exists a, b. split; [exact Ha|]. split; [exact Hb|]. destruct (G1 a Ha) as (La & Aa & Ta & Ta'). destruct (G2 b Hb) as (Lb & Ab & Tb & Tb').
    destruct (pair_endsF thr M a b 48 49) as (res' & E'); auto.
    { assert (0 < / 2 ^ 1000) by (apply Rinv_0_lt_compat, pow_lt; lra).
      replace (2 ^ 48) with (2 ^ 43 * 32) by ring. assert (EM : M = 2 ^ 43 * (M / 2 ^ 43)) by (field; lra). lra. }
    rewrite <- (pair_same _ _ _ _ _ _ _ Ep E') in E'.
    exact (pair_soundF M thr a b La Aa Lb Ab LM Ft 49 0 a b 0 0 x (t, s) (le_n _) (piece_self M a La Aa Ta Ta') (piece_self M b Lb Ab Tb Tb') Ho E' I).
  Qed.
End Sound.

(** ** Touching quadratics: the meeting is missed *)
Definition arch : bezier b64 := mkBez [(bofZ 0, bofZ (-11)); (bofZ 3, bofZ 7); (bofZ 6, bofZ (-2))] (bofZ 0) (bofZ 1).
Definition roof : bezier b64 := mkBez [(bofZ 0, bofZ 1); (bofZ 3, bofZ 1); (bofZ 6, bofZ 1)] (bofZ 0) (bofZ 1).
Theorem touch_missed {TO : TrigOps b64} : curve (map vpt (cps arch)) (2 / 3) = curve (map vpt (cps roof)) (2 / 3) /\
  forall fuel thr, curveIntersects fuel thr [arch] [roof] = Ok [].
Proof.
  split.
  - destruct (val_int 0) as [_ V0]; [lia|]. destruct (val_int 1) as [_ V1]; [lia|]. destruct (val_int 3) as [_ V3]; [lia|]. destruct (val_int 6) as [_ V6]; [lia|].
    destruct (val_int 7) as [_ V7]; [lia|]. destruct (val_int (-11)) as [_ Va]; [lia|]. destruct (val_int (-2)) as [_ Vb]; [lia|].
    unfold arch, roof, vpt. cbn [cps map fst snd]. rewrite V0, V1, V3, V6, V7, Va, Vb, !curve3. cbn [fst snd]. f_equal; field.
  - intros fuel thr. assert (K : overlaps arch roof = Ok false) by (vm_compute; reflexivity).
    unfold curveIntersects. cbn [list_prod map app filterM fst snd]. rewrite K. reflexivity.
Qed.
Lemma grid_int (N a b : Z) : (Z.abs a <= N)%Z -> (Z.abs b <= N)%Z -> (N < 2 ^ 53)%Z -> on_grid 0 N (bofZ a, bofZ b).
Proof.
  intros A B L. exists a, b. cbn [fst snd pow]. rewrite Rinv_1, !Rmult_1_r. split; [apply val_int; lia|]. split; [apply val_int; lia|]. auto.
Qed.
Theorem touch_whole {TO : TrigOps b64} : length (cps arch) = 3%nat /\ length (cps roof) = 3%nat /\
  Forall (on_grid 0 11) (cps arch) /\ Forall (on_grid 0 11) (cps roof) /\ curve (map vpt (cps arch)) (2 / 3) = curve (map vpt (cps roof)) (2 / 3) /\
  forall fuel thr, curveIntersects fuel thr [arch] [roof] = Ok [].
Proof.
  split; [reflexivity|]. split; [reflexivity|]. split; [|split; [|exact touch_missed]];
    unfold arch, roof; cbn [cps]; repeat (apply Forall_cons; [apply grid_int; lia|]); apply Forall_nil.
Qed.
