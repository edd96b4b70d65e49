(** Bounding boxes in binary64: how far they may miss the curve. *)
From Coq Require Import List ZArith Bool Reals Lra Lia Psatz.
From Flocq Require Import Core BinarySingleNaN Relative.
From Verif Require Import Py Inst InstFloat SpecGeom SpecFit SpecBezier SpecDouble MTransform MBounds MBezUtil MBezier MContour
  ProofBezier ProofBezier2 ProofDouble ProofDouble2 ProofDouble3.
Import ListNotations.
Local Open Scope R_scope.
#[local] Existing Instance InstFloat.prec_gt_0.
#[local] Existing Instance InstFloat.prec_lt_emax.

Section Cover.
  Context {TO : TrigOps b64}.

  (** The tried parameters: those of the list, 0 and 1. *)
  Definition tried (l : list b64) (t : b64) : Prop := In t l \/ t = bofZ 0 \/ t = bofZ 1.
  Lemma nmem_val (x : b64) l : fin x -> (forall t, In t l -> fin t) -> nmem x l = true -> exists t, In t l /\ val t = val x.
  Proof.
    intros Fx Fl H. unfold nmem in H. apply existsb_exists in H. destruct H as (t & Ht & E). exists t. split; [exact Ht|].
    symmetry. apply eqb_val; auto.
  Qed.
  Lemma addEnds_has (l : list b64) t : (forall t, In t l -> fin t) -> tried l t -> exists t', In t' (addEnds l) /\ val t' = val t.
  Proof.
    intros Fl H. destruct (val_int 0) as [F0 V0]; [lia|]. destruct (val_int 1) as [F1 V1]; [lia|]. unfold addEnds.
    set (l0 := if nmem (nofZ 0) l then l else nofZ 0 :: l).
    assert (Sub : forall t, In t l -> In t l0) by (intros x Hx; unfold l0; destruct (nmem (nofZ 0) l); [exact Hx | now right]).
    assert (Fl0 : forall t, In t l0 -> fin t) by (intros x Hx; unfold l0 in Hx; destruct (nmem (nofZ 0) l); [auto | destruct Hx as [<-|Hx]; auto]).
    assert (Sub' : forall t, In t l0 -> In t (if nmem (nofZ 1) l0 then l0 else l0 ++ [nofZ 1])) by (intros x Hx; destruct (nmem (nofZ 1) l0); [exact Hx | apply in_app_iff; now left]).
    destruct H as [H|[->| ->]].
    - exists t. split; [apply Sub', Sub, H | reflexivity].
    - assert (K : exists t', In t' l0 /\ val t' = val (bofZ 0)).
      { unfold l0. destruct (nmem (nofZ 0) l) eqn:E; [apply nmem_val; auto | exists (bofZ 0); split; [now left | reflexivity]]. }
      destruct K as (t' & Ht' & E). exists t'. auto.
    - destruct (nmem (nofZ 1) l0) eqn:E; [apply nmem_val; auto | exists (bofZ 1); split; [apply in_app_iff; right; now left | reflexivity]].
  Qed.
  Lemma minmax_cover (g : b64 -> b64) (f : b64 * b64 -> b64 -> res (b64 * b64)) : forall l mn mx,
    (forall t, In t l -> fin (g t) /\ forall mm, f mm t = Ok (if nltb (g t) (fst mm) then g t else fst mm, if nltb (snd mm) (g t) then g t else snd mm)) ->
    fin mn -> fin mx ->
    exists mn' mx', foldM f l (mn, mx) = Ok (mn', mx') /\ fin mn' /\ fin mx' /\ val mn' <= val mn /\ val mx <= val mx' /\
      forall t, In t l -> val mn' <= val (g t) <= val mx'.
  Proof.
    induction l as [|t l IH]; intros mn mx H Fn Fx.
    - exists mn, mx. split; [reflexivity|]. repeat split; auto; try lra; destruct H0.
    - destruct (H t (or_introl eq_refl)) as [Fg E]. cbn [foldM]. rewrite E. cbn [bind fst snd].
      destruct (IH (if nltb (g t) mn then g t else mn) (if nltb mx (g t) then g t else mx)) as (mn' & mx' & E' & Fn' & Fx' & A & B & C).
      + intros; apply H; now right.
      + destruct (nltb _ _); auto.
      + destruct (nltb _ _); auto.
      + exists mn', mx'. split; [exact E'|]. split; [exact Fn'|]. split; [exact Fx'|].
        assert (A1 : val mn' <= val mn /\ val mn' <= val (g t)).
        { destruct (nltb (g t) mn) eqn:L; [apply ltb_val in L | apply ltb_val_false in L]; auto; lra. }
        assert (B1 : val mx <= val mx' /\ val (g t) <= val mx').
        { destruct (nltb mx (g t)) eqn:L; [apply ltb_val in L | apply ltb_val_false in L]; auto; lra. }
        repeat split; try lra; destruct H0 as [<-|H0]; try lra; now apply C.
  Qed.
  Lemma getminmax_cover (b : bezier b64) (d : nat) (l : list b64) (M : R) : (1 <= order b <= 3)%nat -> Forall (sized M) (cps b) -> M <= 32768 ->
    (forall t, In t l -> fin t /\ 0 <= val t <= 1) ->
    exists mn mx, getminmax b d l = Ok (mn, mx) /\ fin mn /\ fin mx /\
      forall t, tried l t -> val mn - evalErr M <= coord d (curve (map vpt (cps b)) (val t)) <= val mx + evalErr M.
  Proof.
    intros O A LM U.
    assert (LB : M <= 2 ^ 1020) by (apply (Rle_trans _ (2 ^ 15)); [lra | apply Rle_pow; [lra | lia]]).
    assert (U' : forall t, In t (addEnds l) -> fin t /\ 0 <= val t <= 1).
    { intros t Ht. apply addEnds_In in Ht. destruct Ht as [Ht|[->| ->]]; auto.
      - destruct (val_int 0) as [F V]; [lia|]. split; [exact F | rewrite V; lra].
      - destruct (val_int 1) as [F V]; [lia|]. split; [exact F | rewrite V; lra]. }
    destruct (val_int 9007199254740991) as [Fa Va]; [lia|]. destruct (val_int (-9007199254740991)) as [Fb Vb]; [lia|].
    unfold getminmax.
    destruct (minmax_cover (fun t => match get b t with Ok p => coord d p | Err _ => bofZ 0 end)
      (fun (mm : b64 * b64) t => let* c := get b t in
        let mn := if nltb (coord d c) (fst mm) then coord d c else fst mm in
        let mx := if nltb (snd mm) (coord d c) then coord d c else snd mm in Ok (mn, mx)) (addEnds l) maxSafe minSafe) as (mn & mx & E & Fn & Fx & _ & _ & C).
    - intros t Ht. destruct (U' t Ht) as [Ft T]. destruct (get_accuracy b t M O A LB Ft T) as (p & E & F1 & F2 & _). rewrite E.
      split; [unfold coord; destruct (Nat.eqb d 0); auto | intros mm; reflexivity].
    - exact Fa.
    - exact Fb.
    - exists mn, mx. split; [exact E|]. split; [exact Fn|]. split; [exact Fx|]. intros t Ht.
      destruct (addEnds_has l t (fun t Ht => proj1 (U t Ht)) Ht) as (t' & Ht' & Ev). rewrite <- Ev. specialize (C t' Ht').
      destruct (U' t' Ht') as [Ft T]. destruct (get_accuracy b t' M O A LB Ft T) as (p & Eg & F1 & F2 & E1 & E2). rewrite Eg in C.
      fold (evalErr M) in E1, E2. apply Rabs_le_inv in E1, E2. unfold coord in *. destruct (Nat.eqb d 0); lra.
  Qed.
  (** If the tried parameters come within [dl] of the extreme values, the box contains the curve up to [dl] and the evaluation error. *)
  Definition close (b : bezier b64) (d : nat) (dl : R) : Prop := exists l, extremaDim b d = Ok l /\ forall s, 0 <= s <= 1 ->
    (exists t, tried l t /\ coord d (curve (map vpt (cps b)) s) <= coord d (curve (map vpt (cps b)) (val t)) + dl) /\
    (exists t, tried l t /\ coord d (curve (map vpt (cps b)) (val t)) - dl <= coord d (curve (map vpt (cps b)) s)).
  Lemma extrema_unit (b : bezier b64) d l : extremaDim b d = Ok l -> forall t, In t l -> fin t /\ 0 <= val t <= 1.
  Proof.
    unfold extremaDim. intros E t. destruct (idx (dcPoints b) 0) as [p|]; [cbn [bind] in E | discriminate].
    destruct (if Nat.eqb (order b) 3 then _ else _) as [r|]; [cbn [bind] in E | discriminate]. apply Ok_inj in E. subst l. apply inUnit_In.
  Qed.
  Lemma box_covers (b : bezier b64) (M dl : R) : (1 <= order b <= 3)%nat -> Forall (sized M) (cps b) -> M <= 32768 -> close b 0 dl -> close b 1 dl ->
    exists r, boundsRectangle b = Ok r /\ fin (left r) /\ fin (right r) /\ fin (bottom r) /\ fin (MBounds.top r) /\
      forall s, 0 <= s <= 1 -> let p := curve (map vpt (cps b)) s in
        val (left r) - (dl + evalErr M) <= fst p <= val (right r) + (dl + evalErr M) /\
        val (bottom r) - (dl + evalErr M) <= snd p <= val (MBounds.top r) + (dl + evalErr M).
  Proof.
    intros O A LM (l0 & E0 & C0) (l1 & E1 & C1).
    destruct (getminmax_cover b 0 l0 M O A LM (extrema_unit b 0 l0 E0)) as (x0 & x1 & G0 & F0 & F1 & X).
    destruct (getminmax_cover b 1 l1 M O A LM (extrema_unit b 1 l1 E1)) as (y0 & y1 & G1 & F2 & F3 & Y).
    eexists. split.
    { unfold boundsRectangle, bbox, extrema. rewrite E0, E1. cbn [bind ex0 ex1]. rewrite G0, G1. cbn [bind]. reflexivity. }
    unfold BoundsRectangle. cbn [fold_left addPoint left right MBounds.top bottom emptyRect].
    destruct (val_int 32768) as [Fa Va]; [lia|]. destruct (val_int (-32768)) as [Fb Vb]; [lia|].
    change (nofZ 32768) with (bofZ 32768). change (nofZ (-32768)) with (bofZ (-32768)).
    assert (MN : forall s x y, fin s -> fin x -> fin y -> fin (pmin (pmin s x) y) /\ val (pmin (pmin s x) y) <= val x).
    { intros s x y Fs Fx Fy. destruct (pmin_val s x Fs Fx) as [H1 V1]. destruct (pmin_val _ y H1 Fy) as [H2 V2].
      split; [exact H2|]. rewrite V2, V1. unfold Rmin. repeat destruct (Rle_dec _ _); lra. }
    assert (MX : forall s x y, fin s -> fin x -> fin y -> fin (pmax (pmax s x) y) /\ val y <= val (pmax (pmax s x) y)).
    { intros s x y Fs Fx Fy. destruct (pmax_val s x Fs Fx) as [H1 V1]. destruct (pmax_val _ y H1 Fy) as [H2 V2].
      split; [exact H2|]. rewrite V2, V1. unfold Rmax. repeat destruct (Rle_dec _ _); lra. }
    destruct (MN _ _ _ Fa F0 F1) as [K1 L1]. destruct (MX _ _ _ Fb F0 F1) as [K2 L2].
    destruct (MN _ _ _ Fa F2 F3) as [K3 L3]. destruct (MX _ _ _ Fb F2 F3) as [K4 L4].
    do 4 (split; [assumption|]). intros s Hs.
    destruct (C0 s Hs) as ((t1 & T1 & B1) & (t2 & T2 & B2)). destruct (C1 s Hs) as ((t3 & T3 & B3) & (t4 & T4 & B4)).
    pose proof (X t1 T1) as X1. pose proof (X t2 T2) as X2. pose proof (Y t3 T3) as Y1. pose proof (Y t4 T4) as Y2.
    unfold coord in *. cbn [Nat.eqb] in *. lra.
  Qed.
End Cover.

(** ** Quadratics *)
Definition f2 (a0 a1 a2 s : R) : R := (1 - s) ^ 2 * a0 + 2 * (1 - s) * s * a1 + s ^ 2 * a2.
Lemma unit_var s : 0 <= s <= 1 -> 0 <= s * (1 - s) <= / 4.
Proof. intros H. split; [apply Rmult_le_pos; lra|]. assert (0 <= (s - / 2) ^ 2) by apply pow2_ge_0. lra. Qed.
Lemma sq_le x e : - e <= x <= e -> x ^ 2 <= e ^ 2.
Proof. intros H. assert (0 <= (e - x) * (e + x)) by (apply Rmult_le_pos; lra). lra. Qed.
Lemma peak_core (f : R -> R) (a0 P Q g p q D k u h : R) : (forall t, f t = a0 + P * t - g * t ^ 2 / 2) -> g = P - Q -> 0 < k -> 0 <= u ->
  Rabs (p - P) <= k -> Rabs (q - Q) <= k -> Rabs (D - (p - q)) <= k ->
  (D <> 0 -> Rabs (h - p / D) <= u * (1 + Rabs (p / D))) -> 9 * u * u * g <= k ->
  forall s, 0 <= s <= 1 -> f s <= f 0 + 3 * k \/ f s <= f 1 + 3 * k \/ (p <> q /\ D <> 0 /\ 0 <= h <= 1 /\ f s <= f h + 3 * k).
Proof.
  intros F Eg K0 U0 Hp Hq HD Hh Hu s Hs. apply Rabs_le_inv in Hp, Hq, HD. pose proof (unit_var s Hs) as S4.
  destruct (Rle_lt_dec g (16 * k)) as [G|G].
  - (* nearly straight *)
    assert (E : f s = (1 - s) * f 0 + s * f 1 + g * (s * (1 - s)) / 2) by (rewrite !F; field).
    assert (B : g * (s * (1 - s)) / 2 <= 2 * k).
    { assert (g * (s * (1 - s)) <= 16 * k * (s * (1 - s))) by (apply Rmult_le_compat_r; lra).
      assert (k * (s * (1 - s)) <= k * / 4) by (apply Rmult_le_compat_l; lra). lra. }
    destruct (Rle_lt_dec (f 0) (f 1)) as [L|L]; [right; left | left].
    + assert ((1 - s) * f 0 <= (1 - s) * f 1) by (apply Rmult_le_compat_l; lra). lra.
    + assert (s * f 1 <= s * f 0) by (apply Rmult_le_compat_l; lra). lra.
  - assert (D0 : 13 / 16 * g <= D) by lra.
    assert (Gp : 0 < g) by lra. assert (Dp : 0 < D) by lra. assert (Dn : D <> 0) by lra.
    assert (S2 : 0 <= s ^ 2) by apply pow2_ge_0.
    destruct (Rle_lt_dec P 0) as [P0|P0].
    { left. rewrite !F. assert (0 <= - P * s) by (apply Rmult_le_pos; lra). assert (0 <= g * s ^ 2) by (apply Rmult_le_pos; lra). lra. }
    destruct (Rle_lt_dec g P) as [P1|P1].
    { right; left. rewrite !F. assert (0 <= (P - g) * (1 - s)) by (apply Rmult_le_pos; lra).
      assert (0 <= g * (1 - s) ^ 2) by (apply Rmult_le_pos; [lra | apply pow2_ge_0]). lra. }
    set (z := P / g). assert (Ez : P = z * g) by (unfold z; field; lra).
    assert (Z : 0 < z < 1) by (split; apply (Rmult_lt_reg_r g); lra).
    assert (Pk : forall t, f t = f z - g / 2 * (t - z) ^ 2) by (intros t; rewrite !F, Ez; field).
    assert (C1 : Rabs (p / D - z) <= 5 * k / g).
    { assert (E : p / D - z = ((p - P) + z * (g - D)) / D) by (rewrite Ez; field; exact Dn).
      rewrite E. unfold Rdiv at 1. rewrite Rabs_mult, Rabs_inv, (Rabs_pos_eq D) by lra.
      apply Rmult_le_reg_r with (D * g); [apply Rmult_lt_0_compat; lra|].
      replace (Rabs (p - P + z * (g - D)) * / D * (D * g)) with (Rabs (p - P + z * (g - D)) * g) by (field; exact Dn).
      replace (5 * k / g * (D * g)) with (5 * k * D) by (field; lra).
      assert (Rabs (p - P + z * (g - D)) <= 4 * k).
      { assert (A1 : 0 <= z * (3 * k - (g - D))) by (apply Rmult_le_pos; lra). assert (A2 : 0 <= z * (3 * k + (g - D))) by (apply Rmult_le_pos; lra).
        assert (A3 : z * k <= 1 * k) by (apply Rmult_le_compat_r; lra). apply Rabs_le; lra. }
      assert (Rabs (p - P + z * (g - D)) * g <= 4 * k * g) by (apply Rmult_le_compat_r; lra).
      assert (k * (13 / 16 * g) <= k * D) by (apply Rmult_le_compat_l; lra).
      assert (0 <= k * g) by (apply Rmult_le_pos; lra). lra. }
    assert (K1 : k / g <= / 16).
    { apply Rmult_le_reg_r with g; [lra|]. unfold Rdiv. rewrite Rmult_assoc, Rinv_l by lra. lra. }
    assert (e0 : 0 <= k / g) by (apply Rmult_le_pos; [lra | left; now apply Rinv_0_lt_compat]).
    assert (K5 : 5 * k / g = 5 * (k / g)) by (field; lra).
    assert (C2 : Rabs (h - p / D) <= 3 * u).
    { specialize (Hh Dn). assert (Rabs (p / D) <= 2) by (apply Rabs_le_inv in C1; apply Rabs_le; lra).
      assert (u * (1 + Rabs (p / D)) <= u * 3) by (apply Rmult_le_compat_l; lra). lra. }
    set (e := 5 * (k / g) + 3 * u).
    assert (C : z - e <= h <= z + e) by (apply Rabs_le_inv in C1, C2; unfold e; lra).
    assert (Eb : g / 2 * e ^ 2 <= 3 * k).
    { assert (Q1 : e ^ 2 <= 50 * (k / g) ^ 2 + 18 * (u * u)).
      { unfold e. assert (0 <= (5 * (k / g) - 3 * u) ^ 2) by apply pow2_ge_0. lra. }
      assert (Q2 : g / 2 * e ^ 2 <= g / 2 * (50 * (k / g) ^ 2 + 18 * (u * u))) by (apply Rmult_le_compat_l; lra).
      replace (g / 2 * (50 * (k / g) ^ 2 + 18 * (u * u))) with (25 * (k * (k / g)) + 9 * u * u * g) in Q2 by (field; lra).
      assert (k * (k / g) <= k * / 16) by (apply Rmult_le_compat_l; lra). lra. }
    assert (Small : forall t, - e <= t - z <= e -> f s <= f t + 3 * k).
    { intros t Ht. rewrite (Pk s), (Pk t). assert (0 <= g / 2 * (s - z) ^ 2) by (apply Rmult_le_pos; [lra | apply pow2_ge_0]).
      pose proof (sq_le _ _ Ht). assert (g / 2 * (t - z) ^ 2 <= g / 2 * e ^ 2) by (apply Rmult_le_compat_l; lra). lra. }
    assert (Epos : 0 <= e) by (unfold e; lra).
    destruct (Rlt_le_dec h 0) as [H0|H0]; [left; apply Small; lra|].
    destruct (Rlt_le_dec 1 h) as [H1|H1]; [right; left; apply Small; lra|].
    right; right. split; [intros ->; lra|]. split; [exact Dn|]. split; [lra|]. apply Small. lra.
Qed.
Lemma fl_bound x B : Rabs x <= B -> Rabs (fl x - x) <= ulp1 * B + tiny.
Proof. intros H. eapply Rle_trans; [apply fl_err|]. pose proof ulp1_pos. assert (ulp1 * Rabs x <= ulp1 * B) by (apply Rmult_le_compat_l; lra). lra. Qed.
Lemma fl_size x B : Rabs x <= B -> Rabs (fl x) <= B + / 1000000 * B + tiny.
Proof.
  intros H. pose proof (fl_bound x B H) as E. pose proof (Rabs_triang (fl x - x) x) as T. replace (fl x - x + x) with (fl x) in T by ring.
  pose proof ulp1_small. pose proof (Rabs_pos x). assert (ulp1 * B <= / 1000000 * B) by (apply Rmult_le_compat_r; lra). lra.
Qed.
Lemma top_1000000 : 1000000 <= ProofDouble.top.
Proof. unfold ProofDouble.top. apply Rle_trans with (bpow radix2 20); [change (bpow radix2 20) with (IZR (2 ^ 20)); apply IZR_le; lia | apply bpow_le; unfold emax; lia]. Qed.

Definition dErr (M : R) : R := 18 * ulp1 * M + 16 * tiny.
Lemma slope2 (x y : b64) M : fin x -> fin y -> Rabs (val x) <= M -> Rabs (val y) <= M -> M <= 32768 ->
  let p := nmul (bofZ 2) (nsub y x) in fin p /\ Rabs (val p - 2 * (val y - val x)) <= dErr M / 2 /\ Rabs (val p) <= 5 * M + 4 * tiny.
Proof.
  intros Fx Fy Mx My LM p. pose proof ulp1_pos as Pu. pose proof tiny_pos as Pt. pose proof ulp1_small as Su. pose proof tiny_small as St. pose proof top_1000000 as Tb.
  pose proof (Rabs_pos (val x)) as M0. destruct (val_int 2) as [F2 V2]; [lia|].
  assert (A : Rabs (val y - val x) <= 2 * M) by (apply Rabs_le_inv in Mx, My; apply Rabs_le; lra).
  pose proof (fl_bound _ _ A) as E1. pose proof (fl_size _ _ A) as S1.
  destruct (minus_fl y x Fy Fx) as [Fs Vs]; [lra|].
  assert (B : Rabs (2 * fl (val y - val x)) <= 2 * (2 * M + / 1000000 * (2 * M) + tiny)) by (rewrite Rabs_mult, (Rabs_pos_eq 2) by lra; lra).
  pose proof (fl_bound _ _ B) as E2. pose proof (fl_size _ _ B) as S2.
  destruct (mult_fl (bofZ 2) (nsub y x) F2 Fs) as [Fp Vp]; rewrite V2, Vs in *; [lra|]. fold p in Fp, Vp.
  split; [exact Fp|]. rewrite Vp. split; [|lra].
  apply Rabs_le_inv in E1, E2. unfold dErr.
  assert (UM : 0 <= ulp1 * M) by (apply Rmult_le_pos; lra). assert (UT : ulp1 * tiny <= / 1000000 * tiny) by (apply Rmult_le_compat_r; lra).
  apply Rabs_le. lra.
Qed.
Section Quad.
  Context {TO : TrigOps b64}.
  Lemma coord_val d (p : point b64) : val (coord d p) = coord d (vpt p).
  Proof. unfold coord, vpt. destruct (Nat.eqb d 0); reflexivity. Qed.
  Lemma coord_sized d (p : point b64) M : sized M p -> fin (coord d p) /\ Rabs (val (coord d p)) <= M.
  Proof. intros (F1 & F2 & A & B). unfold coord. destruct (Nat.eqb d 0); auto. Qed.
  Lemma coord3 d (p q r : pt) s : coord d (curve [p; q; r] s) = f2 (coord d p) (coord d q) (coord d r) s.
  Proof. rewrite curve3. unfold coord, f2. destruct p, q, r. destruct (Nat.eqb d 0); reflexivity. Qed.
  Lemma unit_in (h : b64) (l : list (option b64)) : fin h -> 0 <= val h <= 1 -> In (Some h) l -> In h (inUnit l).
  Proof.
    intros F H I. destruct (val_int 0) as [F0 V0]; [lia|]. destruct (val_int 1) as [F1 V1]; [lia|].
    unfold inUnit. apply in_flat_map. exists (Some h). split; [exact I|].
    assert (A : nleb (nofZ 0) h = true) by (apply leb_val; auto; change (nofZ 0) with (bofZ 0); lra).
    assert (B : nleb h (nofZ 1) = true) by (apply leb_val; auto; change (nofZ 1) with (bofZ 1); lra).
    rewrite A, B. now left.
  Qed.
  Lemma quad_close (b : bezier b64) d M : length (cps b) = 3%nat -> Forall (sized M) (cps b) -> M <= 32768 -> close b d (3 * dErr M).
  Proof.
    intros L A LM. destruct b as [c u v]; cbn [cps] in *. destruct c as [|c0 [|c1 [|c2 [|]]]]; try (simpl in L; lia).
    inversion A as [|? ? S0 A1]. inversion A1 as [|? ? S1 A2]. inversion A2 as [|? ? S2 _]. subst. clear A A1 A2 L.
    pose proof ulp1_pos as Pu. pose proof tiny_pos as Pt. pose proof ulp1_small as Su. pose proof tiny_small as St. pose proof top_1000000 as Tb.
    destruct (coord_sized d c0 M S0) as [F0 B0]. destruct (coord_sized d c1 M S1) as [F1 B1]. destruct (coord_sized d c2 M S2) as [F2 B2].
    set (p := nmul (bofZ 2) (nsub (coord d c1) (coord d c0))). set (q := nmul (bofZ 2) (nsub (coord d c2) (coord d c1))).
    destruct (slope2 (coord d c0) (coord d c1) M F0 F1 B0 B1 LM) as (Fp & Ep & Sp). fold p in Fp, Ep, Sp.
    destruct (slope2 (coord d c1) (coord d c2) M F1 F2 B1 B2 LM) as (Fq & Eq & Sq). fold q in Fq, Eq, Sq.
    assert (Ex : extremaDim (mkBez [c0; c1; c2] u v) d = Ok (inUnit (droots [p; q]))).
    { unfold extremaDim, order, dcPoints. cbn [cps length dcPointsFrom idx nth_error bind Nat.sub Nat.eqb dcLevel map].
      assert (Cd : forall a b, coord d (diffStep 2 a b) = nmul (bofZ 2) (nsub (coord d b) (coord d a))) by (intros a b; unfold coord, diffStep; destruct (Nat.eqb d 0); reflexivity).
      rewrite !Cd. reflexivity. }
    exists (inUnit (droots [p; q])). split; [exact Ex|]. clear Ex.
    pose proof (Rabs_pos (val (coord d c0))) as M0.
    assert (UM : 0 <= ulp1 * M) by (apply Rmult_le_pos; lra). assert (UT : ulp1 * tiny <= / 1000000 * tiny) by (apply Rmult_le_compat_r; lra).
    assert (K0 : 0 < dErr M) by (unfold dErr; lra).
    assert (Spq : Rabs (val p - val q) <= 10 * M + 8 * tiny) by (apply Rabs_le_inv in Sp, Sq; apply Rabs_le; lra).
    pose proof (fl_bound _ _ Spq) as Ed. pose proof (fl_size _ _ Spq) as Sd. destruct (minus_fl p q Fp Fq) as [FD VD]; [lra|].
    set (D := nsub p q) in *. set (h := fl (val p / val D)).
    assert (ED : Rabs (val D - (val p - val q)) <= dErr M) by (rewrite VD; unfold dErr; lra).
    assert (Eh : val D <> 0 -> Rabs (h - val p / val D) <= ulp1 * (1 + Rabs (val p / val D))).
    { intros _. unfold h. pose proof (fl_err (val p / val D)). lra. }
    set (x0 := val (coord d c0)) in *. set (x1 := val (coord d c1)) in *. set (x2 := val (coord d c2)) in *.
    assert (Fc : forall s, coord d (curve (map vpt [c0; c1; c2]) s) = f2 x0 x1 x2 s).
    { intros s. cbn [map]. rewrite coord3. unfold x0, x1, x2. now rewrite !coord_val. }
    assert (G : Rabs (2 * (x1 - x0) - 2 * (x2 - x1)) <= 8 * M) by (apply Rabs_le_inv in B0, B1, B2; apply Rabs_le; lra).
    assert (UU : 9 * ulp1 * ulp1 * (8 * M) <= dErr M).
    { assert (ulp1 * (ulp1 * M) <= / 1000000 * (ulp1 * M)) by (apply Rmult_le_compat_r; lra). unfold dErr. lra. }
    assert (UU0 : 0 <= 9 * ulp1 * ulp1) by (assert (0 <= ulp1 * ulp1) by (apply Rmult_le_pos; lra); lra).
    assert (Tr : val p <> val q -> val D <> 0 -> 0 <= h <= 1 -> tried (inUnit (droots [p; q])) (nquot p D) /\ val (nquot p D) = h).
    { intros N1 N2 Hh. destruct (div_fl p D Fp N2) as [Fh Vh]; [fold h; rewrite Rabs_pos_eq by lra; lra|]. fold h in Vh. split; [|exact Vh]. left.
      apply unit_in; [exact Fh | rewrite Vh; exact Hh|]. unfold droots. rewrite (neqb_val p q Fp Fq N1). cbn [negb]. now left. }
    destruct (val_int 0) as [Fz Vz]; [lia|]. destruct (val_int 1) as [Fo Vo]; [lia|].
    assert (Half : forall x, Rabs x <= dErr M / 2 -> Rabs x <= dErr M) by (intros; lra).
    intros s Hs. split.
    - destruct (peak_core (f2 x0 x1 x2) x0 (2 * (x1 - x0)) (2 * (x2 - x1)) (2 * (x1 - x0) - 2 * (x2 - x1)) (val p) (val q) (val D) (dErr M) ulp1 h)
        with (s := s) as [K|[K|(N1 & N2 & Hh & K)]]; auto; try lra.
      + intros t. unfold f2. field.
      + eapply Rle_trans; [apply Rmult_le_compat_l; [exact UU0|]; apply Rle_trans with (8 * M); [|apply Rle_refl]; apply Rabs_le_inv in G; lra | exact UU].
      + exists (bofZ 0). split; [right; now left|]. rewrite !Fc, Vz. exact K.
      + exists (bofZ 1). split; [right; now right|]. rewrite !Fc, Vo. exact K.
      + destruct (Tr N1 N2 Hh) as [T V]. exists (nquot p D). split; [exact T|]. rewrite !Fc, V. exact K.
    - destruct (peak_core (fun t => - f2 x0 x1 x2 t) (- x0) (- (2 * (x1 - x0))) (- (2 * (x2 - x1))) (- (2 * (x1 - x0) - 2 * (x2 - x1))) (- val p) (- val q) (- val D) (dErr M) ulp1 h)
        with (s := s) as [K|[K|(N1 & N2 & Hh & K)]]; auto; try lra.
      + intros t. unfold f2. field.
      + replace (- val p - - (2 * (x1 - x0))) with (- (val p - 2 * (x1 - x0))) by ring. rewrite Rabs_Ropp. auto.
      + replace (- val q - - (2 * (x2 - x1))) with (- (val q - 2 * (x2 - x1))) by ring. rewrite Rabs_Ropp. auto.
      + replace (- val D - (- val p - - val q)) with (- (val D - (val p - val q))) by ring. rewrite Rabs_Ropp. auto.
      + intros N. replace (- val p / - val D) with (val p / val D) by (field; lra). apply Eh. lra.
      + eapply Rle_trans; [apply Rmult_le_compat_l; [exact UU0|]; apply Rle_trans with (8 * M); [|apply Rle_refl]; apply Rabs_le_inv in G; lra | exact UU].
      + exists (bofZ 0). split; [right; now left|]. rewrite !Fc, Vz. lra.
      + exists (bofZ 1). split; [right; now right|]. rewrite !Fc, Vo. lra.
      + destruct Tr as [T V]; [lra | lra | exact Hh|]. exists (nquot p D). split; [exact T|]. rewrite !Fc, V. lra.
  Qed.
End Quad.
