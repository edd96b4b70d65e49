(** Where binary64 bounding boxes and curve intersection go wrong: cubics whose leading difference is only rounding noise. *)
From Coq Require Import List ZArith Bool Reals Lra Lia.
From Flocq Require Import Core BinarySingleNaN.
From Verif Require Import Py InstFloat SpecGeom SpecBezier SpecDouble MTransform MBounds MBezUtil MBezier
  ProofBezier ProofDouble ProofDouble2 ProofDouble3 ProofDouble4 ProofDouble5.
Import ListNotations.
Local Open Scope R_scope.
#[local] Existing Instance InstFloat.prec_gt_0.
#[local] Existing Instance InstFloat.prec_lt_emax.

Section Bad.
  Context (sn cs ac : b64 -> b64) (at2 hy pw : b64 -> b64 -> b64) (pi : b64) (r15 : b64 -> b64).
  #[local] Hint Extern 0 (TrigOps b64) => exact (FTrig sn cs ac at2 hy pw pi r15) : typeclass_instances.
  Definition quo (a b : Z) : b64 := nquot (bofZ a) (bofZ b).
  Definition thirds : bezier b64 := mkBez [(bofZ 0, bofZ 0); (bofZ 1, quo 8 3); (bofZ 2, bofZ 3); (bofZ 3, bofZ 1)] (bofZ 0) (bofZ 1).
  Definition level : bezier b64 := mkBez [(bofZ 0, bofZ 2); (quo 3 2, bofZ 2); (bofZ 3, bofZ 2)] (bofZ 0) (bofZ 1).
  Definition steep : bezier b64 := mkBez [(bofZ 0, bofZ 0); (quo 1 32, quo 83 4); (quo 1 16, quo 1987 96); (quo 3 32, quo (-5) 32)] (bofZ 0) (bofZ 1).
  Definition low : bezier b64 := mkBez [(bofZ 0, quo (-1) 8); (quo 1 32, quo (-1) 8); (quo 1 16, quo (-1) 8)] (bofZ 0) (bofZ 1).

  Lemma quo_val (a b : Z) : (Z.abs a < 2 ^ 12)%Z -> (0 < b < 2 ^ 12)%Z -> fin (quo a b) /\ Rabs (val (quo a b) - IZR a / IZR b) <= / 100.
  Proof.
    intros Ha Hb. destruct (val_int a) as [Fa Va]; [lia|]. destruct (val_int b) as [Fb Vb]; [lia|].
    pose proof ulp1_pos. pose proof tiny_pos. pose proof ulp1_small. pose proof tiny_small. pose proof top_1000000 as T.
    assert (B1 : 1 <= IZR b) by (apply IZR_le; lia).
    assert (Bq : Rabs (IZR a / IZR b) <= 4096).
    { unfold Rdiv. rewrite Rabs_mult, Rabs_inv, (Rabs_pos_eq (IZR b)) by lra. rewrite <- (Rmult_1_r 4096). apply Rmult_le_compat.
      - apply Rabs_pos. - left. apply Rinv_0_lt_compat. lra. - rewrite <- abs_IZR. apply IZR_le. lia. - rewrite <- Rinv_1. apply Rinv_le_contravar; lra. }
    pose proof (fl_bound _ _ Bq). pose proof (fl_size _ _ Bq).
    destruct (div_fl (bofZ a) (bofZ b) Fa) as [F V]; [rewrite Vb; lra | rewrite Va, Vb; lra|].
    split; [exact F|]. unfold quo. rewrite V, Va, Vb. lra.
  Qed.

  Lemma thirds_sized : Forall (sized 3) (cps thirds) /\ Forall (sized 3) (cps level).
  Proof.
    destruct (quo_val 8 3) as [F V]; [lia | lia|]. destruct (quo_val 3 2) as [F' V']; [lia | lia|]. apply Rabs_le_inv in V, V'.
    assert (I : forall z, (Z.abs z <= 3)%Z -> fin (bofZ z) /\ Rabs (val (bofZ z)) <= 3).
    { intros z Hz. destruct (val_int z) as [Fz Vz]; [lia|]. split; [exact Fz|]. rewrite Vz, <- abs_IZR. apply IZR_le. exact Hz. }
    assert (Q : Rabs (val (quo 8 3)) <= 3) by (apply Rabs_le; lra). assert (Q' : Rabs (val (quo 3 2)) <= 3) by (apply Rabs_le; lra).
    split; unfold thirds, level; cbn [cps]; repeat (apply Forall_cons; [split; [|split; [|split]]; cbn [fst snd]; try (apply I; cbn; lia); assumption|]); apply Forall_nil.
  Qed.
  Lemma steep_sized : Forall (sized 21) (cps steep) /\ Forall (sized 21) (cps low).
  Proof.
    destruct (quo_val 1 32) as [F1 V1]; [lia | lia|]. destruct (quo_val 83 4) as [F2 V2]; [lia | lia|]. destruct (quo_val 1 16) as [F3 V3]; [lia | lia|].
    destruct (quo_val 1987 96) as [F4 V4]; [lia | lia|]. destruct (quo_val 3 32) as [F5 V5]; [lia | lia|]. destruct (quo_val (-5) 32) as [F6 V6]; [lia | lia|].
    destruct (quo_val (-1) 8) as [F7 V7]; [lia | lia|]. destruct (val_int 0) as [F0 V0]; [lia|].
    apply Rabs_le_inv in V1, V2, V3, V4, V5, V6, V7.
    split; unfold steep, low; cbn [cps]; repeat (apply Forall_cons; [split; [|split; [|split]]; cbn [fst snd]; try assumption; apply Rabs_le; lra|]); apply Forall_nil.
  Qed.

  (** The top of the box of [thirds] is 1; the curve reaches 2.25. *)
  Lemma thirds_box : exists r, boundsRectangle thirds = Ok r /\ fin (MBounds.top r) /\ val (MBounds.top r) = 1.
  Proof.
    assert (K : match boundsRectangle thirds with Ok r => B2SF (MBounds.top r) = B2SF (bofZ 1) | Err _ => False end) by (vm_compute; reflexivity).
    destruct (boundsRectangle thirds) as [r|]; [|destruct K]. exists r. split; [reflexivity|]. apply bsf in K. rewrite K. apply (val_int 1). lia.
  Qed.
  Lemma thirds_curve s : curve (map vpt (cps thirds)) s = (3 * s, f3 0 (val (quo 8 3)) 3 1 s).
  Proof.
    destruct (val_int 0) as [_ V0]; [lia|]. destruct (val_int 1) as [_ V1]; [lia|]. destruct (val_int 2) as [_ V2]; [lia|]. destruct (val_int 3) as [_ V3]; [lia|].
    unfold thirds, vpt. cbn [cps map fst snd]. rewrite V0, V1, V2, V3, curve4. cbn [fst snd]. unfold f3. f_equal. ring.
  Qed.
  Lemma thirds_half : 2 + / 5 <= f3 0 (val (quo 8 3)) 3 1 (/ 2).
  Proof. destruct (quo_val 8 3) as [F V]; [lia | lia|]. apply Rabs_le_inv in V. unfold f3. lra. Qed.
  Lemma thirds_high : exists s, 0 <= s <= / 2 /\ f3 0 (val (quo 8 3)) 3 1 s = 2.
  Proof.
    pose proof thirds_half as H.
    destruct (IVT_cor (fun s => f3 0 (val (quo 8 3)) 3 1 s - 2) 0 (/ 2)) as (s & Hs & E).
    - intros x. apply derivable_continuous_pt. exists ((1 - x) ^ 2 * (3 * (val (quo 8 3) - 0)) + 2 * (1 - x) * x * (3 * (3 - val (quo 8 3))) + x ^ 2 * (3 * (1 - 3)) - 0).
      apply (derivable_pt_lim_minus (f3 0 (val (quo 8 3)) 3 1) (fun _ => 2)); [apply f3_deriv | apply derivable_pt_lim_const].
    - lra.
    - assert (E0 : f3 0 (val (quo 8 3)) 3 1 0 = 0) by (unfold f3; ring). rewrite E0. assert (0 <= (f3 0 (val (quo 8 3)) 3 1 (/ 2) - 2)) by lra. lra.
    - exists s. split; [exact Hs | lra].
  Qed.
  Theorem box_wrong : length (cps thirds) = 4%nat /\ Forall (sized 3) (cps thirds) /\ exists r, boundsRectangle thirds = Ok r /\
    val (MBounds.top r) + 1 < snd (curve (map vpt (cps thirds)) (/ 2)).
  Proof.
    split; [reflexivity|]. split; [apply thirds_sized|]. destruct thirds_box as (r & E & _ & V). exists r. split; [exact E|].
    rewrite V, thirds_curve. cbn [snd]. pose proof thirds_half. lra.
  Qed.

  (** [thirds] and [level] cross, and are found not to. *)
  Theorem missed : (exists s, 0 <= s <= 1 /\ curve (map vpt (cps thirds)) s = curve (map vpt (cps level)) s) /\
    forall fuel thr, curveIntersects fuel thr [thirds] [level] = Ok [].
  Proof.
    split.
    - destruct thirds_high as (s & Hs & E). exists s. split; [lra|]. rewrite thirds_curve, E.
      destruct (val_int 0) as [_ V0]; [lia|]. destruct (val_int 2) as [_ V2]; [lia|]. destruct (val_int 3) as [_ V3]; [lia|].
      assert (Q : val (quo 3 2) = 3 / 2).
      { destruct (div_fl (bofZ 3) (bofZ 2)) as [F V]; [apply val_int; lia | rewrite V2; lra | |].
        - rewrite V3, V2. pose proof (fl_size (3 / 2) 2 ltac:(apply Rabs_le; lra)). pose proof top_1000000. pose proof tiny_small. pose proof ulp1_small. lra.
        - unfold quo. rewrite V, V3, V2. replace (3 / 2) with (IZR 3 * bpow radix2 (- Z.of_nat 1)) by (cbn; lra). apply fl_dyadic; lia. }
      unfold level, vpt. cbn [cps map fst snd]. rewrite V0, V2, V3, Q, curve3. cbn [fst snd]. f_equal; field.
    - intros fuel thr. assert (K : overlaps thirds level = Ok false) by (vm_compute; reflexivity).
      unfold curveIntersects. cbn [list_prod map app filterM fst snd]. rewrite K. reflexivity.
  Qed.

  (** [steep] and [low] are reported to meet at their middles, where they are 15 apart. *)
  Theorem invented : exists h : b64, fin h /\ val h = / 2 /\ (forall f, curveIntersects (3 + f) (quo 1 2) [steep] [low] = Ok [(h, h)]) /\
    15 < snd (curve (map vpt (cps steep)) (/ 2)) - snd (curve (map vpt (cps low)) (/ 2)).
  Proof.
    exists (quo 1 2). destruct half_val as [Fh Vh]. split; [exact Fh|]. split; [exact Vh|]. split.
    - intros f.
      assert (K : match curveIntersects (3 + f) (quo 1 2) [steep] [low] with Ok [(a, b)] => B2SF a = B2SF (quo 1 2) /\ B2SF b = B2SF (quo 1 2) | _ => False end)
        by (vm_compute; split; reflexivity).
      destruct (curveIntersects (3 + f) (quo 1 2) [steep] [low]) as [[|[a b] [|]]|]; try destruct K as [K1 K2]; try destruct K.
      apply bsf in K1, K2. subst. reflexivity.
    - destruct (quo_val 83 4) as [F2 V2]; [lia | lia|]. destruct (quo_val 1987 96) as [F4 V4]; [lia | lia|]. destruct (quo_val (-5) 32) as [F6 V6]; [lia | lia|].
      destruct (quo_val (-1) 8) as [F7 V7]; [lia | lia|]. destruct (val_int 0) as [F0 V0]; [lia|]. apply Rabs_le_inv in V2, V4, V6, V7.
      unfold steep, low, vpt. cbn [cps map fst snd]. rewrite curve3, curve4. cbn [fst snd]. rewrite V0. lra.
  Qed.
End Bad.

(** ** Boxes that cover *)
Section Cover.
  Context (sn cs ac : b64 -> b64) (at2 hy pw : b64 -> b64 -> b64) (pi : b64) (r15 : b64 -> b64).
  #[local] Hint Extern 0 (TrigOps b64) => exact (FTrig sn cs ac at2 hy pw pi r15) : typeclass_instances.
  Theorem cubic_box (b : bezier b64) (e : nat) (N : Z) : length (cps b) = 4%nat -> Forall (on_grid e N) (cps b) ->
    (1 <= N <= 2 ^ 20)%Z -> (e <= 400)%nat -> let M := IZR N * / 2 ^ e in M <= 32768 ->
    exists r, boundsRectangle b = Ok r /\ forall s, 0 <= s <= 1 ->
      let p := curve (map vpt (cps b)) s in let e := 18 * ulp1 * M + 32 * tiny in
      val (left r) - e <= fst p <= val (right r) + e /\ val (bottom r) - e <= snd p <= val (MBounds.top r) + e.
  Proof.
    intros L A HN He M LM. assert (O : (1 <= order b <= 3)%nat) by (unfold order; lia).
    assert (A' : Forall (sized M) (cps b)).
    { eapply Forall_impl; [|exact A]. intros p (zx & zy & (F1 & V1) & (F2 & V2) & B1 & B2).
      assert (Q : 0 < / 2 ^ e) by (apply Rinv_0_lt_compat, pow_lt; lra).
      repeat split; auto; rewrite ?V1, ?V2, Rabs_mult, (Rabs_pos_eq (/ 2 ^ e)) by lra; (apply Rmult_le_compat_r; [lra|]); rewrite <- abs_IZR; apply IZR_le; assumption. }
    destruct (box_covers b M (8 * ulp1 * M) O A' LM) as (r & E & _ & _ & _ & _ & H).
    1,2: apply cubic_close; auto.
    exists r. split; [exact E|]. intros s Hs. specialize (H s Hs). cbv zeta in *. unfold evalErr in H. lra.
  Qed.
End Cover.

Section Whole.
  Context {TO : TrigOps b64}.
  Theorem quad_box (b : bezier b64) (M : R) : length (cps b) = 3%nat -> Forall (sized M) (cps b) -> M <= 32768 ->
    exists r, boundsRectangle b = Ok r /\ forall s, 0 <= s <= 1 ->
      let p := curve (map vpt (cps b)) s in let e := 64 * ulp1 * M + 80 * tiny in
      val (left r) - e <= fst p <= val (right r) + e /\ val (bottom r) - e <= snd p <= val (MBounds.top r) + e.
  Proof.
    intros L A LM. assert (O : (1 <= order b <= 3)%nat) by (unfold order; lia).
    destruct (box_covers b M (3 * dErr M) O A LM) as (r & E & _ & _ & _ & _ & H); [apply quad_close; auto | apply quad_close; auto|].
    exists r. split; [exact E|]. intros s Hs. specialize (H s Hs). cbv zeta in *. unfold dErr, evalErr in H. lra.
  Qed.
  Theorem box_small (b : bezier b64) (M xlo xhi ylo yhi : R) : (length (cps b) = 3 \/ length (cps b) = 4)%nat -> Forall (sized M) (cps b) -> M <= 32768 ->
    (forall p, In p (cps b) -> xlo <= val (fst p) <= xhi /\ ylo <= val (snd p) <= yhi) -> - M <= xlo -> xhi <= M -> - M <= ylo -> yhi <= M ->
    exists r, boundsRectangle b = Ok r /\ let e := 10 * ulp1 * M + 32 * tiny in
      xlo - e <= val (left r) /\ val (right r) <= xhi + e /\ ylo - e <= val (bottom r) /\ val (MBounds.top r) <= yhi + e /\
      fin (left r) /\ fin (right r) /\ fin (bottom r) /\ fin (MBounds.top r).
  Proof.
    intros L A LM I X1 X2 Y1 Y2. destruct (box_in b M xlo xhi ylo yhi L A LM I X1 X2 Y1 Y2) as (r & E & (F1 & L1 & _) & (F2 & _ & R1) & (F3 & _ & T1) & (F4 & B1 & _)).
    exists r. split; [exact E|]. cbv zeta. unfold evalErr in *. repeat split; auto.
  Qed.
  Theorem curves_end49 (thr : b64) (M : R) (c1 c2 : list (bezier b64)) (fuel : nat) :
    Forall (fun c => (length (cps c) = 3 \/ length (cps c) = 4)%nat /\ Forall (sized M) (cps c)) c1 ->
    Forall (fun c => (length (cps c) = 3 \/ length (cps c) = 4)%nat /\ Forall (sized M) (cps c)) c2 -> M <= 32768 ->
    fin thr -> M / 2 ^ 43 <= val thr -> / 2 ^ 1000 <= val thr -> (49 <= fuel)%nat ->
    exists res, curveIntersects fuel thr c1 c2 = Ok res.
  Proof.
    intros A1 A2 LM Ft T1 T2 F. apply (curves_endF thr M c1 c2 48 fuel); auto.
    assert (0 < / 2 ^ 1000) by (apply Rinv_0_lt_compat, pow_lt; lra).
    replace (2 ^ 48) with (2 ^ 43 * 32) by ring. assert (E : M = 2 ^ 43 * (M / 2 ^ 43)) by (field; lra). lra.
  Qed.
  Theorem fine_diverges (thr : b64) : fin thr -> val thr <= / 2 ^ 37 ->
    exists c1 c2, length (cps c1) = 3%nat /\ length (cps c2) = 3%nat /\ Forall (sized 16385) (cps c1) /\ Forall (sized 16385) (cps c2) /\
      forall fuel, curveIntersects fuel thr [c1] [c2] = Err RecursionError.
  Proof.
    intros F T. exists (stuck (bofZ 0) (bofZ 1)), (stuck (bofZ 0) (bofZ 1)). split; [reflexivity|]. split; [reflexivity|].
    assert (S : Forall (sized 16385) (cps (stuck (bofZ 0) (bofZ 1)))).
    { destruct (val_int 16384) as [Fl Vl]; [lia|]. destruct (dy_int (bofZ 1) 1) as [D _]. specialize (D (int_lit 1 ltac:(lia))).
      assert (Hh : fin highF /\ val highF = 16384 + / 2 ^ 38).
      { destruct (val_int 1) as [F1 V1]; [lia|]. destruct (val_int (2 ^ 38)) as [F2 V2]; [lia|].
        destruct (div_fl (bofZ 1) (bofZ (2 ^ 38)) F1) as [Fq Vq]; [rewrite V2; apply IZR_neq; lia | |].
        - rewrite V1, V2. destruct (fl_dy 38 1) as [E1 E2]; [lia | lia|]. replace (1 / IZR (2 ^ 38)) with (IZR 1 * / 2 ^ 38) by (change (2 ^ 38)%Z with 274877906944%Z; lra). rewrite E1. exact E2.
        - rewrite V1, V2 in Vq. destruct (fl_dy 38 1) as [E1 E2]; [lia | lia|].
          replace (1 / IZR (2 ^ 38)) with (IZR 1 * / 2 ^ 38) in Vq by (change (2 ^ 38)%Z with 274877906944%Z; lra). rewrite E1 in Vq.
          destruct (fl_dy 38 (16384 * 2 ^ 38 + 1)) as [E3 E4]; [lia | lia|].
          assert (Su : val (bofZ 16384) + val (nquot (bofZ 1) (bofZ (2 ^ 38))) = IZR (16384 * 2 ^ 38 + 1) * / 2 ^ 38).
          { rewrite Vl, Vq. change (16384 * 2 ^ 38 + 1)%Z with 4503599627370497%Z. lra. }
          destruct (plus_fl (bofZ 16384) (nquot (bofZ 1) (bofZ (2 ^ 38))) Fl Fq) as [Fs Vs]; [rewrite Su, E3; exact E4|].
          split; [exact Fs|]. unfold highF. rewrite Vs, Su, E3. change (16384 * 2 ^ 38 + 1)%Z with 4503599627370497%Z. lra. }
      destruct Hh as [Fh Vh]. assert (Q : / 2 ^ 38 <= 1) by lra. assert (Q0 : 0 < / 2 ^ 38) by (apply Rinv_0_lt_compat; lra).
      unfold stuck, lowF. cbn [cps]. repeat (apply Forall_cons; [split; [|split; [|split]]; cbn [fst snd]; try assumption; rewrite ?Vl, ?Vh; apply Rabs_le; lra|]). apply Forall_nil. }
    split; [exact S|]. split; [exact S|]. intros fuel. unfold curveIntersects. cbn [list_prod map app filterM fst snd].
    assert (O : overlaps (stuck (bofZ 0) (bofZ 1)) (stuck (bofZ 0) (bofZ 1)) = Ok true) by (vm_compute; reflexivity).
    rewrite O. cbn [bind mapM fst snd].
    destruct (stuck_forever thr F T fuel (bofZ 0) (bofZ 1) (bofZ 0) (bofZ 1)) as [_ E]. rewrite E. reflexivity.
  Qed.
End Whole.
Theorem missed_all sn cs ac at2 hy pw pi r15 : exists c1 c2 : bezier b64,
  length (cps c1) = 4%nat /\ length (cps c2) = 3%nat /\ Forall (sized 3) (cps c1) /\ Forall (sized 3) (cps c2) /\
  (exists s, 0 <= s <= 1 /\ curve (map vpt (cps c1)) s = curve (map vpt (cps c2)) s) /\
  forall fuel thr, @curveIntersects _ _ (FTrig sn cs ac at2 hy pw pi r15) fuel thr [c1] [c2] = Ok [].
Proof.
  exists thirds, level. destruct thirds_sized as [A B]. split; [reflexivity|]. split; [reflexivity|]. split; [exact A|]. split; [exact B|]. apply missed.
Qed.
Theorem invented_all sn cs ac at2 hy pw pi r15 : exists (c1 c2 : bezier b64) (thr h : b64),
  length (cps c1) = 4%nat /\ length (cps c2) = 3%nat /\ Forall (sized 21) (cps c1) /\ Forall (sized 21) (cps c2) /\ fin thr /\ val thr = / 2 /\ fin h /\ val h = / 2 /\
  (forall f, @curveIntersects _ _ (FTrig sn cs ac at2 hy pw pi r15) (3 + f) thr [c1] [c2] = Ok [(h, h)]) /\
  15 < snd (curve (map vpt (cps c1)) (val h)) - snd (curve (map vpt (cps c2)) (val h)).
Proof.
  destruct steep_sized as [A B]. destruct half_val as [Fh Vh]. destruct (invented sn cs ac at2 hy pw pi r15) as (h & F & V & I & D).
  exists steep, low, (quo 1 2), h. split; [reflexivity|]. split; [reflexivity|]. split; [exact A|]. split; [exact B|]. split; [exact Fh|]. split; [exact Vh|].
  split; [exact F|]. split; [exact V|]. split; [exact I|]. rewrite V. exact D.
Qed.
