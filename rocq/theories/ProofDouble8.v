(** reduce() in binary64: it ends, and its pieces tile the curve up to rounding. *)
From Coq Require Import List ZArith Bool Reals Lra Lia Psatz Sorting.Sorted.
From Flocq Require Import Core BinarySingleNaN Plus_error Relative.
From Verif Require Import Py Inst InstFloat SpecGeom SpecFit SpecBezier SpecCurve SpecDouble SpecDouble2 MTransform MBounds MBezUtil MPathUtil MBezier
  ProofBezier ProofBezier2 ProofDouble ProofDouble2 ProofDouble3 ProofDouble4 ProofDouble5 ProofDouble6 ProofDouble7.
From Verif Require ProofInter ProofReduce.
Import ListNotations.
Local Open Scope R_scope.
#[local] Existing Instance InstFloat.prec_gt_0.
#[local] Existing Instance InstFloat.prec_lt_emax.

(** ** Computations that cannot run out of fuel *)
Definition nf {A} (x : res A) : Prop := match x with Err OutOfFuel => False | Err RecursionError => False | _ => True end.
Lemma nf_bind {A B} (x : res A) (f : A -> res B) : nf x -> (forall a, x = Ok a -> nf (f a)) -> nf (bind x f).
Proof. destruct x as [a|e]; cbn [bind]; intros H K; [exact (K a eq_refl) | exact H]. Qed.
Lemma nf_ok {A} (a : A) : nf (Ok a).
Proof. exact I. Qed.
Lemma nf_idx {A} (l : list A) i : nf (idx l i).
Proof. unfold idx. destruct (nth_error l i); exact I. Qed.
Section Generic.
  Context {T : Type} {N : NumOps T}.
  Lemma nf_ndiv (a b : T) : nf (ndiv a b).
  Proof. unfold ndiv. destruct (neqb b (nofZ 0)); exact I. Qed.
  Lemma nf_bmap (a b c d e : T) : nf (bmap a b c d e).
  Proof. unfold bmap. apply nf_bind; [apply nf_ndiv | intros; apply nf_ok]. Qed.
  Lemma nf_newBezier (p : list (point T)) : nf (newBezier p).
  Proof.
    unfold newBezier. apply nf_bind; [|intros; apply nf_ok]. unfold computeDirection.
    repeat match goal with
      | |- nf (bind _ _) => apply nf_bind; [apply nf_idx | intros]
      | |- nf (if ?c then _ else _) => destruct c
      end; apply nf_ok.
  Qed.
  Lemma nf_split1 (b : bezier T) t : nf (split1 b t).
  Proof.
    unfold split1. apply nf_bind.
    - destruct (Nat.eqb (order b) 2); repeat (apply nf_bind; [first [apply nf_idx | apply nf_newBezier] | intros]); apply nf_ok.
    - intros [l r] _. repeat (apply nf_bind; [apply nf_bmap | intros]). apply nf_ok.
  Qed.
  Lemma nf_split2 (b : bezier T) t1 t2 : nf (split2curve b t1 t2).
  Proof.
    unfold split2curve, split2. apply nf_bind; [|intros [] _; exact I].
    destruct (_ && _)%bool; [apply nf_bind; [apply nf_split1 | intros [[] ] _; apply nf_ok]|].
    destruct (neqb t2 (nofZ 1)); [apply nf_bind; [apply nf_split1 | intros [[] ] _; apply nf_ok]|].
    apply nf_bind; [apply nf_split1 | intros [[] ] _]. destruct (neqb t2 (nofZ 0)); [apply nf_ok|].
    apply nf_bind; [apply nf_bmap | intros]. apply nf_bind; [apply nf_split1 | intros [[] ] _; apply nf_ok].
  Qed.
  Context {TO : TrigOps T}.
  Lemma nf_normal (b : bezier T) t : nf (normal b t).
  Proof.
    unfold normal. apply nf_bind.
    - unfold derivative. repeat (apply nf_bind; [apply nf_idx | intros]). apply nf_bind; [|intros [[[] ]] _; apply nf_ok].
      destruct (Nat.eqb (order b) 2); [apply nf_ok | apply nf_bind; [apply nf_idx | intros; apply nf_ok]].
    - intros [dx dy] _. destruct (bsqrt _); [|exact I]. repeat (apply nf_bind; [apply nf_ndiv | intros]). apply nf_ok.
  Qed.
  Lemma nf_simple (b : bezier T) : nf (simple b).
  Proof.
    unfold simple. apply nf_bind.
    - destruct (Nat.eqb (order b) 3); [|apply nf_ok]. repeat (apply nf_bind; [apply nf_idx | intros]). apply nf_ok.
    - intros [] _; [apply nf_ok|]. repeat (apply nf_bind; [apply nf_normal | intros]). apply nf_bind; [unfold pyacos; destruct (_ || _)%bool; exact I | intros; apply nf_ok].
  Qed.
  Lemma nf_extrema (b : bezier T) : nf (extrema b).
  Proof.
    unfold extrema, extremaDim.
    repeat match goal with
      | |- nf (bind _ _) => apply nf_bind; [|intros]
      | |- nf (if ?c then _ else _) => destruct c
      | |- nf (idx _ _) => apply nf_idx
      | |- nf (Ok _) => apply nf_ok
      end.
  Qed.
  Lemma nf_pass1 (b : bezier T) : forall ts t, nf (reducePass1 b t ts).
  Proof.
    induction ts as [|u ts IH]; intros t; cbn [reducePass1]; [apply nf_ok|]. apply nf_bind; [apply nf_split2 | intros]. apply nf_bind; [apply IH | intros; apply nf_ok].
  Qed.
End Generic.

(** ** The loop variables *)
Definition sg : R := 999 / 100000.
Lemma step_val : fin (rstep : b64) /\ Rabs (val rstep - / 100) <= / 10000000.
Proof.
  unfold rstep. change (nlit 1 100) with (nquot (bofZ 1) (bofZ 100)). destruct (val_int 1) as [F1 V1]; [lia|]. destruct (val_int 100) as [F2 V2]; [lia|].
  pose proof ulp1_pos. pose proof tiny_pos. pose proof ulp1_small. pose proof tiny_small. pose proof top_1000000.
  assert (B : Rabs (1 / 100) <= / 100) by (rewrite Rabs_pos_eq; lra). pose proof (fl_bound _ _ B). pose proof (fl_size _ _ B).
  destruct (div_fl (bofZ 1) (bofZ 100) F1) as [F V]; [rewrite V2; lra | rewrite V1, V2; lra|]. split; [exact F|]. rewrite V, V1, V2.
  replace (fl (1 / 100) - / 100) with (fl (1 / 100) - 1 / 100) by lra. lra.
Qed.
Lemma add_step (t : b64) : fin t -> 0 <= val t <= 1 -> fin (nadd t rstep) /\ val t + sg <= val (nadd t rstep) <= val t + 101 / 10000.
Proof.
  intros F T. destruct step_val as [Fs Vs]. apply Rabs_le_inv in Vs.
  pose proof ulp1_pos. pose proof tiny_pos. pose proof ulp1_small. pose proof tiny_small. pose proof top_1000000.
  assert (B : Rabs (val t + val rstep) <= 2) by (rewrite Rabs_pos_eq; lra). pose proof (fl_bound _ _ B) as E. pose proof (fl_size _ _ B).
  destruct (plus_fl t rstep F Fs) as [Fa Va]; [lra|]. split; [exact Fa|]. rewrite Va. apply Rabs_le_inv in E. unfold sg. lra.
Qed.
Lemma sub_step (t : b64) : fin t -> 0 <= val t <= 1 -> fin (nsub t rstep) /\ val t - 101 / 10000 <= val (nsub t rstep) <= val t - sg.
Proof.
  intros F T. destruct step_val as [Fs Vs]. apply Rabs_le_inv in Vs.
  pose proof ulp1_pos. pose proof tiny_pos. pose proof ulp1_small. pose proof tiny_small. pose proof top_1000000.
  assert (B : Rabs (val t - val rstep) <= 2) by (apply Rabs_le; lra). pose proof (fl_bound _ _ B) as E. pose proof (fl_size _ _ B).
  destruct (minus_fl t rstep F Fs) as [Fa Va]; [lra|]. split; [exact Fa|]. rewrite Va. apply Rabs_le_inv in E. unfold sg. lra.
Qed.
(** The test abs(t1 - t2) < step. *)
Lemma abs_val (x : b64) : fin x -> fin (nabs x) /\ val (nabs x) = Rabs (val x).
Proof.
  intros F. destruct x as [s|s| |s m e B]; try discriminate F; (split; [reflexivity|]); unfold val; cbn.
  - now rewrite Rabs_R0.
  - unfold SpecDouble.val. rewrite <- F2R_Zabs. destruct s; reflexivity.
Qed.
Lemma gap_test (t1 t2 : b64) : fin t1 -> fin t2 -> 0 <= val t1 <= 1 -> -1 <= val t2 <= 1 -> nltb (nabs (nsub t1 t2)) rstep = false -> sg <= Rabs (val t1 - val t2).
Proof.
  intros F1 F2 T1 T2 H. destruct step_val as [Fs Vs]. apply Rabs_le_inv in Vs.
  pose proof ulp1_pos. pose proof tiny_pos. pose proof ulp1_small. pose proof tiny_small. pose proof top_1000000.
  assert (B : Rabs (val t1 - val t2) <= 2) by (apply Rabs_le; lra). pose proof (fl_bound _ _ B) as E. pose proof (fl_size _ _ B).
  destruct (minus_fl t1 t2 F1 F2) as [Fa Va]; [lra|]. destruct (abs_val _ Fa) as [Fb Vb]. apply ltb_val_false in H; auto. rewrite Vb, Va in H.
  apply Rabs_le_inv in E. unfold sg. unfold Rabs in *. repeat destruct (Rcase_abs _); lra.
Qed.

Lemma gap_near (t1 t2 : b64) : fin t1 -> fin t2 -> 0 <= val t1 <= 1 -> -1 <= val t2 <= 1 -> nltb (nabs (nsub t1 t2)) rstep = true -> Rabs (val t1 - val t2) <= 101 / 10000.
Proof.
  intros F1 F2 T1 T2 H. destruct step_val as [Fs Vs]. apply Rabs_le_inv in Vs.
  pose proof ulp1_pos. pose proof tiny_pos. pose proof ulp1_small. pose proof tiny_small. pose proof top_1000000.
  assert (B : Rabs (val t1 - val t2) <= 2) by (apply Rabs_le; lra). pose proof (fl_bound _ _ B) as E. pose proof (fl_size _ _ B).
  destruct (minus_fl t1 t2 F1 F2) as [Fa Va]; [lra|]. destruct (abs_val _ Fa) as [Fb Vb]. apply ltb_val in H; auto. rewrite Vb, Va in H.
  apply Rabs_le_inv in E. unfold Rabs in *. repeat destruct (Rcase_abs _); lra.
Qed.

Section Loop.
  Context {TO : TrigOps b64}.
  Lemma one_le (t : b64) : fin t -> nleb t (nofZ 1) = true <-> val t <= 1.
  Proof. intros F. destruct (val_int 1) as [F1 V1]; [lia|]. change (nofZ 1 : b64) with (bofZ 1). rewrite leb_val by auto. now rewrite V1. Qed.
  Lemma inner_break (p1 : bezier b64) : forall f t1 t2 t c, fin t1 -> fin t2 -> 0 <= val t1 -> val t1 + sg <= val t2 ->
    reduceInner f p1 t1 t2 = Ok (RBreak t c) -> fin t /\ val t1 + sg <= val t <= 1 - sg /\
      exists c0 a z, split2curve p1 t1 t = Ok c0 /\ bmap t1 (nofZ 0) (nofZ 1) (bt1 p1) (bt2 p1) = Ok a /\ bmap t (nofZ 0) (nofZ 1) (bt1 p1) (bt2 p1) = Ok z /\ c = withInterval c0 a z.
  Proof.
    induction f as [|f IH]; intros t1 t2 t c F1 F2 T1 T12; cbn [reduceInner]; [discriminate|].
    destruct (nleb t2 (nofZ 1)) eqn:L; [|discriminate]. apply (one_le t2 F2) in L. assert (Sg : 0 < sg) by (unfold sg; lra).
    destruct (split2curve p1 t1 t2) as [s|e]; [|discriminate]. cbn [bind]. destruct (simple s) as [[]|e]; cbn [bind]; [| |discriminate].
    - destruct (add_step t2 F2 ltac:(lra)) as [Fa Va]. apply IH; auto; lra.
    - destruct (sub_step t2 F2 ltac:(lra)) as [Fb Vb]. revert Fb Vb. generalize (nsub t2 rstep). intros tb Fb Vb. destruct (nltb _ _) eqn:G; [discriminate|].
      apply gap_test in G; auto; [|lra|unfold sg in *; lra].
      intros E. apply bind_Ok in E as (c0 & E1 & E). apply bind_Ok in E as (a & E2 & E). apply bind_Ok in E as (z & E3 & E). injection E as <- <-.
      split; [exact Fb|]. split; [|exists c0, a, z; auto]. unfold Rabs in G. unfold sg in *. destruct (Rcase_abs _); lra.
  Qed.
  Lemma inner_none (p1 : bezier b64) : forall f t1 t2, fin t1 -> fin t2 -> 0 <= val t1 -> val t1 + sg <= val t2 -> reduceInner f p1 t1 t2 = Ok RNone ->
    exists t c, fin t /\ val t1 < val t <= 1 /\ val t - val t1 <= 202 / 10000 /\ split2curve p1 t1 t = Ok c /\ simple c = Ok false.
  Proof.
    induction f as [|f IH]; intros t1 t2 F1 F2 T1 T12; cbn [reduceInner]; [discriminate|].
    destruct (nleb t2 (nofZ 1)) eqn:L; [|discriminate]. apply (one_le t2 F2) in L. assert (Sg : 0 < sg) by (unfold sg; lra).
    destruct (split2curve p1 t1 t2) as [s|e] eqn:S; [|discriminate]. cbn [bind]. destruct (simple s) as [[]|e] eqn:Si; cbn [bind]; [| |discriminate].
    - destruct (add_step t2 F2 ltac:(lra)) as [Fa Va]. apply IH; auto; lra.
    - destruct (sub_step t2 F2 ltac:(lra)) as [Fb Vb]. revert Fb Vb. generalize (nsub t2 rstep). intros tb Fb Vb. destruct (nltb _ _) eqn:G.
      + intros _. apply gap_near in G; auto; [|lra|unfold sg in *; lra]. apply Rabs_le_inv in G. exists t2, s. split; [exact F2|]. split; [lra|]. split; [lra|]. auto.
      + intros E. apply bind_Ok in E as (c0 & E1 & E). apply bind_Ok in E as (a & E2 & E). apply bind_Ok in E as (z & E3 & E). discriminate E.
  Qed.
  Lemma inner_end (p1 : bezier b64) : forall f t1 t2, fin t1 -> fin t2 -> 0 <= val t1 -> val t1 + sg <= val t2 -> (1 <= f)%nat -> 1 - val t2 < (INR f - 1) * sg ->
    nf (reduceInner f p1 t1 t2).
  Proof.
    induction f as [|f IH]; intros t1 t2 F1 F2 T1 T12 T2 H.
    - exfalso. lia.
    - cbn [reduceInner]. destruct (nleb t2 (nofZ 1)) eqn:L; [|apply nf_ok]. apply (one_le t2 F2) in L. rewrite S_INR in H.
      assert (Sg : 0 < sg) by (unfold sg; lra).
      apply nf_bind; [apply nf_split2 | intros s _]. apply nf_bind; [apply nf_simple | intros [] _].
      + destruct (add_step t2 F2 ltac:(lra)) as [Fa Va]. apply IH; auto; try lra.
        destruct f as [|f]; [|lia]. exfalso. cbn [INR] in H. lra.
      + cbv zeta. destruct (nltb _ _) eqn:G; [apply nf_ok|]. apply nf_bind; [apply nf_split2 | intros]. repeat (apply nf_bind; [apply nf_bmap | intros]). apply nf_ok.
  Qed.
  Lemma outer_end (p1 : bezier b64) : forall f t1 acc, fin t1 -> 0 <= val t1 <= 1 -> 1 - val t1 < INR f * sg -> nf (reduceOuter f p1 t1 t1 acc).
  Proof.
    induction f as [|f IH]; intros t1 acc F1 T1 H.
    - exfalso. cbn [INR] in H. lra.
    - cbn [reduceOuter]. destruct (nleb t1 (nofZ 1)); [|apply nf_ok]. destruct (add_step t1 F1 T1) as [Fa Va].
      apply nf_bind; [apply inner_end; auto; try lra; lia|].
      intros [|t c|] E; try apply nf_ok. apply inner_break in E as (Ft & Vt & _); auto; try lra. rewrite S_INR in H. unfold sg in *. apply IH; auto; lra.
  Qed.
  Lemma zero_val : fin (nofZ 0 : b64) /\ val (nofZ 0) = 0.
  Proof. apply (val_int 0). lia. Qed.
  Lemma enough fuel : (102 <= fuel)%nat -> 1 < INR fuel * sg.
  Proof.
    intros F. apply le_INR in F. replace (INR 102) with 102 in F by (rewrite INR_IZR_INZ; reflexivity). unfold sg. lra.
  Qed.
  Theorem reduce_ends (b : bezier b64) (fuel : nat) : (102 <= fuel)%nat -> nf (reduce fuel b).
  Proof.
    intros F. unfold reduce. apply nf_bind; [apply nf_extrema | intros]. apply nf_bind; [apply nf_idx | intros]. apply nf_bind; [apply nf_pass1 | intros ps _].
    generalize (@nil (bezier b64)). induction ps as [|p1 ps IH]; intros acc; cbn [reducePass2]; [apply nf_ok|].
    destruct zero_val as [F0 V0]. pose proof (enough fuel F).
    apply nf_bind; [apply outer_end; auto; rewrite V0; lra|]. intros [[t segs]|] _; [|apply nf_ok].
    apply nf_bind; [|intros; apply IH]. destruct (nltb t (nofZ 1)); [|apply nf_ok].
    apply nf_bind; [apply nf_split2 | intros]. apply nf_bind; [apply nf_bmap | intros; apply nf_ok].
  Qed.
End Loop.

(** ** Differences of doubles have a relative error only *)
Lemma fl_sub_rel (x y : b64) : exists e, Rabs e <= ulp1 /\ fl (val x - val y) = (val x - val y) * (1 + e).
Proof.
  destruct (FLT_plus_error_N_ex radix2 (SpecFloat.emin prec emax) prec (fun z => negb (Z.even z)) (val x) (- val y)) as (e & He & E);
    [apply val_format | apply generic_format_opp, val_format|].
  exists e. split; [|exact E]. eapply Rle_trans; [exact He|]. eapply Rle_trans; [apply u_rod1pu_ro_le_u_ro|].
  unfold u_ro. rewrite ulp1_bpow. change (bpow radix2 (-53)) with (bpow radix2 (-1 + (- prec + 1))). rewrite (bpow_plus radix2 (-1)). change (bpow radix2 (-1)) with (/ 2).
  apply Rle_refl.
Qed.
Lemma one_val : fin (nofZ 1 : b64) /\ val (nofZ 1) = 1.
Proof. apply (val_int 1). lia. Qed.
Lemma zero_val' : fin (nofZ 0 : b64) /\ val (nofZ 0) = 0.
Proof. apply (val_int 0). lia. Qed.

(** ** The second parameter of split, rescaled *)
Lemma rel_time (t1 t2 : b64) : fin t1 -> fin t2 -> 0 <= val t1 -> val t1 < val t2 -> val t2 <= 1 ->
  exists q, bmap t2 t1 (nofZ 1) (nofZ 0) (nofZ 1) = Ok q /\ fin q /\ 0 <= val q <= 1 /\
    Rabs ((1 - val t1) * val q - (val t2 - val t1)) <= 31 / 10 * ulp1.
Proof.
  intros F1 F2 P L B. destruct one_val as [Fo Vo], zero_val' as [Fz Vz].
  pose proof ulp1_pos as Up. pose proof tiny_pos. pose proof ulp1_small as Us. pose proof tiny_small. pose proof top_1000000 as T6.
  destruct (fl_sub_rel t2 t1) as (e1 & E1 & D1). destruct (fl_sub_rel (nofZ 1) t1) as (e2 & E2 & D2). rewrite Vo in D2.
  apply Rabs_le_inv in E1, E2.
  set (d := val t2 - val t1) in *. set (w := 1 - val t1) in *. assert (Dw : 0 < d <= w) by (unfold d, w; lra). assert (W1 : w <= 1) by (unfold w; lra).
  assert (Bd : 0 < d * (1 + e1) <= 2) by nra. assert (Bw : 0 < w * (1 + e2) <= 2) by nra.
  destruct (minus_fl t2 t1 F2 F1) as [Fd Vd]; [fold d; rewrite D1, Rabs_pos_eq; lra|].
  destruct (minus_fl (nofZ 1) t1 Fo F1) as [Fw Vw]; [rewrite Vo; fold w; rewrite D2, Rabs_pos_eq; lra|]. rewrite Vo in Vw. fold d in Vd. fold w in Vw. 
  assert (Mono : val (nsub t2 t1) <= val (nsub (nofZ 1) t1)) by (rewrite Vd, Vw; apply fl_mono; lra).
  rewrite D1 in Vd. rewrite D2 in Vw.
  set (D := val (nsub t2 t1)) in *. set (W := val (nsub (nofZ 1) t1)) in *.
  assert (Q : 0 < D / W <= 1). { split; [apply Rdiv_lt_0_compat; lra|]. apply Rmult_le_reg_r with W; [lra|]. unfold Rdiv. rewrite Rmult_assoc, Rinv_l by lra. lra. }
  assert (F01 : 0 <= fl (D / W) <= 1).
  { split; [|rewrite <- Vo, <- (fl_val (nofZ 1)); apply fl_mono; rewrite Vo; lra]. rewrite <- Vz, <- (fl_val (nofZ 0)). apply fl_mono. rewrite Vz. lra. }
  destruct (div_fl (nsub t2 t1) (nsub (nofZ 1) t1) Fd) as [Fq Vq]; [fold W; lra | fold D W; rewrite Rabs_pos_eq; lra|]. fold D W in Vq.
  unfold bmap, ndiv. rewrite (neqb_val (nsub (nofZ 1) t1) (nofZ 0)) by (auto; fold W; rewrite Vz; lra). cbn [bind].
  set (q := nquot (nsub t2 t1) (nsub (nofZ 1) t1)) in *.
  (* the surrounding operations are exact *)
  assert (S1 : fin (nsub (nofZ 1) (nofZ 0) : b64) /\ val (nsub (nofZ 1) (nofZ 0)) = 1) by (split; [reflexivity|]; apply (val_int 1); lia).
  destruct S1 as [Fs Vs].
  destruct (mult_fl (nsub (nofZ 1) (nofZ 0)) q Fs Fq) as [Fm Vm]; [rewrite Vs, Rmult_1_l, fl_val, Vq, Rabs_pos_eq; lra|].
  rewrite Vs, Rmult_1_l, fl_val in Vm.
  destruct (plus_fl (nofZ 0) (nmul (nsub (nofZ 1) (nofZ 0)) q) Fz Fm) as [Fp Vp]; [rewrite Vz, Vm, Rplus_0_l, fl_val, Vq, Rabs_pos_eq; lra|].
  rewrite Vz, Vm, Rplus_0_l, fl_val, Vq in Vp.
  eexists. split; [reflexivity|]. split; [exact Fp|]. rewrite Vp. split; [exact F01|].
  pose proof (fl_err (D / W)) as E. rewrite (Rabs_pos_eq (D / W)) in E by lra. apply Rabs_le_inv in E.
  assert (X : w * (D / W) = d * ((1 + e1) / (1 + e2))). { rewrite Vd, Vw. field. split; lra. }
  assert (Y : 1 - 201 / 100 * ulp1 <= (1 + e1) / (1 + e2) <= 1 + 201 / 100 * ulp1).
  { assert (I : (1 + e1) / (1 + e2) * (1 + e2) = 1 + e1) by (field; lra). split; nra. }
  assert (wD : 0 <= w * (D / W) <= w) by nra.
  set (z := fl (D / W)) in *. set (x := D / W) in *. set (y := (1 + e1) / (1 + e2)) in *.
  assert (Zx : - (ulp1 * (w * x) + w * tiny) <= w * z - w * x <= ulp1 * (w * x) + w * tiny) by (split; nra).
  assert (ulp1 * (w * x) <= ulp1) by nra. assert (w * tiny <= tiny) by nra.
  assert (Dy : - (201 / 100 * ulp1) <= d * y - d <= 201 / 100 * ulp1).
  { set (c := 201 / 100 * ulp1) in *. assert (C : 0 <= c) by (unfold c; lra). clear - Dw W1 Y C. split; nra. }
  apply Rabs_le. lra.
Qed.

(** ** Parts of a curve *)
Lemma lip_sized (p : list (point b64)) M s t : (length p = 3 \/ length p = 4)%nat -> Forall (sized M) p -> 0 <= s <= 1 -> 0 <= t <= 1 ->
  Rabs (fst (curve (map vpt p) t) - fst (curve (map vpt p) s)) <= 18 * M * Rabs (t - s) /\
  Rabs (snd (curve (map vpt p) t) - snd (curve (map vpt p) s)) <= 18 * M * Rabs (t - s).
Proof.
  intros L A S T.
  assert (G : forall x y, Rabs x <= M -> Rabs y <= M -> Rabs (x - y) <= 2 * M) by (intros x y X Y; apply Rabs_le_inv in X, Y; apply Rabs_le; lra).
  pose proof (Rabs_pos (t - s)) as P.
  destruct p as [|p0 [|p1 [|p2 [|p3 [|p4 r]]]]]; try (simpl in L; lia); cbn [map].
  - inversion A as [|? ? (_ & _ & X0 & Y0) A1]. inversion A1 as [|? ? (_ & _ & X1 & Y1) A2]. inversion A2 as [|? ? (_ & _ & X2 & Y2) _]. subst.
    unfold vpt. rewrite !curve3. cbn [fst snd]. assert (0 <= M) by (pose proof (Rabs_pos (val (fst p0))); lra).
    split; (eapply Rle_trans; [apply ProofInter.lip2; assumption|]); apply Rmult_le_compat_r; auto.
    + pose proof (G _ _ X1 X0). pose proof (G _ _ X2 X1). lra.
    + pose proof (G _ _ Y1 Y0). pose proof (G _ _ Y2 Y1). lra.
  - inversion A as [|? ? (_ & _ & X0 & Y0) A1]. inversion A1 as [|? ? (_ & _ & X1 & Y1) A2]. inversion A2 as [|? ? (_ & _ & X2 & Y2) A3]. inversion A3 as [|? ? (_ & _ & X3 & Y3) _]. subst.
    unfold vpt. rewrite !curve4. cbn [fst snd].
    split; (eapply Rle_trans; [apply ProofInter.lip3; assumption|]); apply Rmult_le_compat_r; auto.
    + pose proof (G _ _ X1 X0). pose proof (G _ _ X2 X1). pose proof (G _ _ X3 X2). lra.
    + pose proof (G _ _ Y1 Y0). pose proof (G _ _ Y2 Y1). pose proof (G _ _ Y3 Y2). lra.
Qed.
Lemma follows_trans e1 e2 o p c x y u v : follows e1 o p x y -> follows e2 p c u v -> 0 <= u -> u <= v -> v <= 1 ->
  follows (e1 + e2) o c (x + u * (y - x)) (x + v * (y - x)).
Proof.
  intros F1 F2 U UV V s S. destruct (F2 s S) as [A1 B1]. destruct (F1 (u + s * (v - u)) ltac:(nra)) as [A2 B2].
  replace (x + (u + s * (v - u)) * (y - x)) with (x + u * (y - x) + s * (x + v * (y - x) - (x + u * (y - x)))) in A2, B2 by ring.
  cbv zeta. set (q := curve (map vpt o) _) in *. set (m := curve (map vpt p) _) in *. set (k := curve (map vpt c) _) in *.
  split; apply Rabs_le_inv in A1, A2, B1, B2; apply Rabs_le; lra.
Qed.
Lemma sized_nonneg p M : (3 <= length p)%nat -> Forall (sized M) p -> 0 <= M.
Proof. intros L A. destruct p as [|x p]; [simpl in L; lia|]. inversion A as [|? ? (_ & _ & B & _)]. pose proof (Rabs_pos (val (fst x))). lra. Qed.
Definition partErr (M : R) : R := 98 * ulp1 * M + 31 * tiny.
Definition partSize (M : R) : R := M + (43 * ulp1 * M + 31 * tiny).
Lemma order_len (b c : bezier b64) : (length (cps b) = 3 \/ length (cps b) = 4)%nat -> order c = order b -> length (cps c) = length (cps b).
Proof. unfold order. intros L E. lia. Qed.
Lemma sized_weak M M' p : M <= M' -> Forall (sized M) p -> Forall (sized M') p.
Proof. intros L. apply Forall_impl. intros q (A & B & C & D). unfold sized. repeat split; auto; lra. Qed.
Lemma split2_near (b : bezier b64) (t1 t2 : b64) (M : R) : (length (cps b) = 3 \/ length (cps b) = 4)%nat -> Forall (sized M) (cps b) -> 17 * M <= ProofDouble.top ->
  fin t1 -> fin t2 -> 0 <= val t1 -> val t1 < val t2 -> val t2 <= 1 ->
  exists c, split2curve b t1 t2 = Ok c /\ length (cps c) = length (cps b) /\ Forall (sized (partSize M)) (cps c) /\
    follows (partErr M) (cps b) (cps c) (val t1) (val t2).
Proof.
  intros L A MT F1 F2 P Lt B. destruct one_val as [Fo Vo], zero_val' as [Fz Vz].
  pose proof (sized_nonneg (cps b) M ltac:(lia) A) as M0.
  pose proof ulp1_pos. pose proof tiny_pos. pose proof ulp1_small. pose proof tiny_small. pose proof top_1000000.
  assert (U1 : 0 <= ulp1 * M) by nra. assert (U2 : ulp1 * M <= / 1000000 * M) by (apply Rmult_le_compat_r; lra).
  set (e0 := 21 * ulp1 * M + 15 * tiny). set (M' := M + e0).
  assert (E0 : 0 <= e0) by (unfold e0; lra).
  assert (MT' : 16 * M' <= ProofDouble.top). { unfold M', e0. destruct (Rle_dec M 2); lra. }
  assert (UM : ulp1 * M' <= ulp1 * M + 21 / 1000000 * (ulp1 * M) + 15 / 1000000 * tiny).
  { unfold M', e0. replace (ulp1 * (M + (21 * ulp1 * M + 15 * tiny))) with (ulp1 * M + 21 * (ulp1 * (ulp1 * M)) + 15 * (ulp1 * tiny)) by ring.
    assert (ulp1 * (ulp1 * M) <= / 1000000 * (ulp1 * M)) by (apply Rmult_le_compat_r; lra). assert (ulp1 * tiny <= / 1000000 * tiny) by (apply Rmult_le_compat_r; lra). lra. }
  assert (W1 : M' <= partSize M) by (unfold M', e0, partSize; lra).
  assert (W2 : M' + (21 * ulp1 * M' + 15 * tiny) <= partSize M) by (assert (K : M' = M + (21 * ulp1 * M + 15 * tiny)) by reflexivity; unfold partSize; lra).
  assert (W3 : e0 <= partErr M) by (unfold e0, partErr; lra).
  assert (W4 : (21 * ulp1 * M' + 15 * tiny) + e0 + 18 * M * (31 / 10 * ulp1) <= partErr M) by (unfold partErr, e0; lra).
  unfold split2curve, split2. rewrite (neqb_val t2 (nofZ 0)) by (auto; rewrite Vz; lra). cbn [negb]. rewrite andb_true_r.
  destruct (neqb t1 (nofZ 0)) eqn:Z1.
  { apply eqb_val in Z1; auto. rewrite Vz in Z1.
    destruct (split_near_sized b t2 M L F2 ltac:(lra) A ltac:(lra)) as (l & r & h & E & Ol & _ & _ & _ & _ & Sl & _ & G).
    rewrite E. cbn [bind]. exists l. split; [reflexivity|]. split; [now apply order_len|]. split; [exact (sized_weak _ _ _ W1 Sl)|].
    intros s S. destruct (G s S) as [[X Y] _]. cbv zeta. rewrite Z1. replace (0 + s * (val t2 - 0)) with (val t2 * s) by ring. fold e0 in X, Y. split; lra. }
  destruct (neqb t2 (nofZ 1)) eqn:Z2.
  { apply eqb_val in Z2; auto. rewrite Vo in Z2.
    destruct (split_near_sized b t1 M L F1 ltac:(lra) A ltac:(lra)) as (l & r & h & E & _ & Or & _ & _ & _ & _ & Sr & G).
    rewrite E. cbn [bind]. exists r. split; [reflexivity|]. split; [now apply order_len|]. split; [exact (sized_weak _ _ _ W1 Sr)|].
    intros s S. destruct (G s S) as [_ [X Y]]. cbv zeta. rewrite Z2. replace (val t1 + s * (1 - val t1)) with (val t1 + (1 - val t1) * s) by ring. fold e0 in X, Y. split; lra. }
  destruct (split_near_sized b t1 M L F1 ltac:(lra) A ltac:(lra)) as (l & r & h & E & _ & Or & _ & _ & _ & _ & Sr & G).
  rewrite E. cbn [bind].
  assert (Lr : length (cps r) = length (cps b)) by now apply order_len.
  destruct (rel_time t1 t2 F1 F2 P Lt B) as (q & Eq & Fq & Q & Rq). rewrite Eq. cbn [bind].
  destruct (split_near_sized r q M' ltac:(rewrite Lr; exact L) Fq Q Sr MT') as (l' & r' & h' & E' & Ol & _ & _ & _ & _ & Sl & _ & G').
  rewrite E'. cbn [bind]. exists l'. split; [reflexivity|]. split; [rewrite (order_len r l'); auto; rewrite Lr; exact L|]. split; [exact (sized_weak _ _ _ W2 Sl)|].
  intros s S. destruct (G' s S) as [[X1 Y1] _]. destruct (G (val q * s) ltac:(nra)) as [_ [X2 Y2]].
  set (v := val t1 + (1 - val t1) * (val q * s)) in *. set (v' := val t1 + s * (val t2 - val t1)).
  assert (V : 0 <= v <= 1).
  { assert (0 <= val q * s <= 1) by (clear - Q S; nra). unfold v. set (k := val q * s) in *. clear - H4 P Lt B. nra. }
  assert (V' : 0 <= v' <= 1) by (unfold v'; clear - S P Lt B; nra).
  destruct (lip_sized (cps b) M v' v L A V' V) as [X3 Y3].
  assert (Dv : Rabs (v - v') <= 31 / 10 * ulp1).
  { replace (v - v') with (s * ((1 - val t1) * val q - (val t2 - val t1))) by (unfold v, v'; ring). rewrite Rabs_mult, (Rabs_pos_eq s) by lra.
    pose proof (Rabs_pos ((1 - val t1) * val q - (val t2 - val t1))). nra. }
  assert (Dl : 18 * M * Rabs (v - v') <= 18 * M * (31 / 10 * ulp1)) by (apply Rmult_le_compat_l; lra).
  fold e0 in X2, Y2. cbv zeta. set (a := curve (map vpt (cps l')) s) in *. set (m := curve (map vpt (cps r)) _) in *. set (k := curve (map vpt (cps b)) v) in *. set (k' := curve (map vpt (cps b)) v') in *.
  split; [apply Rabs_le_inv in X1, X2; assert (X4 := Rle_trans _ _ _ X3 Dl); apply Rabs_le_inv in X4 | apply Rabs_le_inv in Y1, Y2; assert (Y4 := Rle_trans _ _ _ Y3 Dl); apply Rabs_le_inv in Y4]; apply Rabs_le; lra.
Qed.

(** ** Recorded parameters *)
Lemma div_one (x : R) : x / 1 = x.
Proof. field. Qed.
Lemma bmap_near (u v t y : b64) : fin u -> fin v -> fin t -> 0 <= val u <= 1 -> 0 <= val v <= 1 -> 0 <= val t <= 1 ->
  bmap t (nofZ 0) (nofZ 1) u v = Ok y -> fin y /\ Rabs (val y - (val u + val t * (val v - val u))) <= 4 * ulp1 /\ (val t = 0 -> val y = val u).
Proof.
  intros Fu Fv Ft U V T. destruct one_val as [Fo Vo], zero_val' as [Fz Vz].
  pose proof ulp1_pos. pose proof tiny_pos. pose proof ulp1_small. pose proof tiny_small. pose proof top_1000000.
  unfold bmap, ndiv. change (neqb (nsub (nofZ 1) (nofZ 0)) (nofZ 0 : b64)) with false. cbn [bind]. intros E. apply Ok_inj in E. subst y.
  destruct (minus_fl t (nofZ 0) Ft Fz) as [F1 V1]; [rewrite Vz, Rminus_0_r, fl_val, Rabs_pos_eq; lra|]. rewrite Vz, Rminus_0_r, fl_val in V1.
  assert (S1 : val (nsub (nofZ 1) (nofZ 0) : b64) = 1) by (apply (val_int 1); lia).
  destruct (div_fl (nsub t (nofZ 0)) (nsub (nofZ 1) (nofZ 0)) F1) as [F2 V2]; [rewrite S1; lra | rewrite S1, V1, div_one, fl_val, Rabs_pos_eq; lra|].
  rewrite S1, V1, div_one, fl_val in V2. set (r := nquot (nsub t (nofZ 0)) (nsub (nofZ 1) (nofZ 0))) in *.
  assert (B1 : Rabs (val v - val u) <= 1) by (apply Rabs_le; lra). pose proof (fl_bound _ _ B1) as E1. pose proof (fl_size _ _ B1) as Z1.
  destruct (minus_fl v u Fv Fu) as [F3 V3]; [lra|]. rewrite <- V3 in E1, Z1. set (d := nsub v u) in *.
  assert (B2 : Rabs (val d * val r) <= 11 / 10). { rewrite Rabs_mult, V2, (Rabs_pos_eq (val t)) by lra. pose proof (Rabs_pos (val d)). nra. }
  pose proof (fl_bound _ _ B2) as E2. pose proof (fl_size _ _ B2) as Z2.
  destruct (mult_fl d r F3 F2) as [F4 V4]; [lra|]. rewrite <- V4 in E2, Z2. set (m := nmul d r) in *.
  apply Rabs_le_inv in E1, E2, Z1, Z2.
  rewrite V2 in E2.
  assert (Tm : - (ulp1 * 1 + tiny) <= val t * val d - val t * (val v - val u) <= ulp1 * 1 + tiny).
  { set (k := ulp1 * 1 + tiny) in *. assert (0 <= k) by (unfold k; lra). clear - E1 T H4. split; nra. }
  assert (Tv : -1 <= val t * (val v - val u) <= 1) by (clear - T U V; split; nra).
  assert (Tu : 0 <= val u + val t * (val v - val u) <= 1) by (clear - T U V; split; nra).
  assert (B3 : Rabs (val u + val m) <= 11 / 10). { apply Rabs_le. lra. }
  pose proof (fl_bound _ _ B3) as E3. pose proof (fl_size _ _ B3) as Z3.
  destruct (plus_fl u m Fu F4) as [F5 V5]; [lra|]. split; [exact F5|]. split.
  - rewrite V5. apply Rabs_le_inv in E3. apply Rabs_le. lra.
  - intros T0. assert (M0 : val m = 0). { rewrite V4, V2, T0, Rmult_0_r. rewrite <- Vz, fl_val. reflexivity. }
    rewrite V5, M0, Rplus_0_r. apply fl_val.
Qed.

(** ** Tilings *)
Lemma near_tiles_app e d o : forall l1 a x b y w z l2, near_tiles e d o a x b y l1 -> near_tiles e d o b y w z l2 -> near_tiles e d o a x w z (l1 ++ l2).
Proof.
  induction l1 as [|c l1 IH]; intros a x b y w z l2 H1 H2; cbn [app near_tiles] in *; [destruct H1; now subst|].
  destruct H1 as (v & A1 & A2 & A3 & A4 & A5 & A6 & A7 & A8 & A9). exists v. repeat (split; [assumption|]). exact (IH _ _ _ _ _ _ _ A9 H2).
Qed.
Lemma follows_weak e e' o c x y : e <= e' -> follows e o c x y -> follows e' o c x y.
Proof. intros L H s S. destruct (H s S) as [A B]. cbv zeta in *. split; lra. Qed.

Lemma near_tiles_weak e e' d o : e <= e' -> forall l a x w z, near_tiles e d o a x w z l -> near_tiles e' d o a x w z l.
Proof.
  intros Le. induction l as [|c l IH]; intros a x w z; cbn [near_tiles]; [auto|].
  intros (y & K1 & K2 & K3 & K4 & K5 & K6 & K7 & K8 & K9). exists y. split; [exact K1|]. split; [exact K2|]. split; [exact (follows_weak _ _ _ _ _ _ Le K3)|]. repeat (split; [assumption|]). now apply IH.
Qed.

Section Tile.
  Context {TO : TrigOps b64}.
  Section Piece.
    Variables (o : list (point b64)) (p1 : bezier b64) (M1 e1 : R).
    Hypotheses (Lo : (length o = 3 \/ length o = 4)%nat) (Lp : length (cps p1) = length o) (Sz : Forall (sized M1) (cps p1)) (MT : 17 * M1 <= ProofDouble.top)
      (Fa : fin (bt1 p1)) (Fb : fin (bt2 p1)) (I : 0 <= val (bt1 p1) < val (bt2 p1)) (I' : val (bt2 p1) <= 1)
      (Fo : follows e1 o (cps p1) (val (bt1 p1)) (val (bt2 p1))).
    Let X (t : b64) : R := val (bt1 p1) + val t * (val (bt2 p1) - val (bt1 p1)).
    Let A (t : b64) : R := match bmap t (nofZ 0) (nofZ 1) (bt1 p1) (bt2 p1) with Ok y => val y | Err _ => 0 end.
    Let e2 := e1 + partErr M1.
    Lemma one_piece t1 t2 c : fin t1 -> fin t2 -> 0 <= val t1 -> val t1 < val t2 -> val t2 <= 1 -> split2curve p1 t1 t2 = Ok c ->
      length (cps c) = length o /\ follows e2 o (cps c) (X t1) (X t2) /\ X t1 < X t2 /\ Forall (sized (partSize M1)) (cps c).
    Proof.
      intros F1 F2 P L B E. destruct (split2_near p1 t1 t2 M1) as (c' & E' & Lc & Sc & G); auto; [rewrite Lp; exact Lo|].
      rewrite E in E'. apply Ok_inj in E'. subst c'. split; [congruence|]. split; [apply follows_trans with (p := cps p1); auto; lra|]. split; [|exact Sc]. unfold X. clear - I L. nra.
    Qed.
    Lemma outer_near : forall f t1 acc x l, fin t1 -> 0 <= val t1 <= 1 - sg -> reduceOuter f p1 t1 t1 acc = Ok (Some (x, l)) ->
      exists segs, l = acc ++ segs /\ fin x /\ 0 <= val x <= 1 - sg /\ near_tiles e2 (4 * ulp1) o (A t1) (X t1) (A x) (X x) segs /\ Forall (fun p => Forall (sized (partSize M1)) (cps p)) segs.
    Proof.
      assert (Sg : 0 < sg < 1) by (unfold sg; lra).
      induction f as [|f IH]; intros t1 acc x l F1 T1; cbn [reduceOuter]; [discriminate|]. rewrite (proj2 (one_le t1 F1)) by lra.
      destruct (add_step t1 F1 ltac:(lra)) as [Fs Vs].
      destruct (reduceInner (S f) p1 t1 (nadd t1 rstep)) as [[|t c|]|e] eqn:E; cbn [bind]; try discriminate.
      - apply inner_break in E as (Ft & Vt & c0 & a & z & E1 & E2 & E3 & ->); auto; try lra. intros R. apply IH in R as (segs & -> & Fx & Vx & T & Zs); auto; try lra.
        exists (withInterval c0 a z :: segs). split; [rewrite <- app_assoc; reflexivity|]. split; [exact Fx|]. split; [exact Vx|].
        destruct (one_piece t1 t c0) as (Lc & G & Lt & Zc); auto; try lra.
        destruct (bmap_near (bt1 p1) (bt2 p1) t1 a) as (Fa' & Va & _); auto; try lra. destruct (bmap_near (bt1 p1) (bt2 p1) t z) as (Fz' & Vz & _); auto; try lra.
        split; [|constructor; auto]. cbn [near_tiles withInterval bt1 bt2 cps]. exists (X t). repeat (split; [assumption|]).
        assert (Az : A t = val z) by (unfold A; rewrite E3; reflexivity). rewrite <- Az. split; [unfold A; rewrite E2; reflexivity|]. split; [exact Va|]. split; [rewrite Az; exact Vz|]. exact T.
      - intros R. injection R as <- <-. exists []. rewrite app_nil_r. split; [reflexivity|]. split; [exact F1|]. split; [exact T1|]. cbn [near_tiles]. auto.
    Qed.
    Lemma outer_none : forall f t1 acc, fin t1 -> 0 <= val t1 <= 1 - sg -> reduceOuter f p1 t1 t1 acc = Ok None ->
      exists x y c, 0 <= x /\ x < y /\ y <= 1 /\ y - x <= 203 / 10000 /\ length (cps c) = length o /\ follows e2 o (cps c) x y /\ simple c = Ok false.
    Proof.
      assert (Sg : 0 < sg < 1) by (unfold sg; lra).
      induction f as [|f IH]; intros t1 acc F1 T1; cbn [reduceOuter]; [discriminate|]. rewrite (proj2 (one_le t1 F1)) by lra.
      destruct (add_step t1 F1 ltac:(lra)) as [Fs Vs].
      destruct (reduceInner (S f) p1 t1 (nadd t1 rstep)) as [[|t c|]|e] eqn:E; cbn [bind]; try discriminate.
      - intros _. apply inner_none in E as (t & c & Ft & Lt & D & E & Si); auto; try lra. destruct (one_piece t1 t c) as (Lc & G & Lx & _); auto; try lra.
        exists (X t1), (X t), c. unfold X in *. clear - T1 Lt D I I' Lc G Lx Si. split; [nra|]. split; [exact Lx|]. split; [nra|]. split; [nra|]. auto.
      - apply inner_break in E as (Ft & Vt & _); auto; try lra. intros R. apply IH in R; auto; lra.
    Qed.
    Lemma piece_near f t l pass2 r : reduceOuter f p1 (nofZ 0) (nofZ 0) [] = Ok (Some (t, l)) ->
      (if nltb t (nofZ 1) then
         bind (split2curve p1 t (nofZ 1)) (fun c => bind (bmap t (nofZ 0) (nofZ 1) (bt1 p1) (bt2 p1)) (fun a => Ok (pass2 ++ l ++ [withInterval c a (bt2 p1)])))
       else Ok (pass2 ++ l)) = Ok r ->
      exists segs, r = pass2 ++ segs /\ near_tiles e2 (4 * ulp1) o (val (bt1 p1)) (val (bt1 p1)) (val (bt2 p1)) (val (bt2 p1)) segs /\ Forall (fun p => Forall (sized (partSize M1)) (cps p)) segs.
    Proof.
      intros Ou E. assert (Sg : 0 < sg < 1) by (unfold sg; lra). destruct one_val as [F1 V1], zero_val' as [F0 V0].
      apply outer_near in Ou as (segs & -> & Ft & Vt & T & Zs); auto; [|rewrite V0; lra]. cbn [app] in *.
      rewrite (proj2 (ltb_val t (nofZ 1) Ft F1)) in E by lra.
      apply bind_Ok in E as (c & E1 & E). apply bind_Ok in E as (a & E2 & E). apply Ok_inj in E. subst r.
      exists (segs ++ [withInterval c a (bt2 p1)]). split; [reflexivity|].
      destruct (one_piece t (nofZ 1) c) as (Lc & G & Lt & Zc); auto; try lra.
      destruct (bmap_near (bt1 p1) (bt2 p1) t a) as (Fa' & Va & _); auto; try lra.
      split; [|apply Forall_app; auto]. apply near_tiles_app with (b := A t) (y := X t).
      - assert (A0 : A (nofZ 0) = val (bt1 p1)).
        { unfold A. destruct (bmap01F (nofZ 0) (bt1 p1) (bt2 p1)) as (y & Ey). change (bofZ 0) with (nofZ 0 : b64) in Ey. change (bofZ 1) with (nofZ 1 : b64) in Ey. rewrite Ey.
          destruct (bmap_near (bt1 p1) (bt2 p1) (nofZ 0) y) as (_ & _ & K); auto; try lra. }
        assert (X0 : X (nofZ 0) = val (bt1 p1)) by (unfold X; rewrite V0; ring). rewrite A0, X0 in T. exact T.
      - assert (X1 : X (nofZ 1) = val (bt2 p1)) by (unfold X; rewrite V1; ring). rewrite X1 in *.
        cbn [near_tiles withInterval bt1 bt2 cps]. exists (val (bt2 p1)). repeat (split; [assumption|]).
        split; [unfold A; rewrite E2; reflexivity|]. split; [exact Va|]. split; [rewrite Rminus_diag_eq, Rabs_R0 by reflexivity; pose proof ulp1_pos; lra|]. auto.
    Qed.
  End Piece.
  Lemma pass2_near (o : list (point b64)) M1 e1 fuel : (length o = 3 \/ length o = 4)%nat -> 17 * M1 <= ProofDouble.top ->
    forall ps acc x l a0, 0 <= x -> near_tiles e1 0 o x x 1 1 ps -> Forall (fun p => Forall (sized M1) (cps p)) ps ->
    near_tiles (e1 + partErr M1) (4 * ulp1) o a0 a0 x x acc ->
    Forall (fun p => Forall (sized (partSize M1)) (cps p)) acc -> reducePass2 fuel ps acc = Ok l ->
    (l = [] /\ short_bend (e1 + partErr M1) o \/ near_tiles (e1 + partErr M1) (4 * ulp1) o a0 a0 1 1 l) /\ Forall (fun p => Forall (sized (partSize M1)) (cps p)) l.
  Proof.
    intros Lo MT. induction ps as [|p1 ps IH]; intros acc x l a0 X0 T Sz Ta Za E; cbn [reducePass2] in E.
    - apply Ok_inj in E. subst l. cbn [near_tiles] in T. destruct T as [-> _]. split; [now right | exact Za].
    - cbn [near_tiles] in T. destruct T as (y & Lt & Lp & Fo & F1 & F2 & V1 & _ & V2 & T). inversion Sz as [|? ? S1 S2]; subst.
      assert (Y : val (bt2 p1) = y). { apply Rabs_le_inv in V2. lra. } subst y.
      assert (Y1 : val (bt2 p1) <= 1).
      { clear - T. revert T. generalize (val (bt2 p1)) at 2 3 as x. generalize (val (bt2 p1)) as a. induction ps as [|p ps IH]; intros a x; cbn [near_tiles].
        - intros [-> _]. lra.
        - intros (y & L & _ & _ & _ & _ & _ & _ & _ & T). apply IH in T. lra. }
      apply bind_Ok in E as ([[t segs]|] & E1 & E); [|apply Ok_inj in E; subst l; split; [left; split; [reflexivity|] | constructor]].
      2: { destruct zero_val' as [F0 V0]. exact (outer_none o p1 M1 e1 Lo Lp S1 MT ltac:(lra) ltac:(lra) Fo fuel (nofZ 0) [] F0 ltac:(rewrite V0; unfold sg; lra) E1). }
      apply bind_Ok in E as (r & E2 & E).
      destruct (piece_near o p1 M1 e1 Lo Lp S1 MT F1 F2) with (f := fuel) (t := t) (l := segs) (pass2 := acc) (r := r) as (sgs & -> & Ts & Zs); auto; try lra.
      eapply IH; [| exact T | exact S2 | | | exact E]; [lra| |apply Forall_app; auto]. eapply near_tiles_app; [exact Ta | exact Ts].
  Qed.
End Tile.

(** ** Sorting finite doubles is sorting their values *)
Lemma ltb_R (x y : b64) : fin x -> fin y -> nltb x y = Rltb (val x) (val y).
Proof.
  intros Fx Fy. destruct (nltb x y) eqn:E; symmetry.
  - apply Rltb_true. now apply ltb_val.
  - destruct (Rltb_spec (val x) (val y)) as [L|L]; [|reflexivity]. apply (ltb_val x y Fx Fy) in L. congruence.
Qed.
Lemma eqb_R (x y : b64) : fin x -> fin y -> neqb x y = Reqb (val x) (val y).
Proof.
  intros Fx Fy. destruct (Reqb_spec (val x) (val y)) as [L|L]; [now apply val_neqb | now apply neqb_val].
Qed.
Definition fins (l : list b64) : Prop := forall x, In x l -> fin x.
Lemma insert_fins x l : fin x -> fins l -> fins (insert x l).
Proof.
  unfold fins. induction l as [|y l IH]; intros Fx Fl z; cbn [insert].
  - intros [<-|[]]. exact Fx.
  - destruct (nltb x y).
    + intros [<-|K]; [exact Fx | now apply Fl].
    + intros [<-|K]; [apply Fl; now left | apply IH; auto]. intros w Hw. apply Fl. now right.
Qed.
Lemma insert_R x l : fin x -> fins l -> map val (insert x l) = insert (val x) (map val l).
Proof.
  induction l as [|y l IH]; intros Fx Fl; [reflexivity|]. cbn [insert map]. rewrite ltb_R by (auto; apply Fl; now left).
  change (@nltb R RNum (val x) (val y)) with (Rltb (val x) (val y)). destruct (Rltb (val x) (val y)); [reflexivity|]. cbn [map]. f_equal. apply IH; auto. intros z Hz. apply Fl. now right.
Qed.
Lemma sorted_R l : fins l -> fins (sorted l) /\ map val (sorted l) = sorted (map val l).
Proof.
  unfold sorted. change (@nil R) with (map val (@nil b64)). assert (K : fins (@nil b64)) by (intros z []). revert K. generalize (@nil b64).
  induction l as [|x l IH]; intros acc Fa Fl; cbn [map fold_left]; [auto|]. assert (Fx : fin x) by (apply Fl; now left).
  rewrite <- insert_R by auto. apply IH; [now apply insert_fins|]. intros z Hz. apply Fl. now right.
Qed.
Lemma index_R v l : fin v -> fins l -> index_of neqb v l = index_of neqb (val v) (map val l).
Proof.
  induction l as [|y l IH]; intros Fv Fl; [reflexivity|]. cbn [index_of map]. rewrite eqb_R by (auto; apply Fl; now left).
  change (@neqb R RNum (val y) (val v)) with (Reqb (val y) (val v)). destruct (Reqb (val y) (val v)); [reflexivity|]. rewrite IH; auto. intros z Hz. apply Fl. now right.
Qed.
Lemma dedup_R l : fins l -> fins (removeDuplicates neqb l) /\ map val (removeDuplicates neqb l) = removeDuplicates neqb (map val l).
Proof.
  intros Fl. unfold removeDuplicates. rewrite map_length.
  assert (G : forall q i acc, fins q -> fins acc ->
    let F := fun result iv => match index_of neqb (snd iv) l with Some j => if Nat.eqb j (fst iv) then result ++ [snd iv] else result | None => result end in
    let F' := fun result iv => match index_of neqb (snd iv) (map val l) with Some j => if Nat.eqb j (fst iv) then result ++ [snd iv] else result | None => result end in
    fins (fold_left F (combine (seq i (length q)) q) acc) /\
    map val (fold_left F (combine (seq i (length q)) q) acc) = fold_left F' (combine (seq i (length q)) (map val q)) (map val acc)).
  { induction q as [|x q IH]; intros i acc Fq Fa F F'; cbn [length seq combine map fold_left]; [auto|].
    assert (Fx : fin x) by (apply Fq; now left). assert (Fr : fins q) by (intros z Hz; apply Fq; now right).
    assert (Fa' : fins (F acc (i, x))).
    { unfold F. cbn [fst snd]. destruct (index_of neqb x l) as [j|]; [|exact Fa]. destruct (Nat.eqb j i); [|exact Fa]. intros z Hz. apply in_app_or in Hz as [Hz|[<-|[]]]; auto. }
    assert (E : map val (F acc (i, x)) = F' (map val acc) (i, val x)).
    { unfold F, F'. cbn [fst snd]. rewrite <- index_R by auto. destruct (index_of neqb x l) as [j|]; [|reflexivity]. destruct (Nat.eqb j i); [|reflexivity]. now rewrite map_app. }
    rewrite <- E. now apply IH. }
  exact (G l 0%nat [] Fl ltac:(intros z [])).
Qed.
Lemma nmem_R x l : fin x -> fins l -> nmem x l = nmem (val x) (map val l).
Proof.
  unfold nmem. induction l as [|y l IH]; intros Fx Fl; [reflexivity|]. cbn [existsb map]. rewrite eqb_R by (auto; apply Fl; now left). f_equal. apply IH; auto. intros z Hz. apply Fl. now right.
Qed.
Lemma ends_R l : fins l -> fins (addEnds l) /\ map val (addEnds l) = addEnds (map val l).
Proof.
  intros Fl. unfold addEnds. destruct one_val as [F1 V1], zero_val' as [F0 V0]. rewrite (nmem_R (nofZ 0) l F0 Fl), V0. change (@nofZ R RNum 0) with 0. change (@nofZ R RNum 1) with 1.
  set (l' := if nmem 0 (map val l) then l else nofZ 0 :: l).
  assert (Fl' : fins l') by (unfold l'; destruct (nmem _ _); auto; intros z [<-|Hz]; auto).
  assert (E : map val l' = if nmem 0 (map val l) then map val l else 0 :: map val l) by (unfold l'; destruct (nmem 0 (map val l)); cbn [map]; [|rewrite V0]; reflexivity).
  rewrite <- E, (nmem_R (nofZ 1) l' F1 Fl'), V1. destruct (nmem 1 (map val l')); [auto|]. split.
  - intros z Hz. apply in_app_or in Hz as [Hz|[<-|[]]]; auto.
  - rewrite map_app. cbn [map]. now rewrite V1.
Qed.

Section Reduce.
  Context {TO : TrigOps b64}.
  Lemma pass1_near (b : bezier b64) M : (length (cps b) = 3 \/ length (cps b) = 4)%nat -> Forall (sized M) (cps b) -> 17 * M <= ProofDouble.top ->
    forall ts t1 ps, fins (t1 :: ts) -> 0 <= val t1 -> StronglySorted Rlt (map val (t1 :: ts)) -> (forall t, In t (t1 :: ts) -> val t <= 1) -> last (map val (t1 :: ts)) 0 = 1 ->
    reducePass1 b t1 ts = Ok ps -> near_tiles (partErr M) 0 (cps b) (val t1) (val t1) 1 1 ps /\ Forall (fun p => Forall (sized (partSize M)) (cps p)) ps.
  Proof.
    intros L A MT. induction ts as [|t2 ts IH]; intros t1 ps Fl P S B La E; cbn [reducePass1] in E.
    - apply Ok_inj in E. subst ps. cbn in La. cbn [near_tiles]. rewrite La. auto.
    - cbn [map] in S. inversion S as [|? ? S' F]; subst. rewrite Forall_forall in F. pose proof (F (val t2) (or_introl eq_refl)) as Lt.
      pose proof (B t2 (or_intror (or_introl eq_refl))) as B2.
      destruct (split2_near b t1 t2 M) as (c & E1 & Lc & Sc & G); auto; try (apply Fl; simpl; auto).
      rewrite E1 in E. cbn [bind] in E. apply bind_Ok in E as (rest & E2 & E). apply Ok_inj in E. subst ps.
      destruct (IH t2 rest) as [T1 T2]; auto; [intros z Hz; apply Fl; now right | lra | intros t Ht; apply B; now right|].
      split; [|constructor; auto]. cbn [near_tiles withInterval bt1 bt2 cps]. exists (val t2). split; [exact Lt|]. split; [exact Lc|]. split; [exact G|].
      split; [apply Fl; simpl; auto|]. split; [apply Fl; simpl; auto|]. split; [reflexivity|]. rewrite !Rminus_diag_eq, Rabs_R0 by reflexivity. split; [lra|]. split; [lra|]. exact T1.
  Qed.
  Theorem reduce_near (b : bezier b64) (fuel : nat) (M : R) (l : list (bezier b64)) : (length (cps b) = 3 \/ length (cps b) = 4)%nat -> Forall (sized M) (cps b) ->
    32 * M <= ProofDouble.top -> reduce fuel b = Ok l ->
    (l = [] /\ short_bend (200 * ulp1 * M + 64 * tiny) (cps b) \/ near_tiles (200 * ulp1 * M + 64 * tiny) (4 * ulp1) (cps b) 0 0 1 1 l) /\ Forall (fun p => Forall (sized (partSize (partSize M))) (cps p)) l.
  Proof.
    intros L A MT E. pose proof (sized_nonneg (cps b) M ltac:(lia) A) as M0.
    pose proof ulp1_pos. pose proof tiny_pos. pose proof ulp1_small. pose proof tiny_small. pose proof top_1000000.
    assert (U1 : 0 <= ulp1 * M) by nra. assert (U2 : ulp1 * M <= / 1000000 * M) by (apply Rmult_le_compat_r; lra).
    assert (MT1 : 17 * partSize M <= ProofDouble.top) by (unfold partSize; destruct (Rle_dec M 2); lra).
    assert (Er : partErr M + partErr (partSize M) <= 200 * ulp1 * M + 64 * tiny).
    { unfold partErr, partSize. replace (98 * ulp1 * (M + (43 * ulp1 * M + 31 * tiny))) with (98 * (ulp1 * M) + 98 * 43 * (ulp1 * (ulp1 * M)) + 98 * 31 * (ulp1 * tiny)) by ring.
      assert (ulp1 * (ulp1 * M) <= / 1000000 * (ulp1 * M)) by (apply Rmult_le_compat_r; lra). assert (ulp1 * tiny <= / 1000000 * tiny) by (apply Rmult_le_compat_r; lra). lra. }
    unfold reduce, extrema in E. apply bind_Ok in E as (ex & Ex & E).
    apply bind_Ok in Ex as (e0 & E0 & Ex). apply bind_Ok in Ex as (e1 & E1 & Ex). apply Ok_inj in Ex. subst ex. cbn [ex2] in E.
    pose proof (extrema_unit b 0 e0 E0) as H0'. pose proof (extrema_unit b 1 e1 E1) as H1'.
    destruct (sorted_R e0) as [S0 S0']; [intros z Hz; apply (H0' z Hz)|]. destruct (sorted_R e1) as [S1 S1']; [intros z Hz; apply (H1' z Hz)|].
    destruct (sorted_R (sorted e0 ++ sorted e1)) as [S2 S2']. { intros z Hz. apply in_app_or in Hz as [Hz|Hz]; auto. }
    destruct (dedup_R _ S2) as [S3 S3']. destruct (ends_R _ S3) as [S4 S4'].
    rewrite S3', S2', map_app, S0', S1' in S4'.
    set (ts := addEnds _) in S4, S4', E.
    destruct (ProofReduce.dedup_sorted (sorted (map val e0) ++ sorted (map val e1))) as (D & I).
    destruct (ProofReduce.addEnds_sorted _ D) as (r & Er' & Sr & Last & Nr).
    { intros t Ht. apply I in Ht. apply in_app_or in Ht. rewrite !ProofReduce.sorted_In, !in_map_iff in Ht. destruct Ht as [(z & <- & Hz)|(z & <- & Hz)]; [apply (H0' z Hz) | apply (H1' z Hz)]. }
    rewrite Er' in S4'. destruct ts as [|t0 ts]; [discriminate|]. cbn [map] in S4'. injection S4' as Z0 Zr. subst r.
    unfold idx in E. cbn [nth_error bind tl] in E. apply bind_Ok in E as (ps & E2 & E).
    assert (Sr' : StronglySorted Rlt (map val (t0 :: ts))) by (cbn [map]; rewrite Z0; exact Sr).
    assert (Last' : last (map val (t0 :: ts)) 0 = 1) by (cbn [map]; rewrite Z0; exact Last).
    destruct (pass1_near b M L A ltac:(lra) ts t0 ps S4) as [T1 T2]; auto; [lra| |].
    { assert (G : forall l x, StronglySorted Rlt (x :: l) -> forall y, In y (x :: l) -> y <= last (x :: l) 0).
      { induction l0 as [|w l0 IH]; intros x Sx y Hy.
        - destruct Hy as [->|[]]. simpl. lra.
        - inversion Sx as [|? ? Sx' Fx]; subst. change (last (x :: w :: l0) 0) with (last (w :: l0) 0). destruct Hy as [->|Hy]; [|now apply IH].
          rewrite Forall_forall in Fx. pose proof (Fx w (or_introl eq_refl)). pose proof (IH w Sx' w (or_introl eq_refl)). lra. }
      intros t Ht. rewrite <- Last'. cbn [map] in *. apply G; [exact Sr'|]. change (In (val t) (map val (t0 :: ts))). now apply in_map. }
    rewrite Z0 in T1.
    destruct (pass2_near (cps b) (partSize M) (partErr M) fuel L MT1 ps [] 0 l 0 ltac:(lra) T1 T2) as [[[K Kb]|K] Z]; [cbn [near_tiles]; auto | constructor | exact E | split; [left; split; [exact K|] | exact Z]|].
    { destruct Kb as (x & y & c & K1 & K2 & K3 & K4 & K5 & K6 & K7). exists x, y, c. repeat (split; [assumption|]). split; [exact (follows_weak _ _ _ _ _ _ Er K6) | exact K7]. }
    split; [|exact Z]. right.
    exact (near_tiles_weak _ _ _ _ Er _ _ _ _ _ K).
  Qed.
End Reduce.

(** ** Stated without auxiliary notions *)
Section Plain.
  Context {TO : TrigOps b64}.
  Lemma top_2_1024 : ProofDouble.top = 2 ^ 1024.
  Proof. unfold ProofDouble.top. rewrite (two_pow 1024). reflexivity. Qed.
  Theorem reduce_terminates (b : bezier b64) (fuel : nat) : (102 <= fuel)%nat -> reduce fuel b <> Err OutOfFuel /\ reduce fuel b <> Err RecursionError.
  Proof. intros F. pose proof (reduce_ends b fuel F) as N. split; intros E; rewrite E in N; exact N. Qed.
  Theorem reduce_tiles (b : bezier b64) (fuel : nat) (M : R) (l : list (bezier b64)) : (length (cps b) = 3 \/ length (cps b) = 4)%nat -> Forall (sized M) (cps b) ->
    32 * M <= 2 ^ 1024 -> reduce fuel b = Ok l ->
    l = [] /\ short_bend (200 * ulp1 * M + 64 * tiny) (cps b) \/ near_tiles (200 * ulp1 * M + 64 * tiny) (4 * ulp1) (cps b) 0 0 1 1 l.
  Proof. intros L A T E. rewrite <- top_2_1024 in T. apply (reduce_near b fuel M l L A T E). Qed.
  Theorem split_part (b : bezier b64) (t1 t2 : b64) (M : R) : (length (cps b) = 3 \/ length (cps b) = 4)%nat -> Forall (sized M) (cps b) -> 17 * M <= 2 ^ 1024 ->
    fin t1 -> fin t2 -> 0 <= val t1 -> val t1 < val t2 -> val t2 <= 1 ->
    exists c, split2 b t1 t2 = Ok (SCurve c) /\ length (cps c) = length (cps b) /\ follows (98 * ulp1 * M + 31 * tiny) (cps b) (cps c) (val t1) (val t2).
  Proof.
    intros L A T F1 F2 P Lt B. rewrite <- top_2_1024 in T. destruct (split2_near b t1 t2 M L A T F1 F2 P Lt B) as (c & E & Lc & _ & G). exists c. split; [|auto].
    unfold split2curve in E. apply bind_Ok in E as ([c'|] & -> & E); [|discriminate]. apply Ok_inj in E. now subst.
  Qed.
End Plain.

(** ** intersects *)
Section Inter.
  Context {TO : TrigOps b64}.
  Lemma ulp1_40 : ulp1 <= / 2 ^ 40.
  Proof. unfold ulp1. apply Rinv_le_contravar; [apply pow_lt; lra | apply Rle_pow; [lra | lia]]. Qed.
  Lemma size2 M : 0 <= M <= 32767 -> partSize (partSize M) <= 32768 /\ partSize (partSize M) <= 1001 / 1000 * M + 63 * tiny.
  Proof.
    intros B. pose proof ulp1_pos. pose proof tiny_pos. pose proof ulp1_40 as U. pose proof tiny_small. pose proof ulp1_small.
    assert (K : / 2 ^ 40 <= / 1000000000000) by (apply Rinv_le_contravar; lra).
    assert (U2 : 0 <= ulp1 * M <= / 1000000000000 * M) by (split; [nra | apply Rmult_le_compat_r; lra]).
    assert (P : partSize (partSize M) <= M + / 10000000000 * M + 63 * tiny).
    { unfold partSize. replace (43 * ulp1 * (M + (43 * ulp1 * M + 31 * tiny))) with (43 * (ulp1 * M) + 43 * 43 * (ulp1 * (ulp1 * M)) + 43 * 31 * (ulp1 * tiny)) by ring.
      assert (ulp1 * (ulp1 * M) <= / 1000000 * (ulp1 * M)) by (apply Rmult_le_compat_r; lra). assert (ulp1 * tiny <= / 1000000 * tiny) by (apply Rmult_le_compat_r; lra). lra. }
    split; lra.
  Qed.
  Lemma reduced (b : bezier b64) M rfuel l : (length (cps b) = 3 \/ length (cps b) = 4)%nat -> Forall (sized M) (cps b) -> M <= 32767 -> reduce rfuel b = Ok l ->
    Forall (fun c => (length (cps c) = 3 \/ length (cps c) = 4)%nat /\ Forall (sized (partSize (partSize M))) (cps c)) l.
  Proof.
    intros L A B E. pose proof (sized_nonneg (cps b) M ltac:(lia) A). pose proof top_1000000.
    assert (T : 32 * M <= ProofDouble.top). { pose proof (top_2_1020 M) as K. assert (M <= 2 ^ 1020). { apply Rle_trans with (2 ^ 20); [lra | apply Rle_pow; [lra|lia]]. }
      unfold ProofDouble.top. apply Rle_trans with (bpow radix2 20); [change (bpow radix2 20) with (IZR (2 ^ 20)); change (2 ^ 20)%Z with 1048576%Z; lra | apply bpow_le; unfold emax; lia]. }
    destruct (reduce_near b rfuel M l L A T E) as [[[-> _]|N] Z]; [constructor|].
    clear E. revert N Z. generalize 0 at 1. generalize 0. induction l as [|c l IH]; intros x a N Z; [constructor|]. cbn [near_tiles] in N. inversion Z as [|? ? Zc Zl]; subst.
    destruct N as (y & _ & Lc & _ & _ & _ & _ & _ & _ & N). constructor; [split; [rewrite Lc; exact L | exact Zc]|]. eapply IH; eauto.
  Qed.
  Theorem intersects_ends (b : bezier b64) (oc : option (bezier b64)) (M : R) (thr : b64) (rfuel fuel : nat) :
    (length (cps b) = 3 \/ length (cps b) = 4)%nat -> Forall (sized M) (cps b) ->
    (forall c, oc = Some c -> (length (cps c) = 3 \/ length (cps c) = 4)%nat /\ Forall (sized M) (cps c)) ->
    M <= 32767 -> fin thr -> M / 2 ^ 42 <= val thr -> / 2 ^ 1000 <= val thr -> (102 <= rfuel)%nat -> (49 <= fuel)%nat ->
    match intersects rfuel fuel b oc thr with
    | Ok _ => True
    | Err e => e <> OutOfFuel /\ e <> RecursionError /\ (reduce rfuel b = Err e \/ exists c, oc = Some c /\ reduce rfuel c = Err e)
    end.
  Proof.
    intros L A C B Ft T1 T2 R F. pose proof (sized_nonneg (cps b) M ltac:(lia) A) as M0. destruct (size2 M ltac:(lra)) as [Z1 Z2].
    assert (Th : partSize (partSize M) / 2 ^ 43 <= val thr).
    { assert (Tn : tiny <= / 2 ^ 1000) by (unfold tiny; apply Rinv_le_contravar; [apply pow_lt; lra | apply Rle_pow; [lra | lia]]).
      replace (2 ^ 43) with (2 * 2 ^ 42) by ring. assert (E : M = 2 ^ 42 * (M / 2 ^ 42)) by (field; apply pow_nonzero; lra).
      apply Rmult_le_reg_r with (2 * 2 ^ 42); [lra|]. unfold Rdiv at 1. rewrite Rmult_assoc, Rinv_l, Rmult_1_r by lra. nra. }
    assert (NfE : forall (x : res (list (bezier b64))) e, nf x -> x = Err e -> e <> OutOfFuel /\ e <> RecursionError).
    { intros x e N ->. unfold nf in N. destruct e; split; try discriminate; contradiction. }
    unfold intersects. destruct oc as [c|].
    - destruct (reduce rfuel b) as [r1|e] eqn:E1; cbn [bind]; [|destruct (NfE _ e (reduce_ends b rfuel R) E1); auto].
      destruct (reduce rfuel c) as [r2|e] eqn:E2; cbn [bind]; [|destruct (NfE _ e (reduce_ends c rfuel R) E2); eauto 6].
      destruct (C c eq_refl) as [Lc Ac].
      destruct (curves_end49 thr (partSize (partSize M)) r1 r2 fuel) as (res & ->); auto; [exact (reduced b M rfuel r1 L A B E1) | exact (reduced c M rfuel r2 Lc Ac B E2)].
    - unfold selfIntersects. destruct (reduce rfuel b) as [r1|e] eqn:E1; cbn [bind]; [|destruct (NfE _ e (reduce_ends b rfuel R) E1); auto].
      pose proof (reduced b M rfuel r1 L A B E1) as G.
      assert (Hi : forall l, exists rs, mapM (fun i => curveIntersects fuel thr (firstn 1 (skipn i r1)) (skipn (i + 2) r1)) l = Ok rs).
      { induction l as [|i l [rs IH]]; [eexists; reflexivity|]. cbn [mapM].
        assert (Sk : forall k, Forall (fun c => (length (cps c) = 3 \/ length (cps c) = 4)%nat /\ Forall (sized (partSize (partSize M))) (cps c)) (skipn k r1)).
        { intros k. apply Forall_forall. intros x Hx. rewrite Forall_forall in G. apply G. rewrite <- (firstn_skipn k r1). apply in_or_app. now right. }
        destruct (curves_end49 thr (partSize (partSize M)) (firstn 1 (skipn i r1)) (skipn (i + 2) r1) fuel) as (res & ->); auto.
        { apply Forall_forall. intros x Hx. specialize (Sk i). rewrite Forall_forall in Sk. apply Sk. rewrite <- (firstn_skipn 1 (skipn i r1)). apply in_or_app. now left. }
        cbn [bind]. rewrite IH. cbn [bind]. eexists; reflexivity. }
      destruct (Hi (seq 0 (length r1 - 2))) as (rs & ->). exact I.
  Qed.
End Inter.
