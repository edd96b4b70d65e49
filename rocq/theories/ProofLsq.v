(** Proofs for C86: bestFit with fewer control points than data points. *)
From Coq Require Import List ZArith Bool Reals Lra Lia Binomial Arith Permutation.
From Verif Require Import Py Inst SpecGeom SpecMatrix SpecFit MTransform MMatrix MCurveFit ProofMatrix ProofFit.
Import ListNotations.
Local Open Scope R_scope.

Lemma rsum_nonneg n f : (forall k, (k < n)%nat -> 0 <= f k) -> 0 <= rsum n f.
Proof. induction n as [|n IH]; simpl; intros H; [lra|]. pose proof (IH ltac:(intros; apply H; lia)). pose proof (H n ltac:(lia)). lra. Qed.
Lemma rsum_minus n f g : rsum n (fun k => f k - g k) = rsum n f - rsum n g.
Proof. induction n; simpl; lra. Qed.
(** A polynomial of degree [length l] with the roots [l]. *)
Lemma root_poly (l : list R) : exists v, v (length l) = 1 /\ (forall k, (length l < k)%nat -> v k = 0) /\
  forall n a, (length l < n)%nat -> In a l -> pval n v a = 0.
Proof.
  induction l as [|b l (v & V1 & V0 & VR)].
  - exists (fun k => if Nat.eqb k 0 then 1 else 0). split; auto. split; [intros [|k] Hk; simpl in *; auto; lia|]. intros n a _ [].
  - exists (fun k => match k with O => 0 | S j => v j end - b * v k).
    assert (F : forall n t, (length l < n)%nat -> pval (S n) (fun k => match k with O => 0 | S j => v j end - b * v k) t = (t - b) * pval n v t).
    { intros n t Hn. unfold pval. 
      rewrite (rsum_ext (S n) _ (fun k => t ^ k * match k with O => 0 | S j => v j end - b * (t ^ k * v k))) by (intros; ring).
      rewrite rsum_minus, rsum_scal.
      replace (rsum (S n) (fun k => t ^ k * match k with O => 0 | S j => v j end)) with (t * rsum n (fun k => t ^ k * v k)).
      - simpl rsum at 2. rewrite (V0 n) by lia. ring.
      - change (S n) with (1 + n)%nat. rewrite (rsum_shift 1 n).
        + rewrite <- rsum_scal. apply rsum_ext. intros k Hk. simpl. ring.
        + intros k Hk. replace k with 0%nat by lia. ring. }
    cbn [length]. split; [rewrite (V0 (S (length l))) by lia; lra|]. split.
    + intros [|k] Hk; [lia|]. rewrite (V0 k), (V0 (S k)) by lia. ring.
    + intros [|n] a Hn Ha; [lia|]. rewrite F by lia. destruct Ha as [<-|Ha]; [ring|]. rewrite (VR n a) by (auto; lia). ring.
Qed.

Section Lsq.
  Variables (P : list pt) (s : list R) (M : list (list R)) (n : nat).
  Let k := length P.
  Hypothesis Hk : (0 < k)%nat.
  Hypothesis Hn : (0 < n)%nat.
  Hypothesis Ls : length s = k.
  Hypothesis SM : shape n n M.
  Let Tt := map (fun i => raiseRowPower s i) (seq 0 n).
  Let Tm := mkmat k n (fun i j => entry Tt j i).
  Let G := mkmat n n (prod_entry k Tt Tm).
  Lemma lsq_STt : shape n k Tt.
  Proof. unfold Tt. rewrite <- Ls. apply powers_shape. Qed.
  Lemma lsq_ETm i r : (i < k)%nat -> (r < n)%nat -> entry Tm i r = nth i s 0 ^ r.
  Proof. intros Hi Hr. unfold Tm. rewrite entry_mkmat by auto. unfold Tt. apply powers_entry; auto. lia. Qed.
  Lemma lsq_TtTm i r : (i < k)%nat -> (r < n)%nat -> entry Tt r i = entry Tm i r.
  Proof. intros Hi Hr. unfold Tm. now rewrite entry_mkmat. Qed.
  Lemma lsq_G a b : (a < n)%nat -> (b < n)%nat -> entry G a b = mmul k (entry Tt) (entry Tm) a b.
  Proof. intros. unfold G. now rewrite entry_mkmat. Qed.
  Lemma lsq_unfold : bestFitN P M s n =
    let* M1o := matrixInvert M in
    let* TtT1o := matrixInvert G in
    let* TtT1 := needMatrix TtT1o in
    let* step1 := multiply TtT1 Tt in
    let* M1 := needMatrix M1o in
    let* step2 := multiply M1 step1 in
    let* Cx := multiply step2 (pointXs P) in
    let* Cy := multiply step2 (pointYs P) in
    Ok (Cx, Cy).
  Proof.
    unfold bestFitN, formTMatrix. replace (orLen n (length P)) with n by (unfold orLen; now destruct n).
    replace (orLen n (length s)) with n by (unfold orLen; now destruct n).
    fold Tt. rewrite (transpose_ok n k) by auto using lsq_STt. fold Tm. cbn [bind].
    destruct (matrixInvert M); auto. cbn [bind]. rewrite (multiply_ok n k n) by (auto using lsq_STt; apply shape_mkmat). reflexivity.
  Qed.
  Lemma lsq_inv Cx Cy : bestFitN P M s n = Ok (Cx, Cy) ->
    exists M1 G1, inverse_of n M M1 /\ inverse_of n M1 M /\ inverse_of n G G1 /\ inverse_of n G1 G /\
      shape n 1 Cx /\ shape n 1 Cy /\
      (forall c, (c < n)%nat -> entry Cx c 0 = mmul n (entry M1) (mmul n (entry G1) (mmul k (entry Tt) (fun i _ => fst (ptn P i)))) c 0%nat) /\
      (forall c, (c < n)%nat -> entry Cy c 0 = mmul n (entry M1) (mmul n (entry G1) (mmul k (entry Tt) (fun i _ => snd (ptn P i)))) c 0%nat).
  Proof.
    rewrite lsq_unfold. intros E.
    apply bind_Ok in E as (M1o & EM & E). apply bind_Ok in E as (Go & EG & E). apply bind_Ok in E as (G1 & EG1 & E).
    destruct Go as [G1'|]; [|discriminate]. injection EG1 as ->.
    destruct (invert_sound n G G1 Hn (shape_mkmat _ _ _) EG) as (SG & IG & IG').
    rewrite (multiply_ok n n k) in E by auto using lsq_STt. cbn [bind] in E. set (S1 := mkmat n k (prod_entry n G1 Tt)) in *.
    apply bind_Ok in E as (M1 & EM1 & E). destruct M1o as [M1'|]; [|discriminate]. injection EM1 as ->.
    destruct (invert_sound n M M1 Hn SM EM) as (SM1 & IM & IM').
    rewrite (multiply_ok n n k) in E by (auto; apply shape_mkmat). cbn [bind] in E.
    unfold pointXs, pointYs in E. rewrite (multiply_ok n k 1) in E by (auto using shape_mkmat; apply shape_column). cbn [bind] in E.
    rewrite (multiply_ok n k 1) in E by (auto using shape_mkmat; apply shape_column). cbn [bind] in E. injection E as <- <-.
    exists M1, G1. do 4 (split; auto). split; [apply shape_mkmat|]. split; [apply shape_mkmat|].
    assert (X : forall (f : pt -> R) c, (c < n)%nat -> entry (mkmat n 1 (prod_entry k (mkmat n k (prod_entry n M1 S1)) (map (fun p => [f p]) P))) c 0 =
      mmul n (entry M1) (mmul n (entry G1) (mmul k (entry Tt) (fun i _ => f (ptn P i)))) c 0%nat).
    { intros f c Hc. rewrite entry_mkmat by (auto; lia).
      transitivity (mmul k (mmul n (entry M1) (mmul n (entry G1) (entry Tt))) (fun i _ => f (ptn P i)) c 0%nat).
      - apply rsum_ext. intros i Hi. rewrite entry_mkmat by auto. f_equal; [|apply entry_column; auto].
        apply rsum_ext. intros r Hr. f_equal. unfold S1. now rewrite entry_mkmat.
      - rewrite mmul_assoc. apply rsum_ext. intros r Hr. f_equal. apply mmul_assoc. }
    split; intros c Hc; now rewrite X.
  Qed.
  Lemma inverse_vec (A B : list (list R)) (v : nat -> R) i : inverse_of n A B -> (i < n)%nat ->
    mmul n (entry A) (mmul n (entry B) (fun c _ => v c)) i 0%nat = v i.
  Proof.
    intros I Hi. rewrite <- mmul_assoc. unfold mmul at 1.
    rewrite (rsum_ext n _ (fun j => (if Nat.eqb i j then 1 else 0) * v j)); [now rewrite rsum_delta_l|].
    intros j Hj. f_equal. now apply I.
  Qed.
  Hypothesis basis : forall c t, (c < n)%nat -> rsum n (fun r => t ^ r * entry M r c) = bernstein (n - 1) c t.
  Lemma bezier_T f i : (i < k)%nat -> bezier_at (n - 1) f (nth i s 0) = mmul n (entry Tm) (mmul n (entry M) (fun c _ => f c)) i 0%nat.
  Proof.
    intros Hi. unfold bezier_at. replace (S (n - 1)) with n by lia. rewrite <- mmul_assoc. apply rsum_ext. intros c Hc.
    f_equal. rewrite <- basis by auto. apply rsum_ext. intros r Hr. now rewrite lsq_ETm.
  Qed.
  (** One coordinate. *)
  Lemma lsq_coord (M1 G1 : list (list R)) (x C f : nat -> R) :
    inverse_of n M M1 -> inverse_of n M1 M -> inverse_of n G G1 -> inverse_of n G1 G ->
    (forall c, (c < n)%nat -> C c = mmul n (entry M1) (mmul n (entry G1) (mmul k (entry Tt) (fun i _ => x i))) c 0%nat) ->
    let err h := rsum k (fun i => (bezier_at (n - 1) h (nth i s 0) - x i) ^ 2) in
    err C <= err f /\ (err f = err C -> forall c, (c < n)%nat -> f c = C c).
  Proof.
    intros IM IM' IG IG' EC err.
    set (h := fun i => bezier_at (n - 1) C (nth i s 0)). set (q := fun i => bezier_at (n - 1) f (nth i s 0)).
    set (w := fun r => mmul n (entry M) (fun c _ => f c - C c) r 0%nat).
    assert (D : forall i, (i < k)%nat -> q i - h i = rsum n (fun r => entry Tm i r * w r)).
    { intros i Hi. unfold q, h. rewrite !bezier_T by auto. unfold mmul at 1 3. rewrite <- rsum_minus. apply rsum_ext. intros r Hr.
      unfold w, mmul. rewrite <- Rmult_minus_distr_l. f_equal. rewrite <- rsum_minus. apply rsum_ext. intros; ring. }
    set (u := fun r => mmul k (entry Tt) (fun i _ => x i) r 0%nat).
    assert (MC : forall r, (r < n)%nat -> mmul n (entry M) (fun c _ => C c) r 0%nat = mmul n (entry G1) (fun c _ => u c) r 0%nat).
    { intros r Hr. rewrite <- (inverse_vec M M1 (fun r => mmul n (entry G1) (fun c _ => u c) r 0%nat) r IM Hr).
      apply mmul_ext; auto. }
    assert (N : forall r, (r < n)%nat -> rsum k (fun i => entry Tt r i * (h i - x i)) = 0).
    { intros r Hr.
      rewrite (rsum_ext k _ (fun i => entry Tt r i * h i - entry Tt r i * x i)) by (intros; ring). rewrite rsum_minus.
      replace (rsum k (fun i => entry Tt r i * x i)) with (u r) by reflexivity.
      replace (rsum k (fun i => entry Tt r i * h i)) with (u r); [ring|]. symmetry.
      transitivity (mmul k (entry Tt) (mmul n (entry Tm) (mmul n (entry G1) (fun c _ => u c))) r 0%nat).
      - apply rsum_ext. intros i Hi. f_equal. unfold h. rewrite bezier_T by auto. apply mmul_ext; auto.
      - rewrite <- mmul_assoc. rewrite <- (inverse_vec G G1 u r IG Hr). apply mmul_ext; auto. intros c Hc. now rewrite lsq_G. }
    assert (X : rsum k (fun i => (q i - h i) * (h i - x i)) = 0).
    { transitivity (rsum n (fun r => w r * rsum k (fun i => entry Tt r i * (h i - x i)))).
      - transitivity (rsum k (fun i => rsum n (fun r => w r * (entry Tt r i * (h i - x i))))).
        + apply rsum_ext. intros i Hi. rewrite D by auto. rewrite <- rsum_scal_r. apply rsum_ext. intros r Hr.
          rewrite lsq_TtTm by auto. ring.
        + rewrite rsum_swap. apply rsum_ext. intros r Hr. now rewrite rsum_scal.
      - apply rsum_0. intros r Hr. rewrite N by auto. ring. }
    assert (Y : err f = err C + rsum k (fun i => (q i - h i) * (q i - h i))).
    { unfold err. fold q. change (fun i => (q i - x i) ^ 2) with (fun i => (q i - x i) ^ 2).
      transitivity (rsum k (fun i => (h i - x i) ^ 2) + rsum k (fun i => (q i - h i) * (q i - h i)) + 2 * rsum k (fun i => (q i - h i) * (h i - x i))).
      - rewrite <- rsum_scal, <- !rsum_plus. apply rsum_ext. intros i Hi. fold (q i). ring.
      - rewrite X. unfold h. ring. }
    assert (Q : 0 <= rsum k (fun i => (q i - h i) * (q i - h i))) by (apply rsum_nonneg; intros; apply Rle_0_sqr).
    split; [lra|]. intros EQ.
    assert (Z : forall i, (i < k)%nat -> q i - h i = 0) by (apply rsum_sq_0; lra).
    assert (Gw : forall a, (a < n)%nat -> rsum n (fun b => entry G a b * w b) = 0).
    { intros a Ha. transitivity (mmul k (entry Tt) (mmul n (entry Tm) (fun b _ => w b)) a 0%nat).
      - rewrite <- mmul_assoc. apply rsum_ext. intros b Hb. now rewrite lsq_G.
      - apply rsum_0. intros i Hi. replace (mmul n (entry Tm) (fun b _ => w b) i 0%nat) with (q i - h i) by (now rewrite D).
        rewrite Z by auto. ring. }
    assert (W : forall a, (a < n)%nat -> w a = 0).
    { intros a Ha. rewrite <- (inverse_vec G1 G w a IG' Ha). apply rsum_0. intros b Hb.
      replace (mmul n (entry G) (fun c _ => w c) b 0%nat) with 0 by (symmetry; now apply Gw). ring. }
    intros c Hc. apply Rminus_diag_uniq.
    rewrite <- (inverse_vec M1 M (fun c => f c - C c) c IM' Hc). apply rsum_0. intros r Hr.
    replace (mmul n (entry M) (fun c0 _ => f c0 - C c0) r 0%nat) with (w r) by reflexivity. rewrite W by auto. ring.
  Qed.
  Theorem lsq_optimal Cx Cy : bestFitN P M s n = Ok (Cx, Cy) -> shape n 1 Cx /\ shape n 1 Cy /\
    forall f g, let best := fit_error P s (n - 1) (fun c => entry Cx c 0) (fun c => entry Cy c 0) in
      best <= fit_error P s (n - 1) f g /\
      (fit_error P s (n - 1) f g = best -> forall c, (c < n)%nat -> f c = entry Cx c 0 /\ g c = entry Cy c 0).
  Proof.
    intros E. destruct (lsq_inv Cx Cy E) as (M1 & G1 & IM & IM' & IG & IG' & SX & SY & EX & EY).
    split; auto. split; auto. intros f g best.
    destruct (lsq_coord M1 G1 (fun i => fst (ptn P i)) (fun c => entry Cx c 0) f IM IM' IG IG' EX) as (X1 & X2).
    destruct (lsq_coord M1 G1 (fun i => snd (ptn P i)) (fun c => entry Cy c 0) g IM IM' IG IG' EY) as (Y1 & Y2).
    unfold best, fit_error. fold k. rewrite !rsum_plus. split; [lra|]. intros EQ c Hc. split; [apply X2 | apply Y2]; auto; lra.
  Qed.
  Hypothesis lower : forall i j, (i < j)%nat -> (j < n)%nat -> entry M i j = 0.
  Hypothesis diag : forall i, (i < n)%nat -> entry M i i <> 0.
  Lemma lsq_M : exists M1, matrixInvert M = Ok (Some M1).
  Proof.
    destruct (invert_complete n M Hn SM) as (o & EM & Ko). destruct o as [M1|]; eauto. exfalso.
    specialize (Ko eq_refl). destruct Ko as (v & (j & Hj & Nj) & K). apply Nj. clear Nj. induction j as [j IH] using lt_wf_ind.
    specialize (K j Hj). rewrite (rsum_split n j) in K by auto. rewrite rsum_0 in K.
    - rewrite Rplus_0_r in K. apply Rmult_integral in K as [K|K]; auto. exfalso. apply (diag j); auto.
    - intros i Hi. destruct (Nat.eqb_spec i j); auto. destruct (Nat.lt_ge_cases i j).
      + rewrite IH by (auto; lia). ring.
      + rewrite lower by lia. ring.
  Qed.
  Lemma lsq_Gv (v : nat -> R) : (forall a, (a < n)%nat -> rsum n (fun b => entry G a b * v b) = 0) <->
    (forall i, (i < k)%nat -> pval n v (nth i s 0) = 0).
  Proof.
    assert (PV : forall i, (i < k)%nat -> pval n v (nth i s 0) = rsum n (fun r => entry Tm i r * v r)).
    { intros i Hi. apply rsum_ext. intros r Hr. now rewrite lsq_ETm. }
    assert (GT : forall a, (a < n)%nat -> rsum n (fun b => entry G a b * v b) = rsum k (fun i => entry Tt a i * rsum n (fun r => entry Tm i r * v r))).
    { intros a Ha. transitivity (mmul k (entry Tt) (mmul n (entry Tm) (fun b _ => v b)) a 0%nat); [|reflexivity].
      rewrite <- mmul_assoc. apply rsum_ext. intros b Hb. now rewrite lsq_G. }
    split.
    - intros K i Hi. rewrite PV by auto. revert i Hi. apply (rsum_sq_0 k (fun i => rsum n (fun r => entry Tm i r * v r))).
      transitivity (rsum n (fun a => v a * rsum n (fun b => entry G a b * v b))).
      + transitivity (rsum k (fun i => rsum n (fun r => v r * (entry Tt r i * rsum n (fun r => entry Tm i r * v r))))).
        * apply rsum_ext. intros i Hi. rewrite <- rsum_scal_r. apply rsum_ext. intros r Hr. rewrite lsq_TtTm by auto. ring.
        * rewrite rsum_swap. apply rsum_ext. intros r Hr. rewrite rsum_scal, GT by auto. reflexivity.
      + apply rsum_0. intros a Ha. rewrite K by auto. ring.
    - intros K a Ha. rewrite GT by auto. apply rsum_0. intros i Hi. rewrite <- PV, K by auto. ring.
  Qed.
  Lemma lsq_succeeds l : NoDup l -> length l = n -> incl l s -> exists c, bestFitN P M s n = Ok c.
  Proof.
    intros ND Ll Il. rewrite lsq_unfold. destruct lsq_M as (M1 & EM). rewrite EM. cbn [bind].
    destruct (invert_sound n M M1 Hn SM EM) as (SM1 & _ & _).
    destruct (invert_complete n G Hn (shape_mkmat _ _ _)) as (o' & EG & Ko'). rewrite EG. cbn [bind].
    destruct o' as [G1|].
    - cbn [needMatrix bind]. destruct (invert_sound n G G1 Hn (shape_mkmat _ _ _) EG) as (SG & _ & _).
      rewrite (multiply_ok n n k) by auto using lsq_STt. cbn [bind].
      rewrite (multiply_ok n n k) by (auto; apply shape_mkmat). cbn [bind].
      unfold pointXs, pointYs. rewrite (multiply_ok n k 1) by (auto using shape_mkmat; apply shape_column). cbn [bind].
      rewrite (multiply_ok n k 1) by (auto using shape_mkmat; apply shape_column). cbn [bind].
      eexists; reflexivity.
    - exfalso. destruct (Ko' eq_refl) as (v & (j & Hj & Nj) & K). apply Nj. rewrite lsq_Gv in K.
      apply (many_roots n v (fun i => nth i l 0)); auto.
      + intros a b Hab Hb E. apply (NoDup_nth l 0) in E; auto; lia.
      + intros i Hi. assert (In (nth i l 0) s) as In' by (apply Il, nth_In; lia).
        apply (In_nth _ _ 0) in In' as (m & Hm & <-). apply K. lia.
  Qed.
  Lemma lsq_fails : (forall l, NoDup l -> incl l s -> (length l < n)%nat) -> bestFitN P M s n = Err TypeError.
  Proof.
    intros Few. rewrite lsq_unfold. destruct lsq_M as (M1 & EM). rewrite EM. cbn [bind].
    destruct (invert_complete n G Hn (shape_mkmat _ _ _)) as (o' & EG & _). rewrite EG. cbn [bind].
    destruct o' as [G1|]; [|reflexivity]. exfalso.
    destruct (invert_sound n G G1 Hn (shape_mkmat _ _ _) EG) as (_ & _ & IG).
    set (l := nodup Req_EM_T s). assert (Ll : (length l < n)%nat).
    { apply Few; [apply NoDup_nodup|]. intros x Hx. now apply nodup_In in Hx. }
    destruct (root_poly l) as (v & V1 & _ & VR).
    assert (K : forall a, (a < n)%nat -> rsum n (fun b => entry G a b * v b) = 0).
    { apply lsq_Gv. intros i Hi. apply VR; auto. apply nodup_In, nth_In. lia. }
    assert (V : v (length l) = 0); [|lra].
    rewrite <- (inverse_vec G1 G v _ IG Ll). apply rsum_0. intros b Hb.
    replace (mmul n (entry G) (fun c _ => v c) b 0%nat) with 0 by (symmetry; now apply K). ring.
  Qed.
End Lsq.
(** C86, with the basis matrix of the module. *)
Theorem fitN_basis (calls : list (nat * nat)) (P : list pt) (s : list R) n : (0 < n)%nat -> (0 < length P)%nat -> length s = length P ->
  exists lut' m, basisMatrix (binomialHistory calls) n = Ok (lut', m) /\
    (forall Cx Cy, bestFitN P m s n = Ok (Cx, Cy) -> shape n 1 Cx /\ shape n 1 Cy /\
      forall f g, let best := fit_error P s (n - 1) (fun c => entry Cx c 0) (fun c => entry Cy c 0) in
        best <= fit_error P s (n - 1) f g /\
        (fit_error P s (n - 1) f g = best -> forall c, (c < n)%nat -> f c = entry Cx c 0 /\ g c = entry Cy c 0)) /\
    ((exists l, NoDup l /\ length l = n /\ incl l s) -> exists c, bestFitN P m s n = Ok c) /\
    ((forall l, NoDup l -> incl l s -> (length l < n)%nat) -> bestFitN P m s n = Err TypeError).
Proof.
  intros Hn Hk Ls. destruct (history_good calls) as (GL & _).
  destruct (basisMatrix_full _ n GL) as (lut' & m & EB & _ & _ & SM & LOW & BM).
  destruct (basisMatrix_spec _ n GL) as (lut2 & m2 & EB2 & _ & _ & _ & BM2). rewrite EB in EB2. injection EB2 as <- <-.
  assert (DG : forall i, (i < n)%nat -> entry m i i <> 0) by (intros i Hi; rewrite BM2 by auto; now apply basis_diag).
  exists lut', m. split; auto. split; [|split].
  - intros Cx Cy E. now apply (lsq_optimal P s m n).
  - intros (l & ND & Ll & Il). now apply (lsq_succeeds P s m n Hk Hn Ls SM LOW DG l).
  - now apply lsq_fails.
Qed.
(** The parameters, with an explicit number of points. *)
Section TimesN.
Context (rnd : R -> R).
#[local] Hint Extern 0 (TrigOps R) => exact (RTrig rnd) : typeclass_instances.
Lemma chord_firstn (p : list pt) n : (n <= length p)%nat -> chordLengths p n = chordLengths (firstn n p) (length (firstn n p)).
Proof.
  intros L. rewrite firstn_length, Nat.min_l by auto. unfold chordLengths.
  assert (X : forall l a, (forall i, In i l -> (1 <= i < n)%nat) ->
    foldM (fun d i => let* di := idx d (i - 1) in let* a := idx p (i - 1) in let* b := idx p i in Ok (d ++ [di + dist a b])) l a =
    foldM (fun d i => let* di := idx d (i - 1) in let* a := idx (firstn n p) (i - 1) in let* b := idx (firstn n p) i in Ok (d ++ [di + dist a b])) l a).
  { induction l as [|i l IH]; intros a H; [reflexivity|]. cbn [foldM].
    assert (F : forall j, (j < n)%nat -> idx (firstn n p) j = idx p j).
    { intros j Hj. unfold idx. rewrite <- (firstn_skipn n p) at 2. rewrite nth_error_app1; [reflexivity|]. rewrite firstn_length. lia. }
    rewrite !F by (specialize (H i (or_introl eq_refl)); lia). 
    match goal with |- bind ?e _ = bind ?e' _ => change e' with e; destruct e; auto end. cbn [bind]. apply IH. intros j Hj. apply H. now right. }
  apply X. intros i Hi. apply in_seq in Hi. lia.
Qed.
Theorem timesN (p : list pt) n : (0 < n)%nat ->
  (forall b, (n <= length p)%nat -> computeTimeValuesN p n b = computeTimeValues (firstn n p) b) /\
  ((2 <= n)%nat -> (length p < n)%nat -> computeTimeValuesN p n true = Err IndexError) /\
  ((2 <= n)%nat -> computeTimeValuesN p n false = Ok (map (fun i => INR i / INR (n - 1)) (seq 0 n))).
Proof.
  intros Hn. unfold computeTimeValues, computeTimeValuesN. replace (orLen n (length p)) with n by (unfold orLen; now destruct n).
  change (orLen 0 (length (firstn n p))) with (length (firstn n p)). split; [|split].
  - intros b L. cbv zeta. rewrite chord_firstn by auto. rewrite firstn_length, Nat.min_l by auto. reflexivity.
  - intros N2 L. cbv zeta. replace (chordLengths p n) with (Err (A := list R) IndexError); [reflexivity|]. symmetry.
    destruct p as [|a p].
    + unfold chordLengths. replace (n - 1)%nat with (S (n - 2)) by lia. reflexivity.
    + set (l := a :: p) in *. assert (Nl : l <> []) by discriminate. pose proof (chordLengths_ok rnd l Nl) as E.
      assert (Ll : (0 < length l)%nat) by (simpl; lia).
      unfold chordLengths in *. replace (n - 1)%nat with (length l - 1 + S (n - 1 - length l))%nat by lia.
      rewrite seq_app, foldM_app, E. cbn [bind]. replace (1 + (length l - 1))%nat with (length l) by lia. cbn [seq foldM].
      rewrite (idx_nth (map _ _) (length l - 1) 0) by (rewrite map_length, seq_length; lia). cbn [bind].
      rewrite (idx_nth l (length l - 1) (0, 0)) by lia. rewrite (idx_Err l (length l)) by lia. reflexivity.
  - intros N2. cbv zeta. apply mapM_seq. intros i Hi. numRg. rewrite ndivR.
    + rewrite !INR_IZR_INZ. do 3 f_equal. lia.
    + replace (Z.of_nat n - 1)%Z with (Z.of_nat (n - 1)) by lia. rewrite <- INR_IZR_INZ. apply not_0_INR. lia.
Qed.
End TimesN.
