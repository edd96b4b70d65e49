(** getLUT over the reals. *)
From Coq Require Import List ZArith Bool Reals Lra Lia.
From Verif Require Import Py Inst SpecGeom SpecBezier SpecObj MTransform MBezier MBezierObj ProofBezier ProofBezier2 ProofCurve ProofInter ProofBounds ProofObj ProofLength.
Import ListNotations.
Local Open Scope R_scope.

Lemma nth_map_seq {A} (f : nat -> A) n i d : (i < n)%nat -> nth i (map f (seq 0 n)) d = f i.
Proof. intros L. rewrite (nth_indep _ d (f 0%nat)) by (rewrite map_length, seq_length; exact L). rewrite map_nth, seq_nth by exact L. reflexivity. Qed.
Lemma last_nth {A} (l : list A) d : last l d = nth (length l - 1) l d.
Proof. induction l as [|a [|b l] IH]; [reflexivity|reflexivity|]. change (last (a :: b :: l) d) with (last (b :: l) d). rewrite IH. cbn [length]. replace (S (S (length l)) - 1)%nat with (S (S (length l) - 1)) by lia. reflexivity. Qed.
Lemma curve_0 (p : list pt) : (1 <= length p)%nat -> curve p 0 = nth 0 p (0, 0).
Proof.
  intros L. destruct (get_ends_R (mkBez p 0 1)) as [E _]. rewrite (get_ok (mkBez p 0 1)), (bstart_nth (mkBez p 0 1)) in E by exact L.
  apply Ok_inv in E. exact E.
Qed.
Lemma curve_1 (p : list pt) : (1 <= length p)%nat -> curve p 1 = nth (length p - 1) p (0, 0).
Proof.
  intros L. destruct (get_ends_R (mkBez p 0 1)) as [_ E]. rewrite (get_ok (mkBez p 0 1)), (bend_nth (mkBez p 0 1)) in E by exact L.
  apply Ok_inv in E. exact E.
Qed.
Theorem sample_ok (b : bezier R) (s : Z) : (1 <= length (cps b))%nat -> (2 <= s)%Z ->
  sampleLUT b s = Ok (map (fun i => curve (cps b) (INR i / IZR (s - 1))) (seq 0 (Z.to_nat s))).
Proof.
  intros L S. unfold sampleLUT. apply mapM_pure. intros i _. numR.
  rewrite ndivR by (apply not_0_IZR; lia). cbn [bind]. rewrite get_ok by assumption. now rewrite INR_IZR_INZ.
Qed.
Theorem sample_spec (b : bezier R) (s : Z) : (1 <= length (cps b))%nat -> (2 <= s)%Z ->
  exists l, sampleLUT b s = Ok l /\ length l = Z.to_nat s /\
    (forall i, (i < Z.to_nat s)%nat -> get b (INR i / IZR (s - 1)) = Ok (nth i l (0, 0))) /\
    hd (0, 0) l = hd (0, 0) (cps b) /\ last l (0, 0) = last (cps b) (0, 0).
Proof.
  intros L S. eexists. split; [now apply sample_ok|]. rewrite map_length, seq_length. split; [reflexivity|].
  split; [intros i I; rewrite nth_map_seq by exact I; now apply get_ok|]. split.
  - destruct (Z.to_nat s) as [|n] eqn:E; [lia|]. cbn [seq map hd]. replace (INR 0 / IZR (s - 1)) with 0 by (cbn [INR]; unfold Rdiv; ring).
    rewrite curve_0 by assumption. destruct (cps b); reflexivity.
  - rewrite !last_nth, map_length, seq_length. rewrite nth_map_seq by lia.
    replace (INR (Z.to_nat s - 1) / IZR (s - 1)) with 1. { now apply curve_1. }
    rewrite INR_IZR_INZ. replace (Z.of_nat (Z.to_nat s - 1)) with (s - 1)%Z by lia. field. apply not_0_IZR. lia.
Qed.
Theorem sample_one (b : bezier R) : sampleLUT b 1 = Err ZeroDivisionError.
Proof. unfold sampleLUT. change (Z.to_nat 1) with 1%nat. cbn [seq mapM Z.sub Z.add Z.opp]. rewrite ndivR0; reflexivity. Qed.
Theorem sample_none (b : bezier R) (s : Z) : (s <= 0)%Z -> sampleLUT b s = Ok [].
Proof. intros L. unfold sampleLUT. replace (Z.to_nat s) with 0%nat by lia. reflexivity. Qed.

(** ** Histories over the reals *)
#[local] Existing Instance RPy.
Lemma minmax_total (b : bezier R) d l : (1 <= length (cps b))%nat -> exists mm, minmaxOver b d l = Ok mm.
Proof.
  intros L. unfold minmaxOver. generalize (@maxSafe R RNum, @minSafe R RNum) as s. induction l as [|t l IH]; intros s; cbn [foldM]; [eauto|].
  rewrite get_ok by exact L. cbn [bind]. apply IH.
Qed.
Theorem line_extrema : exists b : bezier R, forall p,
  snd (bstep (bhistory (p, fresh b) []) QExtrema) = AExtrema (Ok (mkExt [] [] [])) /\
  snd (bstep (bhistory (p, fresh b) [QBbox]) QExtrema) = AExtrema (Ok (mkExt [0; 1] [0; 1] [])) /\
  snd (bstep (bhistory (p, fresh b) [QReduce 0]) QExtrema) = AExtrema (Ok (mkExt [] [] [0; 1])).
Proof.
  exists (mkBez [(0, 0); (1, 1)] 0 1). intros p.
  assert (X : q_extrema (fresh (mkBez [(0, 0); (1, 1)] 0 1)) = (setExt (setDc (fresh (mkBez [(0, 0); (1, 1)] 0 1)) (dcPoints (mkBez [(0, 0); (1, 1)] 0 1))) (Some (mkExt [] [] [])), Ok (mkExt [] [] []))) by reflexivity.
  assert (A : addEnds (@nil R) = [0; 1]).
  { unfold addEnds, nmem. cbn [existsb]. numRg. destruct (Reqb_spec 1 0); [lra|]. reflexivity. }
  cbn [bhistory fold_left fst]. unfold bstep.
  split; [rewrite X; reflexivity|]. split.
  - unfold q_bbox. cbn [fresh o_bbox]. fold (fresh (mkBez [(0, 0); (1, 1)] 0 1)). rewrite X. cbn [ex0 ex1 ex2]. rewrite A.
    destruct (minmax_total (mkBez [(0, 0); (1, 1)] 0 1) 0 [0; 1]) as (m0 & M0); [simpl; lia|].
    destruct (minmax_total (mkBez [(0, 0); (1, 1)] 0 1) 1 [0; 1]) as (m1 & M1); [simpl; lia|].
    cbn [setExt setDc fresh o_bez]. rewrite M0. cbn [setExt setDc fresh o_bez]. rewrite M1. reflexivity.
  - unfold q_reduce. rewrite X. cbn [ex0 ex1 ex2]. rewrite A. reflexivity.
Qed.
Theorem line_leaks (b : bezier R) (p : Z) : length (cps b) = 2%nat ->
  let w := bhistory (p, fresh b) [QLength] in
  snd (bstep (p, fresh b) QLength) = ALength (Err IndexError) /\ fst w = (p + 2)%Z /\ fst (bhistory w [QLength]) = (p + 4)%Z.
Proof.
  intros L. pose proof (quadrature_line round15 b L) as Q. cbv zeta. unfold bhistory. cbn [fold_left].
  assert (S : forall k, q_length k (fresh b) = ((k + 2)%Z, fresh b, Err IndexError)).
  { intros k. unfold q_length. cbn [fresh o_len o_bez]. change (quadrature b) with (@quadrature R RNum (RTrig round15) b). rewrite Q. reflexivity. }
  unfold bstep at 1. rewrite S. cbn [snd]. split; [reflexivity|].
  assert (B : forall k, fst (bstep (k, fresh b) QLength) = ((k + 2)%Z, fresh b)) by (intros k; unfold bstep; rewrite S; reflexivity).
  rewrite !B. cbn [fst]. split; [reflexivity|lia].
Qed.
Theorem precision_kept (b : bezier R) (p : Z) (qs : list (bquery R)) : (length (cps b) = 3 \/ length (cps b) = 4)%nat ->
  fst (bhistory (p, fresh b) qs) = p.
Proof.
  intros L. apply (history_prec _ R_order b qs p (fresh b)); [apply inv_fresh|].
  intros x E. pose proof (quadrature_gl round15 b L) as Q. assert (K : Err x = Ok (gl (fun t => norm (speed_at (cps b) t))) :> res R) by (etransitivity; [symmetry; exact E|exact Q]). discriminate.
Qed.
