(** findClosestPoint. *)
From Coq Require Import List ZArith Bool Reals Lra Lia.
From Verif Require Import Py Inst SpecGeom SpecBezier SpecCurve SpecContour MTransform MBounds MBezUtil MBezier MContour
  ProofBezier ProofBezier2 ProofInter ProofLut ProofLength ProofContour.
Import ListNotations.
Local Open Scope R_scope.

Lemma dist_tri (a b c : pt) : vdist a c <= vdist a b + vdist b c.
Proof.
  rewrite <- !norm_vdist. replace (vsub c a) with (vadd (vsub b a) (vsub c b)) by (unfold vadd, vsub; cbn [fst snd]; f_equal; ring). apply norm_add.
Qed.
Lemma dist_sym (a b : pt) : vdist a b = vdist b a.
Proof. unfold vdist, dist2. f_equal. ring. Qed.
Lemma dist_taxi (a b : pt) : vdist a b <= Rabs (fst a - fst b) + Rabs (snd a - snd b).
Proof.
  unfold vdist, dist2. set (x := fst a - fst b). set (y := snd a - snd b). pose proof (Rabs_pos x). pose proof (Rabs_pos y).
  apply Rsqr_incr_0_var; [|lra]. rewrite Rsqr_sqrt by nra. unfold Rsqr. pose proof (pow2_abs x) as X. pose proof (pow2_abs y) as Y. nra.
Qed.
Lemma Rabs_le_inv x a : Rabs x <= a -> - a <= x <= a.
Proof. intros H. unfold Rabs in H. destruct (Rcase_abs x); lra. Qed.
Lemma dist_lip (p : list pt) s t : drawable p -> 0 <= s <= 1 -> 0 <= t <= 1 -> vdist (curve p s) (curve p t) <= speed p * Rabs (s - t).
Proof.
  intros D S T. eapply Rle_trans; [apply dist_taxi|]. unfold drawable in D. destruct p as [|a [|b [|c r]]]; try (simpl in D; lia).
  - rewrite !curve2. unfold speed. cbn [length Nat.sub taxi_length fst snd INR].
    replace ((1 - s) * fst a + s * fst b - ((1 - t) * fst a + t * fst b)) with ((fst b - fst a) * (s - t)) by ring.
    replace ((1 - s) * snd a + s * snd b - ((1 - t) * snd a + t * snd b)) with ((snd b - snd a) * (s - t)) by ring. rewrite !Rabs_mult. lra.
  - destruct (curve_lip (a :: b :: c :: r)) as (X & Y & E & _ & _ & L); [simpl in *; lia|]. unfold speed. rewrite E. destruct (L t s T S) as [L1 L2]. lra.
Qed.

Section Closest.
  Context (rnd : R -> R).
  #[local] Hint Extern 0 (TrigOps R) => exact (RTrig rnd) : typeclass_instances.

  Definition unit (t : R) : Prop := 0 <= t <= 1.
  (** One round of sampling. *)
  Lemma sample1 (p : pt) (b : bezier R) t1 step closest q i nl nt (j : nat) : (1 <= length (cps b))%nat ->
    refineSample p b t1 step ((closest, q, i), (nl, nt)) j =
      Ok (if Rltb (vdist (curve (cps b) (t1 + IZR (Z.of_nat j) * step)) p) closest
          then (vdist (curve (cps b) (t1 + IZR (Z.of_nat j) * step)) p, curve (cps b) (t1 + IZR (Z.of_nat j) * step), Z.of_nat j) else (closest, q, i),
          (nl ++ [curve (cps b) (t1 + IZR (Z.of_nat j) * step)], nt ++ [t1 + IZR (Z.of_nat j) * step])).
  Proof. intros L. unfold refineSample. rewrite get_ok by exact L. cbn [bind]. rewrite hypot_dist. reflexivity. Qed.
  Lemma sampled (p : pt) (b : bezier R) t1 step closest q i l1 : (1 <= length (cps b))%nat -> exists c' q' i' nl,
    foldM (refineSample p b t1 step) (seq 1 3) ((closest, q, i), ([l1], [t1])) = Ok ((c', q', i'), (nl, [t1; t1 + 1 * step; t1 + 2 * step; t1 + 3 * step])) /\
    length nl = 4%nat /\ c' <= closest /\ (forall j, In j [1; 2; 3] -> c' <= vdist (curve (cps b) (t1 + j * step)) p) /\
    ((c' = closest /\ q' = q /\ i' = i) \/
     (c' < closest /\ (1 <= i' <= 3)%Z /\ exists j, In j [1; 2; 3] /\ q' = curve (cps b) (t1 + j * step) /\ c' = vdist q' p)).
  Proof.
    intros L. cbn [seq foldM].
    set (d1 := vdist (curve (cps b) (t1 + 1 * step)) p). set (d2 := vdist (curve (cps b) (t1 + 2 * step)) p). set (d3 := vdist (curve (cps b) (t1 + 3 * step)) p).
    rewrite (sample1 p b t1 step closest q i [l1] [t1] 1 L). cbn [bind Z.of_nat Pos.of_succ_nat Pos.succ app]. fold d1.
    destruct (Rltb_spec d1 closest) as [L1|L1]; rewrite sample1 by exact L; cbn [bind Z.of_nat Pos.of_succ_nat Pos.succ app]; fold d2.
    - destruct (Rltb_spec d2 d1) as [L2|L2]; rewrite sample1 by exact L; cbn [bind Z.of_nat Pos.of_succ_nat Pos.succ app]; fold d3.
      + destruct (Rltb_spec d3 d2) as [L3|L3]; do 4 eexists; (split; [reflexivity|]); (split; [reflexivity|]); (split; [lra|]);
          (split; [intros j [<-|[<-|[<-|[]]]]; fold d1 d2 d3; lra|right; split; [lra|]; split; [lia|]]); [exists 3|exists 2]; cbn [In]; auto 10.
      + destruct (Rltb_spec d3 d1) as [L3|L3]; do 4 eexists; (split; [reflexivity|]); (split; [reflexivity|]); (split; [lra|]);
          (split; [intros j [<-|[<-|[<-|[]]]]; fold d1 d2 d3; lra|right; split; [lra|]; split; [lia|]]); [exists 3|exists 1]; cbn [In]; auto 10.
    - destruct (Rltb_spec d2 closest) as [L2|L2]; rewrite sample1 by exact L; cbn [bind Z.of_nat Pos.of_succ_nat Pos.succ app]; fold d3.
      + destruct (Rltb_spec d3 d2) as [L3|L3]; do 4 eexists; (split; [reflexivity|]); (split; [reflexivity|]); (split; [lra|]);
          (split; [intros j [<-|[<-|[<-|[]]]]; fold d1 d2 d3; lra|right; split; [lra|]; split; [lia|]]); [exists 3|exists 2]; cbn [In]; auto 10.
      + destruct (Rltb_spec d3 closest) as [L3|L3]; do 4 eexists; (split; [reflexivity|]); (split; [reflexivity|]); (split; [lra|]);
          (split; [intros j [<-|[<-|[<-|[]]]]; fold d1 d2 d3; lra|]); [right; split; [lra|]; split; [lia|]; exists 3; cbn [In]; auto 10|left; auto].
  Qed.
  Lemma idxZ_nth {A} (l : list A) i d : (0 <= i < Z.of_nat (length l))%Z -> idxZ l i = Ok (nth (Z.to_nat i) l d).
  Proof. intros I. unfold idxZ. destruct (Z.leb_spec 0 i); [|lia]. apply idx_nth. lia. Qed.
  Definition low (i : Z) : Z := if Z.eqb i 0 then 0%Z else (i - 1)%Z.
  Definition high (n i : Z) : Z := if Z.eqb i (n - 1) then i else (i + 1)%Z.

  (** Whatever is returned was sampled, or is the starting value. *)
  Definition answer (p : pt) (b : bezier R) (closest : R) (q : pt) (r : pt * R) : Prop :=
    snd r <= closest /\ (r = (q, closest) \/ exists t, unit t /\ fst r = curve (cps b) t /\ snd r = vdist (fst r) p).
  Lemma later (p : pt) (b : bezier R) : (1 <= length (cps b))%nat -> forall rounds lut tts closest q i,
    length lut = 5%nat -> length tts = 5%nat -> (1 <= i <= 3)%Z -> Forall unit tts ->
    exists r, refineLoop rounds p b lut tts closest q i = Ok r /\ answer p b closest q r.
  Proof.
    intros L. induction rounds as [|k IH]; intros lut tts closest q i Ll Lt I U; [eexists; split; [reflexivity|]; split; cbn; [lra|auto]|].
    cbn [refineLoop]. rewrite Ll. change (Z.of_nat 5) with 5%Z.
    destruct (Z.eqb_spec i 0); [lia|]. destruct (Z.eqb_spec i (5 - 1)); [lia|].
    rewrite (idxZ_nth tts (i - 1) 0), (idxZ_nth tts (i + 1) 0) by lia. cbn [bind].
    set (t1 := nth (Z.to_nat (i - 1)) tts 0). set (t2 := nth (Z.to_nat (i + 1)) tts 0).
    assert (U1 : unit t1) by (rewrite Forall_forall in U; apply U, nth_In; lia). assert (U2 : unit t2) by (rewrite Forall_forall in U; apply U, nth_In; lia).
    numRg. change (@nlit R RNum 1 1000) with (1 / 1000). set (step := (t2 - t1) / 5). destruct (Rltb_spec step (1 / 1000)) as [B|B]; [eexists; split; [reflexivity|]; split; cbn; [lra|auto]|].
    rewrite (idxZ_nth lut (i - 1) (0, 0)) by lia. cbn [bind].
    destruct (sampled p b t1 step closest q i (nth (Z.to_nat (i - 1)) lut (0, 0)) L) as (c' & q' & i' & nl & E & Ln & Lc & _ & O). rewrite E. cbn [bind].
    rewrite (idxZ_nth lut (i + 1) (0, 0)) by lia. cbn [bind].
    assert (I' : (1 <= i' <= 3)%Z) by (destruct O as [(_ & _ & ->)|(_ & O & _)]; assumption).
    assert (Us : forall j, In j [1; 2; 3] -> unit (t1 + j * step)).
    { unfold unit in *. assert (t2 = t1 + 5 * step) by (unfold step; field). intros j [<-|[<-|[<-|[]]]]; lra. }
    destruct (IH (nl ++ [nth (Z.to_nat (i + 1)) lut (0, 0)]) ([t1; t1 + 1 * step; t1 + 2 * step; t1 + 3 * step] ++ [t2]) c' q' i') as (r & Er & A); [rewrite app_length, Ln; reflexivity|reflexivity|exact I'| |].
    { cbn [app]. repeat apply Forall_cons; try exact U1; try exact U2; try apply Forall_nil; apply Us; cbn [In]; auto. }
    exists r. split; [exact Er|]. destruct A as (A1 & A2). split; [lra|]. destruct A2 as [->|A2]; [|auto]. cbn [fst snd].
    destruct O as [(-> & -> & _)|(_ & _ & j & J & -> & ->)]; [auto|]. right. exists (t1 + j * step). split; [now apply Us|]. auto.
  Qed.
  Theorem first (p : pt) (b : bezier R) rounds lut tts i : (1 <= length (cps b))%nat -> length lut = length tts -> (0 <= i < Z.of_nat (length lut))%Z -> (2 <= length lut)%nat -> Forall unit tts ->
    let t1 := nth (Z.to_nat (low i)) tts 0 in let t2 := nth (Z.to_nat (high (Z.of_nat (length lut)) i)) tts 0 in let step := (t2 - t1) / 5 in
    1 / 1000 <= step -> (forall t, unit t -> vdist (curve (cps b) t) p < maxSafe) ->
    exists q d t, refineLoop (S rounds) p b lut tts maxSafe (0, 0) i = Ok (q, d) /\ unit t /\ q = curve (cps b) t /\ d = vdist q p /\
      forall j, In j [1; 2; 3] -> d <= vdist (curve (cps b) (t1 + j * step)) p.
  Proof.
    intros L Ll I L2 U t1 t2 step B Near. cbn [refineLoop]. fold (low i). fold (high (Z.of_nat (length lut)) i).
    assert (Hl : (0 <= low i < Z.of_nat (length lut))%Z) by (unfold low; destruct (Z.eqb_spec i 0); lia).
    assert (Hh : (0 <= high (Z.of_nat (length lut)) i < Z.of_nat (length lut))%Z) by (unfold high; destruct (Z.eqb_spec i (Z.of_nat (length lut) - 1)); lia).
    rewrite (idxZ_nth tts (low i) 0), (idxZ_nth tts (high (Z.of_nat (length lut)) i) 0) by lia. cbn [bind]. fold t1 t2. numRg. change (@nlit R RNum 1 1000) with (1 / 1000). fold step.
    assert (U1 : unit t1) by (rewrite Forall_forall in U; apply U, nth_In; lia). assert (U2 : unit t2) by (rewrite Forall_forall in U; apply U, nth_In; lia).
    destruct (Rltb_spec step (1 / 1000)); [lra|].
    rewrite (idxZ_nth lut (low i) (0, 0)) by lia. cbn [bind].
    destruct (sampled p b t1 step maxSafe (0, 0) i (nth (Z.to_nat (low i)) lut (0, 0)) L) as (c' & q' & i' & nl & E & Ln & Lc & Lj & O).
    rewrite E. cbn [bind]. rewrite (idxZ_nth lut (high (Z.of_nat (length lut)) i) (0, 0)) by lia. cbn [bind].
    assert (Us : forall j, In j [1; 2; 3] -> unit (t1 + j * step)).
    { unfold unit in *. assert (t2 = t1 + 5 * step) by (unfold step; field). intros j [<-|[<-|[<-|[]]]]; lra. }
    destruct O as [(Ec & _)|(_ & I' & j & J & Eq & Ec)].
    { exfalso. pose proof (Lj 1 (or_introl eq_refl)) as K. pose proof (Near _ (Us 1 (or_introl eq_refl))). lra. }
    destruct (later p b L rounds (nl ++ [nth (Z.to_nat (high (Z.of_nat (length lut)) i)) lut (0, 0)]) ([t1; t1 + 1 * step; t1 + 2 * step; t1 + 3 * step] ++ [t2]) c' q' i') as ([q d] & Er & A1 & A2);
      [rewrite app_length, Ln; reflexivity|reflexivity|exact I'| |].
    { cbn [app]. repeat apply Forall_cons; try exact U1; try exact U2; try apply Forall_nil; apply Us; cbn [In]; auto. }
    cbn [fst snd] in *. assert (D : forall j, In j [1; 2; 3] -> d <= vdist (curve (cps b) (t1 + j * step)) p) by (intros j' J'; specialize (Lj j' J'); lra).
    destruct A2 as [X|(t & T & X1 & X2)].
    - injection X as -> ->. exists q', c', (t1 + j * step). split; [exact Er|]. auto 10.
    - exists q, d, t. auto 10.
  Qed.

  (** The parameters of the table. *)
  Definition params (n : nat) : list R := map (fun i => INR i / IZR (Z.of_nat n - 1)) (seq 0 n).
  Lemma params_ok n : (2 <= n)%nat -> mapM (fun t => ndiv (nofZ (Z.of_nat t)) (nofZ (Z.of_nat n - 1))) (seq 0 n) = Ok (params n).
  Proof. intros N. apply mapM_pure. intros i _. numR. rewrite ndivR by (apply not_0_IZR; lia). now rewrite INR_IZR_INZ. Qed.
  Lemma params_unit n : (2 <= n)%nat -> Forall unit (params n).
  Proof.
    intros N. apply Forall_forall. intros x X. apply in_map_iff in X as (i & <- & I). apply in_seq in I. rewrite INR_IZR_INZ.
    assert (0 <= IZR (Z.of_nat i)) by (apply IZR_le; lia). assert (IZR (Z.of_nat i) <= IZR (Z.of_nat n - 1)) by (apply IZR_le; lia). assert (0 < IZR (Z.of_nat n - 1)) by (apply IZR_lt; lia).
    split; [apply Rmult_le_pos; [lra|left; now apply Rinv_0_lt_compat]|]. apply Rmult_le_reg_r with (IZR (Z.of_nat n - 1)); [lra|]. unfold Rdiv. rewrite Rmult_assoc, Rinv_l by lra. lra.
  Qed.
  Lemma params_nth n i : (0 <= i < Z.of_nat n)%Z -> nth (Z.to_nat i) (params n) 0 = IZR i / IZR (Z.of_nat n - 1).
  Proof. intros I. unfold params. rewrite nth_map_seq by lia. rewrite INR_IZR_INZ. now rewrite Z2Nat.id by lia. Qed.
  Lemma params_length n : length (params n) = n.
  Proof. unfold params. now rewrite map_length, seq_length. Qed.

  Section Binary.
    Context (p : pt) (b : bezier R) (n : Z) (i : Z) (H1 : (1 <= length (cps b))%nat) (H2 : (2 <= n)%Z) (Hi : (0 <= i < n)%Z).
    Let lut := row_of n (cps b).
    Let lo := IZR (low i) / IZR (n - 1).
    Let hi := IZR (high n i) / IZR (n - 1).
    Lemma low_high : (0 <= low i < n)%Z /\ (0 <= high n i < n)%Z /\ (low i + 1 <= high n i <= low i + 2)%Z.
    Proof. unfold low, high. destruct (Z.eqb_spec i 0), (Z.eqb_spec i (n - 1)); lia. Qed.
    Lemma n_pos : 0 < IZR (n - 1).
    Proof. apply IZR_lt. lia. Qed.
    Lemma refine_start : refineBinary p b lut i = refineLoop 25 p b lut (params (Z.to_nat n)) maxSafe (0, 0) i.
    Proof. unfold refineBinary, lut. rewrite row_length, params_ok by lia. reflexivity. Qed.
    Lemma start_lo : nth (Z.to_nat (low i)) (params (Z.to_nat n)) 0 = lo.
    Proof. pose proof low_high. rewrite params_nth by lia. rewrite Z2Nat.id by lia. reflexivity. Qed.
    Lemma start_hi : nth (Z.to_nat (high (Z.of_nat (length lut)) i)) (params (Z.to_nat n)) 0 = hi.
    Proof. pose proof low_high. unfold lut. rewrite row_length, Z2Nat.id by lia. rewrite params_nth by lia. rewrite Z2Nat.id by lia. reflexivity. Qed.
    Lemma gap : 1 / IZR (n - 1) <= hi - lo <= 2 / IZR (n - 1).
    Proof.
      pose proof low_high as (_ & _ & A & B). pose proof n_pos as P. unfold hi, lo. apply IZR_le in A, B. rewrite plus_IZR in A, B.
      replace (IZR (high n i) / IZR (n - 1) - IZR (low i) / IZR (n - 1)) with ((IZR (high n i) - IZR (low i)) * / IZR (n - 1)) by (field; lra).
      pose proof (Rinv_0_lt_compat _ P). unfold Rdiv. split; apply Rmult_le_compat_r; lra.
    Qed.
    Theorem refine_good : (n <= 201 \/ n <= 401 /\ 0 < i < n - 1)%Z -> (forall t, unit t -> vdist (curve (cps b) t) p < maxSafe) ->
      exists q d t, refineBinary p b lut i = Ok (q, d) /\ unit t /\ q = curve (cps b) t /\ d = vdist q p /\
        forall j, In j [1; 2; 3] -> d <= vdist (curve (cps b) (lo + j * ((hi - lo) / 5))) p.
    Proof.
      intros N Near. rewrite refine_start. pose proof low_high as LH. pose proof gap as G. pose proof n_pos as P.
      assert (St : 1 / 1000 <= (hi - lo) / 5).
      { destruct N as [N|(N & I1)].
        - apply IZR_le in N. assert (1 / 200 <= 1 / IZR (n - 1)); [|lra]. unfold Rdiv. apply Rmult_le_compat_l; [lra|]. apply Rinv_le_contravar; [exact P|]. rewrite minus_IZR. lra.
        - assert (K : hi - lo = 2 / IZR (n - 1)).
          { unfold hi, lo, high, low. destruct (Z.eqb_spec i 0); [lia|]. destruct (Z.eqb_spec i (n - 1)); [lia|]. rewrite plus_IZR, (minus_IZR i 1). field. lra. }
          rewrite K. apply IZR_le in N. assert (1 / 400 <= 1 / IZR (n - 1)); [|lra]. unfold Rdiv. apply Rmult_le_compat_l; [lra|]. apply Rinv_le_contravar; [exact P|]. rewrite minus_IZR. lra. }
      destruct (first p b 24 lut (params (Z.to_nat n)) i H1) as (q & d & t & E & T & Q & D & J).
      - unfold lut. now rewrite row_length, params_length.
      - unfold lut. rewrite row_length. lia.
      - unfold lut. rewrite row_length. lia.
      - apply params_unit. lia.
      - rewrite start_lo, start_hi. exact St.
      - exact Near.
      - rewrite start_lo, start_hi in J. exists q, d, t. auto 10.
    Qed.
    Theorem refine_bad : (401 < n \/ 201 < n /\ (i = 0 \/ i = n - 1))%Z -> refineBinary p b lut i = Ok ((0, 0), maxSafe).
    Proof.
      intros N. rewrite refine_start. pose proof low_high as LH. pose proof gap as G. pose proof n_pos as P. cbn [refineLoop]. fold (low i). fold (high (Z.of_nat (length lut)) i).
      assert (Ln : length lut = Z.to_nat n) by (unfold lut; now rewrite row_length).
      rewrite (idxZ_nth (params (Z.to_nat n)) (low i) 0), (idxZ_nth (params (Z.to_nat n)) (high (Z.of_nat (length lut)) i) 0) by (rewrite params_length, ?Ln, ?Z2Nat.id; lia). cbn [bind].
      rewrite start_lo, start_hi. numRg. change (@nlit R RNum 1 1000) with (1 / 1000). destruct (Rltb_spec ((hi - lo) / 5) (1 / 1000)) as [B|B]; [reflexivity|]. exfalso.
      destruct N as [N|(N & I1)].
      - assert (2 / IZR (n - 1) < 2 / 400); [|lra]. unfold Rdiv. apply Rmult_lt_compat_l; [lra|]. apply Rinv_lt_contravar; [nra|]. apply IZR_lt. lia.
      - assert (K : hi - lo = 1 / IZR (n - 1)).
        { unfold hi, lo, high, low. destruct (Z.eqb_spec i 0); destruct (Z.eqb_spec i (n - 1)); try lia; rewrite ?plus_IZR, ?(minus_IZR i 1); subst; field; lra. }
        assert (1 / IZR (n - 1) < 1 / 200); [|lra]. unfold Rdiv. apply Rmult_lt_compat_l; [lra|]. apply Rinv_lt_contravar; [nra|]. apply IZR_lt. lia.
    Qed.
  End Binary.
  (** Without a nearest point the index is -1. *)
  Lemma refine_far (p : pt) (b : bezier R) (n : Z) : (1 <= length (cps b))%nat -> (2 <= n)%Z -> refineBinary p b (row_of n (cps b)) (-1) = Ok ((0, 0), maxSafe).
  Proof.
    intros H1 H2. rewrite (refine_start p b n (-1)) by lia. cbn [refineLoop]. rewrite row_length.
    destruct (Z.eqb_spec (-1) 0); [lia|]. destruct (Z.eqb_spec (-1) (Z.of_nat (Z.to_nat n) - 1)); [lia|].
    unfold idxZ. cbn [Z.leb Z.compare Z.sub Z.opp Z.add Pos.add Z.pos_sub]. rewrite params_length. destruct (Z.leb_spec 0 (Z.of_nat (Z.to_nat n) + -2)); [|lia].
    rewrite !(idx_nth _ _ 0) by (rewrite params_length; lia). cbn [bind].
    pose proof (params_unit (Z.to_nat n)) as U. rewrite Forall_forall in U. pose proof (U ltac:(lia) _ (nth_In (params (Z.to_nat n)) 0 (n := Z.to_nat (Z.of_nat (Z.to_nat n) + -2)) ltac:(rewrite params_length; lia))) as V.
    rewrite (params_nth (Z.to_nat n) 0) by lia. unfold Rdiv at 1. rewrite Rmult_0_l. numRg. change (@nlit R RNum 1 1000) with (1 / 1000). unfold unit in V.
    set (x := nth (Z.to_nat (Z.of_nat (Z.to_nat n) + -2)) _ _) in *.
    destruct (Rltb_spec ((0 - x) / 5) (1 / 1000)); [reflexivity|lra].
  Qed.
  (** Which sample belongs to an index of the table. *)
  Definition cv (c : list (list pt)) (m : nat) : bezier R := mkBez (nth m c []) 0 1.
  Lemma curves_nth c m : (m < length c)%nat -> idx (curves c) m = Ok (cv c m).
  Proof. intros M. unfold curves, cv. rewrite (idx_nth _ _ (mkBez [] 0 1)) by (rewrite map_length; lia). f_equal. now rewrite (map_nth (fun s : list pt => mkBez s 0 1) c [] m). Qed.
  Lemma locate_ok c (s : Z) (k : nat) : (2 <= s)%Z -> (k < length c * (Z.to_nat s - 1) + 1)%nat -> c <> [] ->
    exists m c2 i, locate (curves c) (Z.of_nat k) s = Ok (cv c m, c2, i) /\ (m < length c)%nat /\ (0 <= i < s)%Z /\
      (c2 = None \/ exists m', (m' < length c)%nat /\ c2 = Some (cv c m')) /\
      ((m = 0%nat /\ i = Z.of_nat k) \/ (1 <= m)%nat /\ (i < s - 1)%Z /\ Z.of_nat k = (Z.of_nat m * (s - 1) + i + 1)%Z).
  Proof.
    intros S K N. assert (Lc : (0 < length c)%nat) by (destruct c; [congruence|simpl; lia]). unfold locate.
    assert (Lb : length (curves c) = length c) by (unfold curves; apply map_length). rewrite Lb.
    destruct (Z.ltb_spec (Z.of_nat k) s) as [Lt|Ge].
    - rewrite curves_nth by exact Lc. cbn [bind].
      destruct (Z.eqb (Z.of_nat k) (s - 1) && Z.leb 2 (Z.of_nat (length c)))%bool eqn:E.
      + apply andb_prop in E as [_ E]. apply Z.leb_le in E. rewrite curves_nth by lia. cbn [bind].
        exists 0%nat, (Some (cv c 1)), (Z.of_nat k). split; [reflexivity|]. split; [lia|]. split; [lia|]. split; [right; exists 1%nat; split; [lia|reflexivity]|left; auto].
      + cbn [bind]. exists 0%nat, None, (Z.of_nat k). split; [reflexivity|]. split; [lia|]. split; [lia|]. split; [now left|left; auto].
    - destruct (Z.eqb_spec (s - 1) 0); [lia|]. set (i := (Z.of_nat k - s)%Z) in *.
      pose proof (Z.div_mod i (s - 1)) as DM. pose proof (Z.mod_pos_bound i (s - 1)) as MB. pose proof (Z.div_pos i (s - 1)) as DP.
      set (d := (i / (s - 1))%Z) in *. set (r := (i mod (s - 1))%Z) in *.
      assert (D : (d + 1 < Z.of_nat (length c))%Z) by (unfold i in *; nia).
      assert (P : (0 <= d)%Z) by (apply DP; unfold i; lia).
      unfold idxZ. destruct (Z.leb_spec 0 (d + 1)); [|lia]. rewrite curves_nth by lia. cbn [bind].
      assert (T : (0 <= r < s)%Z) by lia.
      assert (W : (1 <= Z.to_nat (d + 1))%nat /\ (r < s - 1)%Z /\ Z.of_nat k = (Z.of_nat (Z.to_nat (d + 1)) * (s - 1) + r + 1)%Z).
      { split; [lia|]. split; [lia|]. rewrite Z2Nat.id by lia. unfold i in *. nia. }
      destruct (Z.ltb_spec (d + 1) (Z.of_nat (length c) - 1)).
      + destruct (Z.leb_spec 0 (d + 1 + 1)); [|lia]. rewrite curves_nth by lia. cbn [bind].
        exists (Z.to_nat (d + 1)), (Some (cv c (Z.to_nat (d + 1 + 1)))), r. split; [reflexivity|]. split; [lia|]. split; [exact T|].
        split; [right; exists (Z.to_nat (d + 1 + 1)); split; [lia|reflexivity]|right; exact W].
      + cbn [bind]. exists (Z.to_nat (d + 1)), None, r. split; [reflexivity|]. split; [lia|]. split; [exact T|]. split; [now left|right; exact W].
  Qed.
  (** The first samples come near the table's point. *)
  Lemma sample_near (s i j : Z) : (2 <= s)%Z -> (0 <= i < s)%Z -> (j = i \/ (j = i + 1 /\ i < s - 1))%Z ->
    let lo := IZR (low i) / IZR (s - 1) in let hi := IZR (high s i) / IZR (s - 1) in
    exists k, In k [1; 2; 3] /\ unit (lo + k * ((hi - lo) / 5)) /\ Rabs (lo + k * ((hi - lo) / 5) - IZR j / IZR (s - 1)) <= 4 / 5 / IZR (s - 1).
  Proof.
    intros S I J lo hi. assert (P : 0 < IZR (s - 1)) by (apply IZR_lt; lia). pose proof (Rinv_0_lt_compat _ P) as Q.
    assert (G : forall k, lo + k * ((hi - lo) / 5) = (IZR (low i) + k * ((IZR (high s i) - IZR (low i)) / 5)) * / IZR (s - 1)) by (intros; unfold lo, hi; field; lra).
    assert (H : forall k l h, low i = l -> high s i = h -> In k [1; 2; 3] -> (0 <= l)%Z -> (h <= s - 1)%Z -> (l <= h)%Z -> Rabs (IZR l + k * ((IZR h - IZR l) / 5) - IZR j) <= 4 / 5 ->
      exists k, In k [1; 2; 3] /\ unit (lo + k * ((hi - lo) / 5)) /\ Rabs (lo + k * ((hi - lo) / 5) - IZR j / IZR (s - 1)) <= 4 / 5 / IZR (s - 1)).
    { intros k l h El Eh K L0 H1 Lh B. exists k. split; [exact K|]. rewrite G, El, Eh. apply IZR_le in L0, H1, Lh.
      assert (0 <= IZR l + k * ((IZR h - IZR l) / 5) <= IZR h) by (destruct K as [<-|[<-|[<-|[]]]]; lra).
      split.
      - split; [apply Rmult_le_pos; lra|]. apply Rmult_le_reg_r with (IZR (s - 1)); [exact P|]. rewrite Rmult_assoc, Rinv_l by lra. lra.
      - replace ((IZR l + k * ((IZR h - IZR l) / 5)) * / IZR (s - 1) - IZR j / IZR (s - 1)) with ((IZR l + k * ((IZR h - IZR l) / 5) - IZR j) * / IZR (s - 1)) by (unfold Rdiv; ring).
        rewrite Rabs_mult, (Rabs_right (/ IZR (s - 1))) by lra. unfold Rdiv at 3. apply Rmult_le_compat_r; [lra|exact B]. }
    unfold low, high in H. destruct (Z.eqb_spec i 0) as [Ei|N0]; destruct (Z.eqb_spec i (s - 1)) as [E|N1]; try (rewrite Ei in *; clear Ei).
    - lia.
    - destruct J as [->|[-> _]].
      + apply (H 1 0%Z (0 + 1)%Z); cbn [In]; auto; try lia. change (IZR (0 + 1)) with 1. apply Rabs_le. lra.
      + apply (H 3 0%Z (0 + 1)%Z); cbn [In]; auto; try lia. change (IZR (0 + 1)) with 1. apply Rabs_le. lra.
    - destruct J as [->|[_ J]]; [|lia]. apply (H 3 (i - 1)%Z i); cbn [In]; auto; try lia. rewrite minus_IZR. apply Rabs_le. lra.
    - destruct J as [->|[-> _]].
      + apply (H 2 (i - 1)%Z (i + 1)%Z); cbn [In]; auto; try lia. rewrite minus_IZR, plus_IZR. apply Rabs_le. lra.
      + apply (H 3 (i - 1)%Z (i + 1)%Z); cbn [In]; auto; try lia. rewrite minus_IZR, plus_IZR. apply Rabs_le. lra.
  Qed.
  Lemma moderate_near (s : list pt) p t : drawable s -> (forall q, In q s -> moderate q) -> moderate p -> unit t -> vdist (curve s t) p < maxSafe.
  Proof.
    intros D M P T. assert (N : s <> []) by (intros ->; unfold drawable in D; simpl in D; lia).
    destruct (curve_in_box s t (- 10 ^ 15) (10 ^ 15) (- 10 ^ 15) (10 ^ 15) N T) as [X Y].
    { intros q Q. destruct (M q Q) as [A B]. apply Rabs_le_inv in A, B. lra. }
    eapply Rle_lt_trans; [apply dist_taxi|]. destruct P as [A B]. apply Rabs_le_inv in A, B.
    assert (Rabs (fst (curve s t) - fst p) <= 2 * 10 ^ 15) by (apply Rabs_le; lra). assert (Rabs (snd (curve s t) - snd p) <= 2 * 10 ^ 15) by (apply Rabs_le; lra).
    unfold maxSafe. numRg. lra.
  Qed.
  Lemma row_in n j : (2 <= n)%Z -> (j < Z.to_nat n)%nat -> unit (INR j / IZR (n - 1)).
  Proof.
    intros N J. pose proof (params_unit (Z.to_nat n)) as U. rewrite Forall_forall in U. apply U; [lia|]. unfold params. apply in_map_iff. exists j. split; [now rewrite Z2Nat.id by lia|]. apply in_seq. lia.
  Qed.
  Lemma cached_none bc c s : Forall drawable c -> (2 <= s)%Z -> c <> [] -> c_beziers bc = curves c -> c_lut bc = [] ->
    exists bc', contourLUT bc s = (bc', Ok (table s c)) /\ c_beziers bc' = curves c.
  Proof.
    intros F S N B L. unfold contourLUT. rewrite L. cbn [length Z.of_nat]. destruct (Z.eqb_spec 0 s); [lia|]. rewrite B, (concat_table c s F S).
    eexists. split; [reflexivity|]. cbn [setCLut c_beziers]. exact B.
  Qed.
  Lemma drawable_nth c m : Forall drawable c -> (m < length c)%nat -> drawable (nth m c []).
  Proof. intros F M. rewrite Forall_forall in F. apply F. now apply nth_In. Qed.
  Lemma table_in s c x : (2 <= s)%Z -> c <> [] -> In x (table s c) -> exists m t, (m < length c)%nat /\ unit t /\ x = curve (nth m c []) t.
  Proof.
    intros S N X. apply (In_nth _ _ (0, 0)) in X as (k & K & <-). rewrite table_length in K by (assumption || lia).
    destruct (locate_ok c s k S K N) as (m & _ & i & _ & M & I & _ & [(-> & ->)|(M1 & I1 & E)]).
    - exists 0%nat, (INR k / IZR (s - 1)). split; [exact M|]. split; [apply row_in; lia|]. rewrite <- (table_nth1 s c 0 k) by lia. now rewrite Nat.mul_0_l.
    - exists m, (INR (Z.to_nat (i + 1)) / IZR (s - 1)). split; [exact M|]. split; [apply row_in; lia|]. rewrite <- table_nth1 by lia. f_equal. nia.
  Qed.
  (** The first sample at the two ends of a curve's row is half as wide as elsewhere. *)
  Lemma within_ok (s : Z) k m i : (2 <= s)%Z -> ((m = 0%nat /\ (0 <= i < s)%Z /\ i = Z.of_nat k) \/ (1 <= m)%nat /\ (0 <= i < s - 1)%Z /\ Z.of_nat k = (Z.of_nat m * (s - 1) + i + 1)%Z) ->
    (within s k -> (0 < i < s - 1)%Z) /\ (~ within s k -> (i = 0 \/ i = s - 1)%Z).
  Proof.
    intros S O. assert (W : within s k <-> (0 < i < s - 1)%Z).
    { unfold within. destruct O as [(_ & I & ->)|(M & I & E)]; [lia|]. replace (Z.of_nat k - s)%Z with (i + (Z.of_nat m - 1) * (s - 1))%Z by lia.
      rewrite Z.mod_add, Z.mod_small by lia. nia. }
    rewrite W. split; [auto|]. destruct O as [(_ & I & ->)|(M & I & E)]; lia.
  Qed.
  Lemma nearest_unique p l k k' : first_nearest p l k -> (k' < length l)%nat -> (forall q, In q l -> vdist (nth k' l (0, 0)) p <= vdist q p) ->
    (forall m, (m < k')%nat -> vdist (nth k' l (0, 0)) p < vdist (nth m l (0, 0)) p) -> k' = k.
  Proof.
    intros (A & B & C) A' B' C'. destruct (lt_eq_lt_dec k k') as [[X|X]|X]; [|auto|].
    - specialize (C' k X). specialize (B _ (nth_In l (0, 0) A')). lra.
    - specialize (C k' X). specialize (B' _ (nth_In l (0, 0) A)). lra.
  Qed.
  Theorem closest_spec c bc p s : Forall drawable c -> c <> [] -> c_beziers bc = curves c -> c_lut bc = [] ->
    (2 <= s <= 201 \/ 2 <= s <= 401 /\ exists k, first_nearest p (table s c) k /\ within s k)%Z ->
    (forall seg q, In seg c -> In q seg -> moderate q) -> moderate p ->
    exists d q m t, snd (findClosestPoint bc p s) = Ok (d, q) /\ (m < length c)%nat /\ unit t /\ q = curve (nth m c []) t /\ d = vdist q p /\
      forall M x, (forall seg, In seg c -> speed seg <= M) -> In x (table s c) -> d <= vdist x p + 4 / 5 * M / IZR (s - 1).
  Proof.
    intros F N B L S0 Mc Mp. assert (S : (2 <= s)%Z) by lia. destruct (cached_none bc c s F) as (bc' & E & B'); [lia|exact N|exact B|exact L|].
    unfold findClosestPoint. rewrite E. cbn [snd]. rewrite B'.
    assert (Near : forall m t, (m < length c)%nat -> unit t -> vdist (curve (nth m c []) t) p < maxSafe).
    { intros m t Hm T. apply moderate_near; auto. now apply drawable_nth. intros q. apply Mc. now apply nth_In. }
    destruct (findClosest_spec rnd p (table s c)) as [(_ & Far)|(k & Ek & K & _ & Best & Fst)].
    { exfalso. destruct c as [|s0 c]; [congruence|]. assert (X : In (nth 0 (table s (s0 :: c)) (0, 0)) (table s (s0 :: c))) by (apply nth_In; rewrite table_length by (congruence || lia); nia).
      destruct (table_in s (s0 :: c) _ ltac:(lia) N X) as (m & t & Hm & T & Ex). specialize (Far _ X). specialize (Near m t Hm T). rewrite Ex in Far. lra. }
    assert (S1 : (s <= 201 \/ s <= 401 /\ within s k)%Z).
    { destruct S0 as [S0|(S0 & k' & H & W)]; [left; lia|right; split; [lia|]]. now rewrite (nearest_unique p (table s c) k' k H K Best Fst). }
    rewrite Ek. rewrite table_length in K by (assumption || lia). destruct (locate_ok c s k ltac:(lia) K N) as (m & c2 & i & El & Hm & I & C2 & O). rewrite El. cbn [bind].
    assert (Wi : within s k -> (0 < i < s - 1)%Z) by (apply (within_ok s k m i S); destruct O as [(? & ?)|(? & ? & ?)]; [left|right]; lia).
    pose proof (drawable_nth c m F Hm) as Dm. unfold drawable in Dm.
    rewrite getLUT_ok by (cbn [cv cps]; lia). cbn [bind].
    destruct (refine_good p (cv c m) s i) as (q & d & t & Eb & T & Q & D & J); [cbn [cv cps]; lia|lia|exact I|destruct S1 as [S1|(S1 & W)]; [now left|right; auto]|intros t T; now apply Near|]. rewrite Eb. cbn [bind].
    assert (Good : forall M x, (forall seg, In seg c -> speed seg <= M) -> In x (table s c) -> d <= vdist x p + 4 / 5 * M / IZR (s - 1)).
    { intros M x HM X. specialize (Best x X). assert (P : 0 < IZR (s - 1)) by (apply IZR_lt; lia).
      assert (Node : exists j, (j = i \/ (j = i + 1 /\ i < s - 1))%Z /\ unit (IZR j / IZR (s - 1)) /\ nth k (table s c) (0, 0) = curve (nth m c []) (IZR j / IZR (s - 1))).
      { destruct O as [(-> & ->)|(M1 & I1 & Ekk)].
        - exists (Z.of_nat k). split; [now left|]. rewrite <- INR_IZR_INZ. split; [apply row_in; lia|]. rewrite <- (table_nth1 s c 0 k) by lia. now rewrite Nat.mul_0_l.
        - exists (i + 1)%Z. split; [right; auto|]. replace (IZR (i + 1)) with (INR (Z.to_nat (i + 1))) by (rewrite INR_IZR_INZ, Z2Nat.id by lia; reflexivity). split; [apply row_in; lia|]. rewrite <- table_nth1 by lia. f_equal. nia. }
      destruct Node as (j & Hj & Uj & En). rewrite En in Best. destruct (sample_near s i j ltac:(lia) I Hj) as (w & W & Uw & Bw). specialize (J w W). cbn [cv cps] in J.
      pose proof (dist_lip (nth m c []) _ _ Dm Uw Uj) as Lip. specialize (HM (nth m c []) (nth_In _ _ Hm)).
      assert (Sp : 0 <= speed (nth m c [])).
      { pose proof (dist_lip (nth m c []) 0 1 Dm ltac:(lra) ltac:(lra)) as Z0. pose proof (sqrt_pos (dist2 (curve (nth m c []) 0) (curve (nth m c []) 1))) as Z1. fold (vdist (curve (nth m c []) 0) (curve (nth m c []) 1)) in Z1.
        replace (Rabs (0 - 1)) with 1 in Z0 by (rewrite Rabs_left; lra). lra. }
      pose proof (dist_tri (curve (nth m c []) (IZR (low i) / IZR (s - 1) + w * ((IZR (high s i) / IZR (s - 1) - IZR (low i) / IZR (s - 1)) / 5))) (curve (nth m c []) (IZR j / IZR (s - 1))) p) as Tri.
      assert (Fin : speed (nth m c []) * Rabs (IZR (low i) / IZR (s - 1) + w * ((IZR (high s i) / IZR (s - 1) - IZR (low i) / IZR (s - 1)) / 5) - IZR j / IZR (s - 1)) <= 4 / 5 * M / IZR (s - 1)).
      { eapply Rle_trans; [apply Rmult_le_compat_l; [exact Sp|exact Bw]|]. replace (4 / 5 * M / IZR (s - 1)) with (M * (4 / 5 / IZR (s - 1))) by (field; lra). apply Rmult_le_compat_r; [|exact HM].
        apply Rmult_le_pos; [lra|]. left. now apply Rinv_0_lt_compat. }
      lra. }
    destruct C2 as [->|(m' & Hm' & ->)].
    - exists d, q, m, t. auto 10.
    - pose proof (drawable_nth c m' F Hm') as Dm'. unfold drawable in Dm'. rewrite getLUT_ok by (cbn [cv cps]; lia). cbn [bind].
      destruct (Z_le_gt_dec s 201) as [S2|S2].
      2: { rewrite refine_bad by (cbn [cv cps]; lia). cbn [bind]. numRg. assert (d < @maxSafe R RNum) by (rewrite D, Q; now apply Near).
           destruct (Rltb_spec (@maxSafe R RNum) d); [lra|]. exists d, q, m, t. auto 10. }
      destruct (refine_good p (cv c m') s 0) as (q' & d' & t' & Eb' & T' & Q' & D' & _); [cbn [cv cps]; lia|lia|lia|lia|intros u U; now apply Near|]. rewrite Eb'. cbn [bind].
      numRg. destruct (Rltb_spec d' d).
      + exists d', q', m', t'. split; [reflexivity|]. split; [exact Hm'|]. split; [exact T'|]. split; [exact Q'|]. split; [exact D'|]. intros M x HM X. specialize (Good M x HM X). lra.
      + exists d, q, m, t. auto 10.
  Qed.
  Theorem closest_far c bc p s : Forall drawable c -> c_beziers bc = curves c -> c_lut bc = [] -> c <> [] -> (2 <= s)%Z ->
    (forall q, In q (table s c) -> maxSafe <= vdist q p) -> snd (findClosestPoint bc p s) = Ok (maxSafe, (0, 0)).
  Proof.
    intros F B L N S Far. destruct (cached_none bc c s F) as (bc' & E & B'); [lia|exact N|exact B|exact L|].
    unfold findClosestPoint. rewrite E. cbn [snd]. rewrite B'. assert (Lc : (0 < length c)%nat) by (destruct c; [congruence|simpl; lia]).
    destruct (findClosest_spec rnd p (table s c)) as [(Ek & _)|(k & Ek & K & V & _)].
    2: { specialize (Far _ (nth_In _ (0, 0) K)). lra. }
    rewrite Ek. unfold locate. destruct (Z.ltb_spec (-1) s); [|lia]. rewrite curves_nth by exact Lc. cbn [bind].
    destruct (Z.eqb_spec (-1) (s - 1)); [lia|]. cbn [andb bind].
    pose proof (drawable_nth c 0 F Lc) as Dm. unfold drawable in Dm. rewrite getLUT_ok by (cbn [cv cps]; lia). cbn [bind]. rewrite refine_far by (cbn [cv cps]; lia). reflexivity.
  Qed.
  Theorem closest_lost c bc p s : Forall drawable c -> c_beziers bc = curves c -> c_lut bc = [] -> c <> [] -> (401 < s \/ 201 < s /\ forall k, first_nearest p (table s c) k -> ~ within s k)%Z ->
    snd (findClosestPoint bc p s) = Ok (maxSafe, (0, 0)).
  Proof.
    intros F B L N S0. assert (S : (2 <= s)%Z) by lia. destruct (cached_none bc c s F) as (bc' & E & B'); [lia|exact N|exact B|exact L|].
    unfold findClosestPoint. rewrite E. cbn [snd]. rewrite B'.
    destruct (findClosest_spec rnd p (table s c)) as [(_ & Far)|(k & Ek & K & _ & Best & Fst)].
    { pose proof (closest_far c bc p s F B L N S Far) as X0. unfold findClosestPoint in X0. rewrite E in X0. cbn [snd] in X0. rewrite B' in X0. exact X0. }
    assert (S1 : (401 < s \/ 201 < s /\ ~ within s k)%Z).
    { destruct S0 as [S0|(S0 & W)]; [now left|right; split; [lia|]]. apply W. split; auto. }
    rewrite Ek. rewrite table_length in K by (assumption || lia). destruct (locate_ok c s k ltac:(lia) K N) as (m & c2 & i & El & Hm & I & C2 & O). rewrite El. cbn [bind].
    assert (Wi : ~ within s k -> (i = 0 \/ i = s - 1)%Z) by (apply (within_ok s k m i S); destruct O as [(? & ?)|(? & ? & ?)]; [left|right]; lia).
    assert (S2 : (401 < s \/ 201 < s /\ (i = 0 \/ i = s - 1))%Z) by (destruct S1 as [S1|(S1 & W)]; [now left|right; auto]).
    pose proof (drawable_nth c m F Hm) as Dm. unfold drawable in Dm. rewrite getLUT_ok by (cbn [cv cps]; lia). cbn [bind].
    rewrite refine_bad by (cbn [cv cps]; lia). cbn [bind]. destruct C2 as [->|(m' & Hm' & ->)]; [reflexivity|].
    pose proof (drawable_nth c m' F Hm') as Dm'. unfold drawable in Dm'. rewrite getLUT_ok by (cbn [cv cps]; lia). cbn [bind].
    rewrite refine_bad by (cbn [cv cps]; lia). cbn [bind]. numRg. destruct (Rltb_spec (@maxSafe R RNum) (@maxSafe R RNum)); [lra|reflexivity].
  Qed.
  (** A start point of the contour is never found. *)
  Lemma away (p : pt) (b : bezier R) : (1 <= length (cps b))%nat -> (forall t, 0 < t -> 0 < vdist (curve (cps b) t) p) -> forall rounds lut tts closest q i r,
    (forall t, In t tts -> 0 <= t) -> 0 < closest -> refineLoop rounds p b lut tts closest q i = Ok r -> 0 < snd r.
  Proof.
    intros L A. induction rounds as [|k IH]; intros lut tts closest q i r U C E; [injection E as <-; exact C|].
    cbn [refineLoop] in E. apply bind_Ok in E as (t1 & E1 & E). apply bind_Ok in E as (t2 & E2 & E).
    assert (P : forall x j, idxZ tts j = Ok x -> 0 <= x).
    { intros x j X. apply U. unfold idxZ in X. destruct (Z.leb 0 j); [|destruct (Z.leb 0 _); [|discriminate]]; unfold idx in X; destruct nth_error eqn:Y in X; try discriminate; injection X as <-; eapply nth_error_In; eassumption. }
    apply P in E1, E2. revert E. numRg. change (@nlit R RNum 1 1000) with (1 / 1000). set (step := (t2 - t1) / 5). destruct (Rltb_spec step (1 / 1000)) as [Bk|Bk]; intros E; [injection E as <-; exact C|].
    apply bind_Ok in E as (l1 & _ & E).
    destruct (sampled p b t1 step closest q i l1 L) as (c' & q' & i' & nl & Es & _ & _ & _ & O). rewrite Es in E. cbn [bind] in E.
    apply bind_Ok in E as (l2 & _ & E). refine (IH _ _ _ _ _ _ _ _ E).
    - intros t T. cbn [app] in T. destruct T as [<-|[<-|[<-|[<-|[<-|[]]]]]]; lra.
    - destruct O as [(-> & _)|(_ & _ & j & J & -> & ->)]; [exact C|]. apply A. destruct J as [<-|[<-|[<-|[]]]]; lra.
  Qed.
  Definition bar : list pt := [(0, 0); (1, 0)].
  Lemma bar_away t : 0 < t -> 0 < vdist (curve bar t) (0, 0).
  Proof.
    intros T. unfold bar, vdist, dist2. rewrite curve2. cbn [fst snd]. apply sqrt_lt_R0. replace ((1 - t) * 0 + t * 1 - 0) with t by ring. nra.
  Qed.
  Theorem closest_misses bc s d q : newContour [bar] = Ok bc -> (2 <= s)%Z -> snd (findClosestPoint bc (0, 0) s) = Ok (d, q) ->
    0 < d /\ In (0, 0) (table s [bar]) /\ vdist (0, 0) (0, 0) = 0.
  Proof.
    intros E S H. assert (F : Forall drawable [bar]) by (repeat constructor; unfold drawable, bar; simpl; lia).
    destruct (newContour_ok rnd [bar] F ltac:(discriminate)) as (b & E' & B & L & _). rewrite E in E'. injection E' as <-.
    destruct (cached_none bc [bar] s F) as (bc' & El & B'); [lia|discriminate|exact B|exact L|].
    assert (Z : vdist (0, 0) (0, 0) = 0) by (unfold vdist, dist2; cbn [fst snd]; rewrite <- sqrt_0; f_equal; ring).
    assert (In0 : In (0, 0) (table s [bar])).
    { replace (0, 0) with (nth 0 (table s [bar]) (0, 0)); [apply nth_In; rewrite table_length by (congruence || lia); cbn [length]; nia|].
      pose proof (table_nth1 s [bar] 0 0 S ltac:(simpl; lia) ltac:(lia) (or_introl eq_refl)) as T. cbn [Nat.mul Nat.add nth] in T. rewrite T. unfold bar. rewrite curve2. cbn [fst snd INR].
      f_equal; unfold Rdiv; ring. }
    split; [|auto]. unfold findClosestPoint in H. rewrite El in H. cbn [snd] in H. rewrite B' in H.
    destruct (findClosest_spec rnd (0, 0) (table s [bar])) as [(_ & Far)|(k & Ek & K & _)].
    { specialize (Far _ In0). rewrite Z in Far. unfold maxSafe in Far. revert Far. numRg. lra. }
    rewrite Ek in H. rewrite table_length in K by (congruence || lia). destruct (locate_ok [bar] s k S K ltac:(discriminate)) as (m & c2 & i & E1 & Hm & I & C2 & _). rewrite E1 in H. cbn [bind] in H.
    assert (G : forall m', (m' < length [bar])%nat -> cps (cv [bar] m') = bar) by (intros m' Hm'; simpl in Hm'; replace m' with 0%nat by lia; reflexivity).
    assert (P : forall m' i' q' d', (m' < length [bar])%nat -> (0 <= i' < s)%Z -> refineBinary (0, 0) (cv [bar] m') (row_of s (cps (cv [bar] m'))) i' = Ok (q', d') -> 0 < d').
    { intros m' i' q' d' Hm' I' X. rewrite refine_start in X by (rewrite ?G by exact Hm'; simpl; lia). apply (away (0, 0) (cv [bar] m')) in X; [exact X|rewrite G by exact Hm'; simpl; lia| | |].
      - intros t T. rewrite G by exact Hm'. now apply bar_away.
      - intros t T. pose proof (params_unit (Z.to_nat s)) as U. rewrite Forall_forall in U. apply U in T; [|lia]. apply T.
      - unfold maxSafe. numRg. lra. }
    rewrite getLUT_ok in H by (rewrite ?G by exact Hm; simpl; lia). cbn [bind] in H. apply bind_Ok in H as ([q1 d1] & X1 & H). apply P in X1; [|exact Hm|exact I].
    destruct C2 as [->|(m' & Hm' & ->)]; [injection H as <- <-; exact X1|].
    rewrite getLUT_ok in H by (rewrite ?G by exact Hm'; simpl; lia). cbn [bind] in H. apply bind_Ok in H as ([q2 d2] & X2 & H). apply P in X2; [|exact Hm'|lia].
    destruct (d2 <? d1)%num in H; injection H as <- <-; assumption.
  Qed.
End Closest.
