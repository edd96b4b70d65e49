(** Curves of order 1 and of order 4 or more (Bezier.py 174-203, 762-816). *)
From Coq Require Import List ZArith Bool Reals Lra Lia Psatz.
From Verif Require Import Py Inst SpecGeom SpecUtil SpecFit SpecBezier SpecCurve MTransform MBounds MBezUtil MPathUtil MBezier
  ProofTransform ProofUtil ProofBezier ProofBezier2 ProofBezier3 ProofLength ProofReduce ProofLut ProofScale.
Import ListNotations.
Local Open Scope R_scope.

Lemma high_derivative (b : bezier R) (t : R) : (5 <= length (cps b))%nat -> let q := fun i => nth i (cps b) (0, 0) in
  derivative b t = Ok (vscale (INR (length (cps b) - 1)) (curve [vsub (q 1%nat) (q 0%nat); vsub (q 2%nat) (q 1%nat); vsub (q 3%nat) (q 2%nat)] t)).
Proof.
  intros L q. unfold q. clear q. rewrite curve3. destruct b as [p u v]; cbn [cps] in *. unfold derivative, dcPoints, order. cbn [cps].
  destruct p as [|p0 [|p1 [|p2 [|p3 [|p4 r]]]]]; try (simpl in L; lia). cbn [dcPointsFrom length dcLevel nth]. unfold idx; cbn [nth_error bind].
  replace (Nat.eqb _ 2) with false by (symmetry; apply Nat.eqb_neq; lia). unfold diffStep, vscale, vsub. cbn [bind fst snd].
  replace (S (S (S (S (S (length r))))) - 1)%nat with (S (S (S (S (length r))))) by lia. set (n := S (S (S (S (length r))))).
  numRg. rewrite <- INR_IZR_INZ. apply Ok_pair; ring.
Qed.
Lemma line_derivative (b : bezier R) (t : R) : length (cps b) = 2%nat -> derivative b t = Err IndexError.
Proof.
  destruct b as [p u v]; cbn [cps]. intros L. destruct p as [|p0 [|p1 [|p2 r]]]; try (simpl in L; lia). reflexivity.
Qed.
Definition quartic : list pt := [(0, 0); (1, 0); (2, 0); (3, 0); (4, 1)].
Lemma quartic_curve t : curve quartic t = (4 * t, t ^ 4).
Proof. rewrite curve_cv. unfold quartic, cv, cx, cy. simpl. unfold shift; simpl. f_equal; ring. Qed.
Lemma quartic_deriv : is_deriv (curve quartic) 1 (4, 4).
Proof.
  split; cbn [fst snd].
  - apply derivable_pt_lim_ext with (fun u => 4 * u); [intros z; rewrite quartic_curve; reflexivity|]. pose proof (derivable_pt_lim_scal id 4 1 1 (derivable_pt_lim_id 1)) as K. rewrite Rmult_1_r in K. exact K.
  - apply derivable_pt_lim_ext with (fun u => u ^ 4); [intros z; rewrite quartic_curve; reflexivity|]. pose proof (derivable_pt_lim_pow 1 4) as K. replace (INR 4 * 1 ^ Nat.pred 4) with 4 in K by (simpl; lra). exact K.
Qed.
Theorem quartic_wrong : exists (b : bezier R) t d, length (cps b) = 5%nat /\ is_deriv (curve (cps b)) t d /\ derivative b t <> Ok d.
Proof.
  exists (mkBez quartic 0 1), 1, (4, 4). split; [reflexivity|]. split; [exact quartic_deriv|].
  rewrite high_derivative by (simpl; lia). rewrite curve3. unfold quartic, vscale, vsub; cbn [cps nth fst snd length Nat.sub]. intros E. injection E as E1 E2. lra.
Qed.
Section High.
  Context (rnd : R -> R).
  #[local] Hint Extern 0 (TrigOps R) => exact (RTrig rnd) : typeclass_instances.
  Lemma padded (a m1 m2 e : pt) n c : (4 <= n)%nat -> newBezier ([a; m1; m2] ++ repeat (0, 0) (n - 3) ++ [e]) = Ok c ->
    length (cps c) = S n /\ forall i, (3 <= i < n)%nat -> nth_error (cps c) i = Some (0, 0).
  Proof.
    intros L E. rewrite newBezier_ok in E by (simpl; lia). injection E as E. assert (P : cps c = [a; m1; m2] ++ repeat (0, 0) (n - 3) ++ [e]) by (rewrite <- E; reflexivity). rewrite P. split; [rewrite !app_length, repeat_length; simpl; lia|].
    intros i I. rewrite nth_error_app2 by (simpl; lia). rewrite nth_error_app1 by (rewrite repeat_length; simpl; lia).
    apply nth_error_repeat. simpl; lia.
  Qed.
  Lemma scale_number_high (b c : bezier R) d : (5 <= length (cps b))%nat -> scaleNum b d = Ok c ->
    length (cps c) = length (cps b) /\ forall i, (3 <= i < length (cps b) - 1)%nat -> nth_error (cps c) i = Some (0, 0).
  Proof.
    intros L E. unfold scaleNum in E. replace (length (cps b)) with (S (order b)) by (unfold order; lia). rewrite Nat.sub_succ, Nat.sub_0_r.
    assert (O : (4 <= order b)%nat) by (unfold order; lia). destruct (Nat.eqb_spec (order b) 2); [lia|]. destruct (Nat.eqb_spec (order b) 3); [lia|].
    do 10 (apply bind_Ok in E as (? & _ & E)). exact (padded _ _ _ _ _ _ O E).
  Qed.
  Lemma scale_function_high (b c : bezier R) d : (5 <= length (cps b))%nat -> scaleFn b d = Ok c ->
    length (cps c) = length (cps b) /\ forall i, (3 <= i < length (cps b) - 1)%nat -> nth_error (cps c) i = Some (0, 0).
  Proof.
    intros L E. unfold scaleFn, scaleFnBody in E. replace (length (cps b)) with (S (order b)) by (unfold order; lia). rewrite Nat.sub_succ, Nat.sub_0_r.
    assert (O : (4 <= order b)%nat) by (unfold order; lia). destruct (Nat.eqb_spec (order b) 2); [lia|]. destruct (Nat.eqb_spec (order b) 3); [lia|].
    do 11 (apply bind_Ok in E as (? & _ & E)). exact (padded _ _ _ _ _ _ O E).
  Qed.
  Definition hook : bezier R := mkBez [(0, 0); (0, 3); (7 / 4, 3); (3, 3); (4, 3)] 0 1.
  Lemma hook_offsets : offsetPoint hook 0 10 = Ok ((0, 0), (-1, 0), (-10, 0)) /\ offsetPoint hook 1 10 = Ok ((4, 3), (0, 1), (4, 13)).
  Proof.
    assert (D0 : derivative hook 0 = Ok (vscale 4 (0, 3))) by (rewrite high_derivative by (simpl; lia); rewrite curve3; unfold hook, vscale, vsub; simpl; apply Ok_pair; lra).
    assert (D1 : derivative hook 1 = Ok (vscale 4 (5 / 4, 0))) by (rewrite high_derivative by (simpl; lia); rewrite curve3; unfold hook, vscale, vsub; simpl; apply Ok_pair; lra).
    assert (A : (0, 3) <> (0, 0)) by (intros X; injection X; lra). assert (Z : (5 / 4, 0) <> (0, 0)) by (intros X; injection X; lra).
    pose proof (proj2 (end_normal rnd _ _ _ _ D0 ltac:(lra)) A) as N0. pose proof (proj2 (end_normal rnd _ _ _ _ D1 ltac:(lra)) Z) as N1.
    rewrite (left_normal_unique _ _ (-1, 0) (unit_left_normal _ A)) in N0 by (unfold left_normal, vdot, vcross; cbn [fst snd]; lra).
    rewrite (left_normal_unique _ _ (0, 1) (unit_left_normal _ Z)) in N1 by (unfold left_normal, vdot, vcross; cbn [fst snd]; lra).
    unfold offsetPoint. rewrite !get_ok by (simpl; lia). cbn [bind]. rewrite curve_0, curve_1 by (simpl; lia). rewrite N0, N1. cbn [bind hook cps nth length Nat.sub fst snd]. numRg.
    split; f_equal; f_equal; f_equal; lra.
  Qed.
  Lemma hook_scaled : exists c, scaleNum hook 5 = Ok c /\ cps c = [(-5, 0); (-4, 6); (-5 / 4, 7); (0, 0); (4, 8)].
  Proof.
    destruct hook_offsets as [O0 O1]. unfold scaleNum. destruct (clockwise_ok rnd (cps hook) ltac:(simpl; lia)) as (k & Ek & Hk).
    assert (k = true) as ->. { apply Hk. left. unfold hook, first_leg, vcross, vsub. simpl. lra. }
    rewrite Ek. cbn [bind]. change (nofZ 0) with 0 in *. change (nofZ 10) with 10 in *. change (nofZ 1) with 1 in *. rewrite O0, O1. cbn [bind].
    assert (Eo : scaleOrigin ((0, 0), (-1, 0), (-10, 0)) ((4, 3), (0, 1), (4, 13)) = Ok (4, 0)).
    { unfold scaleOrigin. destruct (lli4 _ _ _ _) as [[x y]|] eqn:E.
      - apply lli4_on in E as (_ & (s & Es) & (r & Er)). unfold along, vadd, vscale, vsub in *; cbn [fst snd] in *. injection Es as -> ->. injection Er as E1 E2. apply Ok_pair; lra.
      - exfalso. apply lli4_None in E. unfold parallel, vcross, vsub in E; cbn [fst snd] in E. lra. }
    rewrite Eo. cbn [bind]. unfold order, hook; cbn [cps length Nat.sub Nat.eqb app repeat]. unfold idx; cbn [nth_error bind fst snd].
    assert (I1 : movedInner (0, 3) (4, 0) 5 = Ok (-4, 6)).
    { rewrite (proj2 (inner_ok rnd _ _ _)) by (intros X; injection X; lra). unfold away. replace (vdist (4, 0) (0, 3)) with 5; [unfold vadd, vscale, vsub; cbn [fst snd]; apply Ok_pair; lra|].
      unfold vdist, dist2; cbn [fst snd]. replace (_ + _) with (5 * 5) by lra. rewrite sqrt_square; lra. }
    assert (I2 : movedInner (7 / 4, 3) (4, 0) 5 = Ok (-5 / 4, 7)).
    { rewrite (proj2 (inner_ok rnd _ _ _)) by (intros X; injection X; lra). unfold away. replace (vdist (4, 0) (7 / 4, 3)) with (15 / 4); [unfold vadd, vscale, vsub; cbn [fst snd]; apply Ok_pair; lra|].
      unfold vdist, dist2; cbn [fst snd]. replace (_ + _) with (15 / 4 * (15 / 4)) by lra. rewrite sqrt_square; lra. }
    rewrite I1. cbn [bind]. rewrite I2. cbn [bind]. rewrite newBezier_ok by (simpl; lia). eexists. split; [reflexivity|]. cbn [cps]. unfold movedEnd; cbn [fst snd]. numRg.
    repeat (f_equal; try lra).
  Qed.
End High.
