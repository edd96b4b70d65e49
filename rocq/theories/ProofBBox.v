(** Proofs about extrema, bbox and boundsRectangle. *)
From Coq Require Import List ZArith Bool Reals Lra Lia Psatz.
From Verif Require Import Py Inst SpecGeom SpecMatrix SpecFit SpecUtil SpecBezier SpecOrder SpecBounds
  MTransform MBounds MBezUtil MPathUtil MBezier SpecCurve
  ProofMatrix ProofFit ProofUtil ProofBounds ProofBezier ProofBezier2.
Import ListNotations.
Local Open Scope R_scope.

(** ** A differentiable function on [0,1] is bounded by its values at the ends and the zeros of
    its derivative *)
Lemma derivable_of (f f' : R -> R) : (forall t, derivable_pt_lim f t (f' t)) -> forall t, derivable_pt f t.
Proof. intros H t. exists (f' t). apply H. Qed.
Lemma max_attained (f f' : R -> R) (crit : list R) : (forall t, derivable_pt_lim f t (f' t)) ->
  (forall t, 0 < t < 1 -> f' t = 0 -> In t crit \/ forall s, f s = f 0) ->
  forall t, 0 <= t <= 1 -> exists s, (s = 0 \/ s = 1 \/ In s crit) /\ f t <= f s.
Proof.
  intros D C t Ht.
  destruct (continuity_ab_maj f 0 1 ltac:(lra)) as (M & HM & HI).
  { intros c _. apply derivable_continuous_pt. apply (derivable_of f f' D). }
  destruct (Req_dec M 0) as [->|N0]; [exists 0; split; auto|].
  destruct (Req_dec M 1) as [->|N1]; [exists 1; split; auto|].
  assert (I : 0 < M < 1) by lra.
  assert (Z : f' M = 0).
  { pose proof (deriv_maximum f 0 1 M (derivable_of f f' D M) (proj1 I) (proj2 I)) as E.
    rewrite (derive_pt_eq_0 f M (f' M) _ (D M)) in E. apply E. intros; apply HM; lra. }
  destruct (C M I Z) as [K|K]; [exists M; split; auto|].
  exists 0. split; auto. rewrite (K t). lra.
Qed.
Lemma min_attained (f f' : R -> R) (crit : list R) : (forall t, derivable_pt_lim f t (f' t)) ->
  (forall t, 0 < t < 1 -> f' t = 0 -> In t crit \/ forall s, f s = f 0) ->
  forall t, 0 <= t <= 1 -> exists s, (s = 0 \/ s = 1 \/ In s crit) /\ f s <= f t.
Proof.
  intros D C t Ht. destruct (max_attained (fun x => - f x) (fun x => - f' x) crit) with (t := t) as (s & Hs & L); auto.
  - intros x. apply (derivable_pt_lim_opp f x (f' x)). apply D.
  - intros x Hx E. destruct (C x Hx ltac:(lra)) as [K|K]; auto. right. intros s. now rewrite (K s).
  - exists s. split; auto. lra.
Qed.

Lemma Rabs_inv (x a : R) : Rabs x <= a -> - a <= x <= a.
Proof. unfold Rabs. destruct (Rcase_abs x); lra. Qed.

(** ** The scan of _getminmax *)
Lemma nmem_In (x : R) l : nmem x l = true <-> In x l.
Proof.
  unfold nmem. rewrite existsb_exists. numRg. split.
  - intros (y & Hy & E). apply Reqb_true in E. now subst.
  - intros Hx. exists x. split; auto. now apply Reqb_true.
Qed.
Lemma addEnds_In (l : list R) x : In x (addEnds l) <-> x = 0 \/ x = 1 \/ In x l.
Proof.
  unfold addEnds. numRg. set (l0 := if nmem 0 l then l else 0 :: l).
  assert (E0 : forall y, In y l0 <-> y = 0 \/ In y l).
  { intros y. unfold l0. destruct (nmem 0 l) eqn:M.
    - apply nmem_In in M. split; auto. intros [->|]; auto.
    - simpl. intuition. }
  destruct (nmem 1 l0) eqn:M.
  - apply nmem_In in M. rewrite E0. split; [tauto|]. intros [->|[->|K]]; auto. now apply E0.
  - rewrite in_app_iff, E0. simpl. intuition.
Qed.
Definition coordR (d : nat) (p : pt) : R := coord d p.
Lemma minmax_spec (g : R -> R) (l : list R) (mn0 mx0 : R) :
  let r := fold_left (fun (mm : R * R) t => (if Rltb (g t) (fst mm) then g t else fst mm, if Rltb (snd mm) (g t) then g t else snd mm)) l (mn0, mx0) in
  fst r <= mn0 /\ mx0 <= snd r /\ (forall t, In t l -> fst r <= g t <= snd r) /\
  (fst r = mn0 \/ exists t, In t l /\ fst r = g t) /\ (snd r = mx0 \/ exists t, In t l /\ snd r = g t).
Proof.
  revert mn0 mx0. induction l as [|a l IH]; intros mn0 mx0; cbn [fold_left].
  - cbn [fst snd In]. repeat split; auto; try lra; tauto.
  - cbn [fst snd]. specialize (IH (if Rltb (g a) mn0 then g a else mn0) (if Rltb mx0 (g a) then g a else mx0)).
    cbv zeta in IH. set (r := fold_left _ l _) in *. destruct IH as (A & B & C & D & E).
    assert (A' : fst r <= mn0 /\ fst r <= g a) by (destruct (Rltb_spec (g a) mn0); lra).
    assert (B' : mx0 <= snd r /\ g a <= snd r) by (destruct (Rltb_spec mx0 (g a)); lra).
    split; [tauto|]. split; [tauto|]. split; [|split].
    + intros t [<-|K]; [lra | auto].
    + destruct D as [D|(t & Ht & D)]; [|right; exists t; simpl; auto].
      destruct (Rltb_spec (g a) mn0); [right; exists a; simpl; auto | auto].
    + destruct E as [E|(t & Ht & E)]; [|right; exists t; simpl; auto].
      destruct (Rltb_spec mx0 (g a)); [right; exists a; simpl; auto | auto].
Qed.
Lemma getminmax_spec (b : bezier R) (d : nat) (l : list R) : (1 <= length (cps b))%nat ->
  exists mn mx, getminmax b d l = Ok (mn, mx) /\
  (forall s, s = 0 \/ s = 1 \/ In s l -> mn <= coord d (curve (cps b) s) <= mx) /\
  (mn = maxSafe \/ exists s, (s = 0 \/ s = 1 \/ In s l) /\ mn = coord d (curve (cps b) s)) /\
  (mx = minSafe \/ exists s, (s = 0 \/ s = 1 \/ In s l) /\ mx = coord d (curve (cps b) s)) /\ mn <= maxSafe /\ minSafe <= mx.
Proof.
  intros L. unfold getminmax.
  rewrite (foldM_pure _ (fun (mm : R * R) t => (if Rltb (coord d (curve (cps b) t)) (fst mm) then coord d (curve (cps b) t) else fst mm,
     if Rltb (snd mm) (coord d (curve (cps b) t)) then coord d (curve (cps b) t) else snd mm))).
  2:{ intros s a _. rewrite get_ok by auto. reflexivity. }
  pose proof (minmax_spec (fun t => coord d (curve (cps b) t)) (addEnds l) maxSafe minSafe) as K. cbv zeta in K.
  set (r := fold_left _ _ _) in *. destruct r as [mn mx]. cbn [fst snd] in K. destruct K as (A & B & C & D & E).
  exists mn, mx. split; auto. split; [intros s Hs; apply C; now apply addEnds_In|].
  split; [|split; auto].
  - destruct D as [D|(t & Ht & D)]; auto. right. exists t. split; auto. now apply addEnds_In.
  - destruct E as [E|(t & Ht & E)]; auto. right. exists t. split; auto. now apply addEnds_In.
Qed.

(** ** Critical points *)
Section Extrema.
  Context (rnd : R -> R).
  #[local] Hint Extern 0 (TrigOps R) => exact (RTrig rnd) : typeclass_instances.
  Lemma inUnit_In (l : list (option R)) t : In t (inUnit l) <-> In (Some t) l /\ 0 <= t <= 1.
  Proof.
    unfold inUnit. rewrite in_flat_map. numRg. split.
    - intros ([x|] & Hx & K); [|destruct K]. rcaseh; simpl in K; try tauto. destruct K as [<-|[]]. auto.
    - intros [H1 H2]. exists (Some t). split; auto. rewrite (proj2 (Rleb_true 0 t)), (proj2 (Rleb_true t 1)) by lra. simpl; auto.
  Qed.
  Lemma coord_curve d (p : list pt) t : (1 <= length p)%nat -> coord d (curve p t) = bez (length p - 1) (fun i => coord d (nth i p (0, 0))) t.
  Proof. intros L. rewrite curve_cv. unfold cv, coord, cx, cy. destruct (Nat.eqb d 0); reflexivity. Qed.
  Lemma coord_deriv d (p : list pt) t : (2 <= length p)%nat ->
    derivable_pt_lim (fun s => coord d (curve p s)) t (coord d (curve (dcLevel (diffStep (length p - 1)) p) t)).
  Proof.
    intros L. destruct (curve_deriv p t L) as [A B]. unfold coord. destruct (Nat.eqb d 0); assumption.
  Qed.
  Lemma extremaDim_spec (b : bezier R) (d : nat) : (2 <= length (cps b) <= 4)%nat ->
    exists l, extremaDim b d = Ok l /\ (forall t, In t l -> 0 <= t <= 1) /\
      forall t, 0 < t < 1 -> coord d (curve (dcLevel (diffStep (length (cps b) - 1)) (cps b)) t) = 0 ->
        In t l \/ forall s, coord d (curve (cps b) s) = coord d (curve (cps b) 0).
  Proof.
    intros L. destruct b as [p u v]; cbn [cps] in *.
    assert (C : forall P : pt -> pt, True) by auto. clear C.
    destruct p as [|a [|b [|c [|e [|f r]]]]]; try (simpl in L; lia).
    - eexists; split; [reflexivity|]. split; [simpl; tauto|]. intros t Ht. cbn [length Nat.sub dcLevel].
      rewrite coord_curve by (simpl; lia). cbn [length Nat.sub bez nth]. intros E. right. intros s. rewrite !curve2.
      destruct a as [ax ay], b as [bx by']. unfold diffStep in E. unfold coord in *. destruct (Nat.eqb d 0); cbn [fst snd] in *; numR; cbn [Z.of_nat Pos.of_succ_nat] in E;
        [replace bx with ax by lra | replace by' with ay by lra]; ring.
    - eexists; split; [reflexivity|]. unfold order; cbn [cps length Nat.sub Nat.eqb].
      split; [intros t Ht; apply inUnit_In in Ht; tauto|].
      intros t Ht E. rewrite inUnit_In. cbn [dcLevel map].
      set (x := coord d (diffStep 2 a b)). set (y := coord d (diffStep 2 b c)).
      destruct (Req_dec x 0) as [X|X]; [destruct (Req_dec y 0) as [Y|Y]|].
      + right. intros s. rewrite !curve3. destruct a as [ax ay], b as [bx by'], c as [cx' cy'].
        unfold x, y, diffStep, coord in *. destruct (Nat.eqb d 0); cbn [fst snd] in *; numR; cbn [Z.of_nat Pos.of_succ_nat Pos.succ] in X, Y;
        [replace bx with ax by lra; replace cx' with ax by lra | replace by' with ay by lra; replace cy' with ay by lra]; ring.
      + left. split; [|lra]. apply droots1; [tauto|]. rewrite <- E. cbn [dcLevel]. rewrite curve2. unfold x, y, bern1, coord. destruct (Nat.eqb d 0); reflexivity.
      + left. split; [|lra]. apply droots1; [tauto|]. rewrite <- E. cbn [dcLevel]. rewrite curve2. unfold x, y, bern1, coord. destruct (Nat.eqb d 0); reflexivity.
    - eexists; split; [reflexivity|]. cbn [length Nat.sub].
      split; [intros t Ht; apply inUnit_In in Ht; tauto|].
      intros t Ht E. rewrite inUnit_In, in_app_iff. cbn [dcLevel map].
      set (x := coord d (diffStep 3 a b)). set (y := coord d (diffStep 3 b c)). set (z := coord d (diffStep 3 c e)).
      destruct (Req_dec x 0) as [X|X]; [destruct (Req_dec y 0) as [Y|Y]; [destruct (Req_dec z 0) as [Z|Z]|]|].
      { right. intros s. rewrite !curve4. destruct a as [ax ay], b as [bx by'], c as [cx' cy'], e as [ex ey].
        unfold x, y, z, diffStep, coord in *. destruct (Nat.eqb d 0); cbn [fst snd] in *; numR; cbn [Z.of_nat Pos.of_succ_nat Pos.succ] in X, Y, Z;
        [replace bx with ax by lra; replace cx' with ax by lra; replace ex with ax by lra
        |replace by' with ay by lra; replace cy' with ay by lra; replace ey with ay by lra]; ring. }
      all: left; (split; [|lra]); left; apply droots2; [tauto|]; rewrite <- E; cbn [dcLevel]; rewrite curve3; unfold x, y, z, bern2, coord; destruct (Nat.eqb d 0); reflexivity.
  Qed.
  Lemma dim_bounds (b : bezier R) (d : nat) l mn mx : (2 <= length (cps b) <= 4)%nat -> extremaDim b d = Ok l ->
    getminmax b d l = Ok (mn, mx) ->
    (forall t, 0 <= t <= 1 -> mn <= coord d (curve (cps b) t) <= mx) /\
    ((exists s, 0 <= s <= 1 /\ coord d (curve (cps b) s) <= maxSafe) -> exists t, 0 <= t <= 1 /\ mn = coord d (curve (cps b) t)) /\
    ((exists s, 0 <= s <= 1 /\ minSafe <= coord d (curve (cps b) s)) -> exists t, 0 <= t <= 1 /\ mx = coord d (curve (cps b) t)).
  Proof.
    intros L El Em. destruct (extremaDim_spec b d L) as (l' & El' & I & C). rewrite El in El'. injection El' as <-.
    destruct (getminmax_spec b d l ltac:(lia)) as (mn' & mx' & Em' & B & A1 & A2 & M1 & M2). rewrite Em in Em'. injection Em' as <- <-.
    assert (J : forall s, s = 0 \/ s = 1 \/ In s l -> 0 <= s <= 1) by (intros s [->|[->|K]]; [lra|lra|auto]).
    assert (G : forall t, 0 <= t <= 1 -> mn <= coord d (curve (cps b) t) <= mx).
    { intros t Ht. split.
      - destruct (min_attained _ _ l (fun t => coord_deriv d (cps b) t (proj1 L)) C t Ht) as (s & Hs & Ls). specialize (B s Hs). lra.
      - destruct (max_attained _ _ l (fun t => coord_deriv d (cps b) t (proj1 L)) C t Ht) as (s & Hs & Ls). specialize (B s Hs). lra. }
    split; [exact G|]. split.
    - intros (s & Hs & Ls). destruct A1 as [E|(t & Ht & E)]; [|exists t; auto].
      exists s. split; auto. specialize (G s Hs). lra.
    - intros (s & Hs & Ls). destruct A2 as [E|(t & Ht & E)]; [|exists t; auto].
      exists s. split; auto. specialize (G s Hs). lra.
  Qed.
  (** C42, C43 *)
  Theorem bbox_spec (b : bezier R) : (2 <= length (cps b) <= 4)%nat ->
    exists x0 x1 y0 y1, bbox b = Ok ((x0, x1), (y0, y1)) /\
      (forall t, 0 <= t <= 1 -> x0 <= fst (curve (cps b) t) <= x1 /\ y0 <= snd (curve (cps b) t) <= y1) /\
      ((exists s, 0 <= s <= 1 /\ safe_point (curve (cps b) s)) ->
        (exists t, 0 <= t <= 1 /\ fst (curve (cps b) t) = x0) /\ (exists t, 0 <= t <= 1 /\ fst (curve (cps b) t) = x1) /\
        (exists t, 0 <= t <= 1 /\ snd (curve (cps b) t) = y0) /\ (exists t, 0 <= t <= 1 /\ snd (curve (cps b) t) = y1)).
  Proof.
    intros L. destruct (extremaDim_spec b 0 L) as (l0 & E0 & _). destruct (extremaDim_spec b 1 L) as (l1 & E1 & _).
    destruct (getminmax_spec b 0 l0 ltac:(lia)) as (x0 & x1 & Ex & _). destruct (getminmax_spec b 1 l1 ltac:(lia)) as (y0 & y1 & Ey & _).
    destruct (dim_bounds b 0 l0 x0 x1 L E0 Ex) as (X & X0 & X1). destruct (dim_bounds b 1 l1 y0 y1 L E1 Ey) as (Y & Y0 & Y1).
    unfold coord in *. cbn [Nat.eqb] in *.
    exists x0, x1, y0, y1. split; [|split].
    - unfold bbox, extrema. rewrite E0. cbn [bind]. rewrite E1. cbn [bind ex0 ex1]. rewrite Ex. cbn [bind]. rewrite Ey. reflexivity.
    - intros t Ht. specialize (X t Ht). specialize (Y t Ht). auto.
    - intros (s & Hs & [S1 S2]). unfold maxSafe, minSafe in *. numR. apply Rabs_inv in S1, S2.
      destruct X0 as (t1 & T1 & F1); [exists s; lra|]. destruct X1 as (t2 & T2 & F2); [exists s; lra|].
      destruct Y0 as (t3 & T3 & F3); [exists s; lra|]. destruct Y1 as (t4 & T4 & F4); [exists s; lra|].
      split; [exists t1|split; [exists t2|split; [exists t3|exists t4]]]; auto.
  Qed.
  Lemma BR_two (x0 x1 y0 y1 : R) : BoundsRectangle [(x0, y0); (x1, y1)] =
    mkRect (Rmin (Rmin 32768 x0) x1) (Rmax (Rmax (-32768) x0) x1) (Rmax (Rmax (-32768) y0) y1) (Rmin (Rmin 32768 y0) y1).
  Proof.
    assert (A : forall a b : R, pmin a b = Rmin a b).
    { intros. unfold pmin, Rmin. numRg. destruct (Rltb_spec b a), (Rle_dec a b); lra. }
    assert (B : forall a b : R, pmax a b = Rmax a b).
    { intros. unfold pmax, Rmax. numRg. destruct (Rltb_spec a b), (Rle_dec a b); lra. }
    unfold BoundsRectangle, addPoint, emptyRect. cbn [fold_left left right top bottom]. rewrite !A, !B. reflexivity.
  Qed.
  Theorem boundsRectangle_spec (b : bezier R) : (2 <= length (cps b) <= 4)%nat ->
    exists r, boundsRectangle b = Ok r /\
      (forall t, 0 <= t <= 1 -> enclosesPoint r (curve (cps b) t) = true) /\
      ((exists s, 0 <= s <= 1 /\ Rabs (fst (curve (cps b) s)) <= 32768 /\ Rabs (snd (curve (cps b) s)) <= 32768) ->
        (exists t, 0 <= t <= 1 /\ fst (curve (cps b) t) = left r) /\ (exists t, 0 <= t <= 1 /\ fst (curve (cps b) t) = right r) /\
        (exists t, 0 <= t <= 1 /\ snd (curve (cps b) t) = bottom r) /\ (exists t, 0 <= t <= 1 /\ snd (curve (cps b) t) = top r)).
  Proof.
    intros L. destruct (bbox_spec b L) as (x0 & x1 & y0 & y1 & E & B & A).
    exists (BoundsRectangle [(x0, y0); (x1, y1)]). split; [unfold boundsRectangle; rewrite E; reflexivity|].
    rewrite BR_two. split.
    - intros t Ht. specialize (B t Ht). apply enclosesPoint_iff. unfold in_box. cbn [left right top bottom]. numRg. rewrite !Rleb_true.
      pose proof (Rmin_l (Rmin 32768 x0) x1). pose proof (Rmin_r 32768 x0). pose proof (Rmax_r (Rmax (-32768) x0) x1).
      pose proof (Rmin_l (Rmin 32768 y0) y1). pose proof (Rmin_r 32768 y0). pose proof (Rmax_r (Rmax (-32768) y0) y1). lra.
    - intros (s & Hs & S1 & S2). apply Rabs_inv in S1, S2. pose proof (B s Hs) as Bs.
      cbn [left right top bottom].
      rewrite (Rmin_right 32768 x0), (Rmin_left x0 x1), (Rmin_right 32768 y0), (Rmin_left y0 y1) by lra.
      rewrite (Rmax_right (Rmax (-32768) x0) x1) by (apply Rmax_lub; lra). rewrite (Rmax_right (Rmax (-32768) y0) y1) by (apply Rmax_lub; lra).
      apply A. exists s. split; auto. split; apply Rabs_le; lra.
  Qed.
End Extrema.
