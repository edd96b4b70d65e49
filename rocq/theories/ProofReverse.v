(** Curves and lines drawn in the opposite direction. *)
From Coq Require Import List ZArith Bool Reals Lra Lia.
From Verif Require Import Py Inst SpecGeom SpecBezier SpecOrder SpecBounds SpecCurve SpecMove SpecSwap
  MTransform MBounds MBezUtil MPathUtil MBezier MTables MBezierObj ProofUtil ProofBounds ProofBezier ProofBezier2 ProofBBox ProofInter ProofLength ProofMove.
Import ListNotations.
Local Open Scope R_scope.

Lemma curve_rev (p : list pt) t : (2 <= length p <= 4)%nat -> curve (rev p) t = curve p (1 - t).
Proof.
  intros L. destruct p as [|p0 [|p1 [|p2 [|p3 [|p4 r]]]]]; try (simpl in L; lia); cbn [rev app].
  - rewrite !curve2. f_equal; ring.
  - rewrite !curve3. f_equal; ring.
  - rewrite !curve4. f_equal; ring.
Qed.
Lemma get_rev b t : (2 <= length (cps b) <= 4)%nat -> get (reversed b) t = get b (1 - t).
Proof. intros L. unfold reversed. rewrite !get_ok; cbn [cps]; rewrite ?rev_length; try lia. now rewrite curve_rev. Qed.
Lemma derivative_rev b t : (length (cps b) = 3 \/ length (cps b) = 4)%nat ->
  derivative (reversed b) t = answer (fun d => (- fst d, - snd d)) (derivative b (1 - t)).
Proof.
  intros L. destruct b as [p u w]. unfold reversed. cbn [cps bt1 bt2] in *. destruct p as [|[x0 y0] [|[x1 y1] [|[x2 y2] [|[x3 y3] [|p4 r]]]]]; try (simpl in L; lia); cbn [rev app];
  unfold derivative, dcPoints, order; cbn [cps length dcPointsFrom dcLevel idx nth_error bind Nat.sub Nat.eqb diffStep fst snd answer]; numRg;
  change (Z.of_nat 1) with 1%Z; change (Z.of_nat 2) with 2%Z; change (Z.of_nat 3) with 3%Z;
  refine (f_equal2 (fun x y => Ok (x, y)) _ _); ring.
Qed.
Theorem split_rev b t l r q l' r' q' : (length (cps b) = 3 \/ length (cps b) = 4)%nat ->
  split1 b t = Ok (l, r, q) -> split1 (reversed b) (1 - t) = Ok (l', r', q') -> cps l' = rev (cps r) /\ cps r' = rev (cps l).
Proof.
  intros L. destruct b as [p u w]. unfold reversed. cbn [cps bt1 bt2] in *. destruct p as [|[x0 y0] [|[x1 y1] [|[x2 y2] [|[x3 y3] [|p4 s]]]]]; try (simpl in L; lia); cbn [rev app];
  unfold split1, hull; cbn [cps length order Nat.sub Nat.eqb hullLoop Nat.ltb Nat.leb dcLevel app idx nth_error bind];
  unfold idx; cbn [nth_error bind]; rewrite !newBezier_ok by (simpl; lia); cbn [bind cps bt1 bt2];
  numRg; rewrite !bmap01; cbn [bind]; unfold withInterval, lerp; cbn [fst snd]; numRg;
  intros [= <- <- <-] [= <- <- <-]; cbn [cps rev app].
  all: split; repeat (refine (f_equal2 (@cons pt) _ _)); try reflexivity; refine (f_equal2 pair _ _); ring.
Qed.
Theorem split_rev_ok b t : (length (cps b) = 3 \/ length (cps b) = 4)%nat ->
  exists l r q l' r' q', split1 b t = Ok (l, r, q) /\ split1 (reversed b) (1 - t) = Ok (l', r', q') /\ cps l' = rev (cps r) /\ cps r' = rev (cps l).
Proof.
  intros L. destruct (split1_ok b t L) as (l & r & E & _). destruct (split1_ok (reversed b) (1 - t)) as (l' & r' & E' & _); [unfold reversed; cbn [cps]; now rewrite rev_length|].
  do 6 eexists. split; [exact E|]. split; [exact E'|]. exact (split_rev b t _ _ _ _ _ _ L E E').
Qed.
Section Rev.
  Context (rnd : R -> R).
  #[local] Hint Extern 0 (TrigOps R) => exact (RTrig rnd) : typeclass_instances.
  Lemma arc_rev b t : (length (cps b) = 3 \/ length (cps b) = 4)%nat -> arcfun (reversed b) t = arcfun b (1 - t).
  Proof.
    intros L. unfold arcfun. rewrite derivative_rev, bind_answer by exact L. apply bind_ext. intros [x y] _. cbn [fst snd]. numRg. do 2 f_equal. ring.
  Qed.
  Fixpoint mirror_pairs (l : list (Z * Z)) : bool :=
    match l with
    | (t, c) :: (t', c') :: r => (Z.eqb t' (- t) && Z.eqb c c' && mirror_pairs r)%bool
    | [] => true
    | _ => false
    end.
  Lemma gsum_mirror f : forall n l, (length l <= n)%nat -> mirror_pairs l = true -> gsum (fun t => f (1 - t)) l = gsum f l.
  Proof.
    induction n as [|n IH]; intros l Ln M; [destruct l; [reflexivity|simpl in Ln; lia]|]. destruct l as [|[t c] [|[t' c'] l]]; [reflexivity|discriminate|].
    cbn [mirror_pairs] in M. apply andb_true_iff in M as [M Ml]. apply andb_true_iff in M as [Mt Mc]. apply Z.eqb_eq in Mt, Mc. subst t' c'.
    cbn [gsum]. rewrite IH by (auto; cbn [length] in Ln; lia). rewrite opp_IZR.
    replace (1 - (IZR t / IZR tableScale * (1 / 2) + 1 / 2)) with (- IZR t / IZR tableScale * (1 / 2) + 1 / 2) by (unfold Rdiv; lra).
    replace (1 - (- IZR t / IZR tableScale * (1 / 2) + 1 / 2)) with (IZR t / IZR tableScale * (1 / 2) + 1 / 2) by (unfold Rdiv; lra). ring.
  Qed.
  Lemma gl_mirror f : gl (fun t => f (1 - t)) = gl f.
  Proof. unfold gl. f_equal. apply (gsum_mirror f (length nodes)); [lia|]. vm_compute. reflexivity. Qed.
  Theorem length_rev b : (length (cps b) = 3 \/ length (cps b) = 4)%nat -> quadrature (reversed b) = quadrature b.
  Proof.
    intros L. assert (Lr : (length (cps (reversed b)) = 3 \/ length (cps (reversed b)) = 4)%nat) by (unfold reversed; cbn [cps]; rewrite rev_length; exact L).
    rewrite !quadrature_gl by assumption. f_equal. rewrite <- gl_mirror. apply gl_ext. intros t.
    pose proof (arc_rev b (1 - t) L) as E. rewrite !arcfun_norm in E by assumption. injection E as E. replace (1 - (1 - t)) with t in E by ring. exact E.
  Qed.
  Theorem bounds_rev b : (2 <= length (cps b) <= 4)%nat -> boundsRectangle (reversed b) = boundsRectangle b.
  Proof.
    intros L. assert (Lr : (2 <= length (cps (reversed b)) <= 4)%nat) by (unfold reversed; cbn [cps]; rewrite rev_length; exact L).
    assert (C : forall t, curve (cps (reversed b)) t = curve (cps b) (1 - t)) by (intros t; now apply curve_rev).
    unfold boundsRectangle. assert (E : bbox (reversed b) = bbox b); [|now rewrite E].
    unfold bbox, extrema.
    destruct (extremaDim_spec rnd b 0 L) as (e0 & E0 & _). destruct (extremaDim_spec rnd b 1 L) as (e1 & E1 & _).
    destruct (extremaDim_spec rnd (reversed b) 0 Lr) as (f0 & F0 & _). destruct (extremaDim_spec rnd (reversed b) 1 Lr) as (f1 & F1 & _).
    rewrite E0, E1, F0, F1. cbn [bind ex0 ex1].
    assert (D : forall d e f, extremaDim b d = Ok e -> extremaDim (reversed b) d = Ok f -> getminmax (reversed b) d f = getminmax b d e).
    { intros d e f Ee Ef. destruct (getminmax_spec b d e ltac:(lia)) as (mn & mx & G & _ & B1 & B2 & B3 & B4).
      destruct (getminmax_spec (reversed b) d f ltac:(lia)) as (mn' & mx' & G' & _ & B1' & B2' & B3' & B4').
      destruct (dim_bounds rnd b d e mn mx L Ee G) as (I & _). destruct (dim_bounds rnd (reversed b) d f mn' mx' Lr Ef G') as (I' & _).
      destruct (extremaDim_spec rnd b d L) as (e' & Ee' & U & _). rewrite Ee in Ee'. injection Ee' as <-.
      destruct (extremaDim_spec rnd (reversed b) d Lr) as (f' & Ef' & U' & _). rewrite Ef in Ef'. injection Ef' as <-.
      assert (J : forall s, s = 0 \/ s = 1 \/ In s e -> 0 <= s <= 1) by (intros s [->|[->|Q]]; [lra|lra|auto]).
      assert (J' : forall s, s = 0 \/ s = 1 \/ In s f -> 0 <= s <= 1) by (intros s [->|[->|Q]]; [lra|lra|auto]).
      rewrite G, G'. f_equal. f_equal.
      - apply Rle_antisym.
        + destruct B1 as [->|(s & Hs & ->)]; [exact B3'|]. apply J in Hs. specialize (I' (1 - s) ltac:(lra)). rewrite C in I'. replace (1 - (1 - s)) with s in I' by ring. lra.
        + destruct B1' as [->|(s & Hs & ->)]; [exact B3|]. apply J' in Hs. rewrite C. apply (I (1 - s)). lra.
      - apply Rle_antisym.
        + destruct B2' as [->|(s & Hs & ->)]; [exact B4|]. apply J' in Hs. rewrite C. apply (I (1 - s)). lra.
        + destruct B2 as [->|(s & Hs & ->)]; [exact B4'|]. apply J in Hs. specialize (I' (1 - s) ltac:(lra)). rewrite C in I'. replace (1 - (1 - s)) with s in I' by ring. lra. }
    rewrite (D 0%nat e0 f0 E0 F0), (D 1%nat e1 f1 E1 F1). reflexivity.
  Qed.
End Rev.
(** ** Lines *)
Lemma lli4_swap a b c d : @lli4 R RNum c d a b = lli4 a b c d.
Proof.
  destruct a as [x1 y1], b as [x2 y2], c as [x3 y3], d as [x4 y4]. unfold lli4, lli8. numRg. cbn [fst snd].
  set (D := (x1 - x2) * (y3 - y4) - (y1 - y2) * (x3 - x4)). replace ((x3 - x4) * (y1 - y2) - (y3 - y4) * (x1 - x2)) with (- D) by (unfold D; ring).
  destruct (Reqb_spec D 0) as [E|E], (Reqb_spec (- D) 0) as [F|F]; try (exfalso; lra); [reflexivity|].
  refine (f_equal2 (fun x y => Some (x, y)) _ _); field; lra.
Qed.
Lemma lli4_rev a b c d : @lli4 R RNum b a c d = lli4 a b c d.
Proof.
  destruct a as [x1 y1], b as [x2 y2], c as [x3 y3], d as [x4 y4]. unfold lli4, lli8. numRg. cbn [fst snd].
  set (D := (x1 - x2) * (y3 - y4) - (y1 - y2) * (x3 - x4)). replace ((x2 - x1) * (y3 - y4) - (y2 - y1) * (x3 - x4)) with (- D) by (unfold D; ring).
  destruct (Reqb_spec D 0) as [E|E], (Reqb_spec (- D) 0) as [F|F]; try (exfalso; lra); [reflexivity|].
  refine (f_equal2 (fun x y => Some (x, y)) _ _); field; lra.
Qed.
Lemma box_rev (a b : pt) : @BoundsRectangle R RNum [b; a] = BoundsRectangle [a; b].
Proof.
  destruct a as [x0 y0], b as [x1 y1]. rewrite !BR_two. f_equal.
  - rewrite <- !Rmin_assoc. f_equal. apply Rmin_comm.
  - rewrite <- !Rmax_assoc. f_equal. apply Rmax_comm.
  - rewrite <- !Rmax_assoc. f_equal. apply Rmax_comm.
  - rewrite <- !Rmin_assoc. f_equal. apply Rmin_comm.
Qed.
Lemma crossing_swap a b c d : @intersectionPoint R RNum [c; d] [a; b] = intersectionPoint [a; b] [c; d].
Proof.
  unfold intersectionPoint, lli. cbn [idx nth_error bind]. rewrite lli4_swap. destruct (lli4 a b c d); [|reflexivity]. now rewrite andb_comm.
Qed.
Lemma crossing_rev a b c d : @intersectionPoint R RNum [b; a] [c; d] = intersectionPoint [a; b] [c; d].
Proof. unfold intersectionPoint, lli. cbn [idx nth_error bind]. rewrite lli4_rev, box_rev. reflexivity. Qed.
Lemma encloses_both (a b : rect R) : encloses a b = true -> encloses b a = true -> a = b.
Proof.
  destruct a as [a1 a2 a3 a4], b as [b1 b2 b3 b4]. unfold encloses. rewrite !andb_true_iff, !enclosesPoint_R. cbn [left right top bottom fst snd].
  intros A B. f_equal; lra.
Qed.
Lemma relation_swap (a b : rect R) : a <> b ->
  relationTo b a = match relationTo a b with relationEnclosed => relationEncloses | relationEncloses => relationEnclosed | x => x end.
Proof.
  intros N. unfold relationTo. destruct (encloses a b) eqn:E, (encloses b a) eqn:E'; try reflexivity; [destruct (N (encloses_both a b E E'))|].
  pose proof (intersection_some_R a b) as I. pose proof (intersection_some_R b a) as I'.
  rewrite (Rmax_comm (left a)), (Rmin_comm (right a)), (Rmax_comm (bottom a)), (Rmin_comm (top a)) in I.
  destruct (intersection a b) as [i|], (intersection b a) as [j|]; try reflexivity; exfalso.
  - destruct (proj2 I') as (k & K); [apply I; eauto|discriminate].
  - destruct (proj2 I) as (k & K); [apply I'; eauto|discriminate].
Qed.
