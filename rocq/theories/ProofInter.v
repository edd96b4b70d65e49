(** Curve intersection by bisection of boxes (Bezier.py 646-708). *)
From Coq Require Import List ZArith Bool Reals Lra Lia.
From Verif Require Import Py Inst SpecGeom SpecMatrix SpecFit SpecUtil SpecBezier SpecOrder SpecBounds SpecCurve
  MTransform MBounds MBezUtil MPathUtil MBezier ProofMatrix ProofFit ProofUtil ProofBounds ProofBezier ProofBezier2 ProofBBox.
Import ListNotations.
Local Open Scope R_scope.

(** ** Lipschitz bounds *)
Lemma Rabs_comb (a b x y : R) : 0 <= a -> 0 <= b -> Rabs (a * x + b * y) <= a * Rabs x + b * Rabs y.
Proof. intros A B. eapply Rle_trans; [apply Rabs_triang|]. rewrite !Rabs_mult, (Rabs_pos_eq a), (Rabs_pos_eq b) by auto. lra. Qed.
Lemma lip2 a b c s t : 0 <= s <= 1 -> 0 <= t <= 1 ->
  Rabs (((1 - t) ^ 2 * a + 2 * (1 - t) * t * b + t ^ 2 * c) - ((1 - s) ^ 2 * a + 2 * (1 - s) * s * b + s ^ 2 * c))
  <= 2 * (Rabs (b - a) + Rabs (c - b)) * Rabs (t - s).
Proof.
  intros S T.
  replace (_ - _) with (((2 - t - s) * (b - a) + (t + s) * (c - b)) * (t - s)) by ring.
  rewrite Rabs_mult. apply Rmult_le_compat_r; [apply Rabs_pos|].
  eapply Rle_trans; [apply Rabs_comb; lra|]. pose proof (Rabs_pos (b - a)). pose proof (Rabs_pos (c - b)). nra.
Qed.
Lemma lip3 a b c d s t : 0 <= s <= 1 -> 0 <= t <= 1 ->
  Rabs (((1 - t) ^ 3 * a + 3 * (1 - t) ^ 2 * t * b + 3 * (1 - t) * t ^ 2 * c + t ^ 3 * d)
      - ((1 - s) ^ 3 * a + 3 * (1 - s) ^ 2 * s * b + 3 * (1 - s) * s ^ 2 * c + s ^ 3 * d))
  <= 3 * (Rabs (b - a) + Rabs (c - b) + Rabs (d - c)) * Rabs (t - s).
Proof.
  intros S T.
  set (k0 := (1 - t) ^ 2 + (1 - t) * (1 - s) + (1 - s) ^ 2).
  set (k1 := 2 * (t * (1 - t)) + 2 * (s * (1 - s)) + t * (1 - s) + s * (1 - t)). set (k2 := t ^ 2 + t * s + s ^ 2).
  assert (0 <= k0) by (unfold k0; nra). assert (0 <= k1) by (unfold k1; nra). assert (0 <= k2) by (unfold k2; nra).
  assert (k0 + k1 + k2 = 3) by (unfold k0, k1, k2; ring).
  replace (_ - _) with ((1 * (k0 * (b - a) + k1 * (c - b)) + k2 * (d - c)) * (t - s)) by (unfold k0, k1, k2; ring).
  rewrite Rabs_mult. apply Rmult_le_compat_r; [apply Rabs_pos|].
  eapply Rle_trans; [apply Rabs_comb; lra|]. pose proof (Rabs_comb k0 k1 (b - a) (c - b)).
  pose proof (Rabs_pos (b - a)). pose proof (Rabs_pos (c - b)). pose proof (Rabs_pos (d - c)). nra.
Qed.
Lemma curve_lip (p : list pt) : (length p = 3 \/ length p = 4)%nat ->
  exists X Y, INR (length p - 1) * taxi_length p = X + Y /\ 0 <= X /\ 0 <= Y /\
    (forall s t, 0 <= s <= 1 -> 0 <= t <= 1 -> Rabs (fst (curve p t) - fst (curve p s)) <= X * Rabs (t - s) /\ Rabs (snd (curve p t) - snd (curve p s)) <= Y * Rabs (t - s)).
Proof.
  intros L. destruct p as [|[x0 y0] [|[x1 y1] [|[x2 y2] [|[x3 y3] [|p4 r]]]]]; try (simpl in L; lia).
  - exists (2 * (Rabs (x1 - x0) + Rabs (x2 - x1))), (2 * (Rabs (y1 - y0) + Rabs (y2 - y1))).
    pose proof (Rabs_pos (x1 - x0)). pose proof (Rabs_pos (x2 - x1)). pose proof (Rabs_pos (y1 - y0)). pose proof (Rabs_pos (y2 - y1)).
    split; [cbn [length Nat.sub taxi_length fst snd]; simpl INR; lra|]. split; [lra|]. split; [lra|].
    intros s t S T. rewrite !curve3. cbn [fst snd]. split; now apply lip2.
  - exists (3 * (Rabs (x1 - x0) + Rabs (x2 - x1) + Rabs (x3 - x2))), (3 * (Rabs (y1 - y0) + Rabs (y2 - y1) + Rabs (y3 - y2))).
    pose proof (Rabs_pos (x1 - x0)). pose proof (Rabs_pos (x2 - x1)). pose proof (Rabs_pos (y1 - y0)). pose proof (Rabs_pos (y2 - y1)).
    pose proof (Rabs_pos (x3 - x2)). pose proof (Rabs_pos (y3 - y2)).
    split; [cbn [length Nat.sub taxi_length fst snd]; simpl INR; lra|]. split; [lra|]. split; [lra|].
    intros s t S T. rewrite !curve4. cbn [fst snd]. split; now apply lip3.
Qed.

Lemma Ok_inv {A} (x y : A) : Ok x = Ok y -> x = y.
Proof. intros E; now injection E. Qed.
(** ** Sub-curves *)
(** [b] is the part of [o] between [a] and [z], with the interval to match. *)
Definition subc (o b : bezier R) (a z : R) : Prop :=
  (length (cps o) = 3 \/ length (cps o) = 4)%nat /\ length (cps b) = length (cps o) /\ 0 <= a <= z /\ z <= 1 /\
  (forall s, curve (cps b) s = curve (cps o) (a + s * (z - a))) /\
  bt1 b = bt1 o + a * (bt2 o - bt1 o) /\ bt2 b = bt1 o + z * (bt2 o - bt1 o).
Lemma subc_self o : (length (cps o) = 3 \/ length (cps o) = 4)%nat -> subc o o 0 1.
Proof. intros L. unfold subc. repeat split; try lra; auto. intros s. f_equal. ring. Qed.
Lemma subc_split o b a z : subc o b a z -> exists l r, split1 b (1 / 2) = Ok (l, r, hull b (1 / 2)) /\ subc o l a ((a + z) / 2) /\ subc o r ((a + z) / 2) z.
Proof.
  intros (L & Lb & A & Z & C & T1 & T2).
  destruct (split1_ok b (1 / 2)) as (l & r & E & Ll & Lr & Cl & Cr & _ & _ & _ & _ & U1 & U2 & V1 & V2); [now rewrite Lb|].
  exists l, r. split; [exact E|]. split; unfold subc; (split; [auto|]); (split; [congruence|]); (split; [lra|]); (split; [lra|]).
  - split; [|split; lra]. intros s. rewrite Cl, C. f_equal. field.
  - split; [|split; lra]. intros s. rewrite Cr, C. f_equal. field.
Qed.
Lemma subc_point o b a z u : subc o b a z -> a <= u <= z -> exists s, 0 <= s <= 1 /\ curve (cps b) s = curve (cps o) u.
Proof.
  intros (L & Lb & A & Z & C & _) U. destruct (Req_dec z a) as [->|N].
  - exists 0. split; [lra|]. rewrite C. f_equal. lra.
  - exists ((u - a) / (z - a)). split.
    + split; [apply Rmult_le_pos; [lra | left; apply Rinv_0_lt_compat; lra]|].
      apply (Rmult_le_reg_r (z - a)); [lra|]. unfold Rdiv. rewrite Rmult_assoc, Rinv_l by lra. lra.
    + rewrite C. f_equal. field. lra.
Qed.

Section Inter.
  Context (rnd : R -> R).
  #[local] Hint Extern 0 (TrigOps R) => exact (RTrig rnd) : typeclass_instances.
  Variable threshold : R.

  (** The box of a sub-curve. *)
  Lemma subc_box o b a z : subc o b a z -> exists r, boundsRectangle b = Ok r /\
    (forall u, a <= u <= z -> left r <= fst (curve (cps o) u) <= right r /\ bottom r <= snd (curve (cps o) u) <= top r) /\
    ((forall q, In q (cps o) -> Rabs (fst q) <= 32768 /\ Rabs (snd q) <= 32768) ->
      height r + width r <= INR (length (cps o) - 1) * taxi_length (cps o) * (z - a)).
  Proof.
    intros S. pose proof S as (L & Lb & A & Z & C & _).
    destruct (boundsRectangle_spec rnd b) as (r & E & B & T); [lia|]. exists r. split; [exact E|]. split.
    - intros u U. destruct (subc_point o b a z u S U) as (s & Hs & <-). specialize (B s Hs). apply enclosesPoint_iff in B.
      unfold in_box in B. numR. rewrite !Rleb_true in B. lra.
    - intros Rg. destruct T as ((t1 & H1 & E1) & (t2 & H2 & E2) & (t3 & H3 & E3) & (t4 & H4 & E4)).
      + exists 0. split; [lra|]. rewrite C. 
        destruct (curve_in_box (cps o) (a + 0 * (z - a)) (-32768) 32768 (-32768) 32768) as [X Y].
        * intros K. rewrite K in L. simpl in L. lia.
        * lra.
        * intros q Hq. destruct (Rg q Hq) as [X Y]. apply Rabs_inv in X, Y. lra.
        * split; apply Rabs_le; lra.
      + destruct (curve_lip (cps o) L) as (X & Y & E' & PX & PY & Lp). unfold height, width. numRg.
        rewrite <- E1, <- E2, <- E3, <- E4, !C, E'.
        assert (I : forall t, 0 <= t <= 1 -> 0 <= a + t * (z - a) <= 1) by (intros t Ht; nra).
        assert (Q : forall s t, 0 <= s <= 1 -> 0 <= t <= 1 -> Rabs (a + t * (z - a) - (a + s * (z - a))) <= z - a).
        { intros s t Hs Ht. replace (_ - _) with ((t - s) * (z - a)) by ring. rewrite Rabs_mult, (Rabs_pos_eq (z - a)) by lra.
          assert (Rabs (t - s) <= 1) by (apply Rabs_le; lra). nra. }
        destruct (Lp (a + t1 * (z - a)) (a + t2 * (z - a)) (I _ H1) (I _ H2)) as [K1 _].
        destruct (Lp (a + t3 * (z - a)) (a + t4 * (z - a)) (I _ H3) (I _ H4)) as [_ K2].
        pose proof (Q t1 t2 H1 H2). pose proof (Q t3 t4 H3 H4).
        pose proof (Rle_abs (fst (curve (cps o) (a + t2 * (z - a))) - fst (curve (cps o) (a + t1 * (z - a))))).
        pose proof (Rle_abs (snd (curve (cps o) (a + t4 * (z - a))) - snd (curve (cps o) (a + t3 * (z - a))))). nra.
  Qed.
  Lemma intersection_some_R (r1 r2 : rect R) : (exists i, intersection r1 r2 = Some i) <->
    Rmax (left r1) (left r2) <= Rmin (right r1) (right r2) /\ Rmax (bottom r1) (bottom r2) <= Rmin (top r1) (top r2).
  Proof.
    assert (A : forall a b : R, pmin a b = Rmin a b).
    { intros. unfold pmin, Rmin. numRg. destruct (Rltb_spec b a), (Rle_dec a b); lra. }
    assert (B : forall a b : R, pmax a b = Rmax a b).
    { intros. unfold pmax, Rmax. numRg. destruct (Rltb_spec a b), (Rle_dec a b); lra. }
    unfold intersection. rewrite !A, !B. numRg.
    destruct (Rltb_spec (Rmin (right r1) (right r2)) (Rmax (left r1) (left r2))); cbn [orb].
    - split; [intros (i & K); discriminate | lra].
    - destruct (Rltb_spec (Rmin (top r1) (top r2)) (Rmax (bottom r1) (bottom r2))).
      + split; [intros (i & K); discriminate | lra].
      + split; [lra | intros _; eauto].
  Qed.
  Lemma overlaps_ok (a b : bezier R) r1 r2 : boundsRectangle a = Ok r1 -> boundsRectangle b = Ok r2 ->
    exists c, overlaps a b = Ok c /\ (c = true <-> exists i, intersection r1 r2 = Some i).
  Proof.
    intros E1 E2. unfold overlaps. rewrite E1, E2. cbn [bind]. eexists; split; [reflexivity|].
    destruct (intersection r1 r2) as [i|]; split; try discriminate; eauto. intros (i & K); discriminate.
  Qed.
  (** Boxes with a common point overlap; overlapping boxes are near each other. *)
  Lemma overlaps_common l r c1 c2 a1 z1 a2 z2 u v : subc l c1 a1 z1 -> subc r c2 a2 z2 -> a1 <= u <= z1 -> a2 <= v <= z2 ->
    curve (cps l) u = curve (cps r) v -> overlaps c1 c2 = Ok true.
  Proof.
    intros S1 S2 U V E. destruct (subc_box _ _ _ _ S1) as (r1 & E1 & B1 & _). destruct (subc_box _ _ _ _ S2) as (r2 & E2 & B2 & _).
    destruct (overlaps_ok c1 c2 r1 r2 E1 E2) as (c & Ec & Hc). rewrite Ec. f_equal. apply Hc, intersection_some_R.
    specialize (B1 u U). specialize (B2 v V). rewrite <- E in B2.
    split; apply Rmax_lub; apply Rmin_glb; lra.
  Qed.
  Lemma overlaps_total l r c1 c2 a1 z1 a2 z2 : subc l c1 a1 z1 -> subc r c2 a2 z2 -> exists c, overlaps c1 c2 = Ok c.
  Proof.
    intros S1 S2. destruct (subc_box _ _ _ _ S1) as (r1 & E1 & B1 & _). destruct (subc_box _ _ _ _ S2) as (r2 & E2 & B2 & _).
    destruct (overlaps_ok c1 c2 r1 r2 E1 E2) as (c & Ec & Hc). eauto.
  Qed.
  Lemma filterM_total {A} (f : A -> res bool) (l : list A) : (forall x, In x l -> exists c, f x = Ok c) -> exists l', filterM f l = Ok l'.
  Proof.
    induction l as [|x l IH]; intros H; simpl; eauto. destruct (H x (or_introl eq_refl)) as (c & ->). cbn [bind].
    destruct IH as (l' & ->); [intros; apply H; now right|]. cbn [bind]. destruct c; eauto.
  Qed.
  Lemma mapM_total {A B} (f : A -> res B) (l : list A) : (forall x, In x l -> exists c, f x = Ok c) -> exists l', mapM f l = Ok l'.
  Proof.
    induction l as [|x l IH]; intros H; simpl; eauto. destruct (H x (or_introl eq_refl)) as (c & ->). cbn [bind].
    destruct IH as (l' & ->); [intros; apply H; now right|]. cbn [bind]. eauto.
  Qed.
  Lemma In_mapM {A B} (f : A -> res B) l bs : mapM f l = Ok bs -> forall b, In b bs -> exists a, In a l /\ f a = Ok b.
  Proof.
    intros H. apply mapM_Ok in H. induction H; intros c Hc; [destruct Hc|]. destruct Hc as [<-|Hc]; [eexists; split; [now left|auto]|].
    destruct (IHForall2 c Hc) as (a & Ha & E). exists a. split; [now right|auto].
  Qed.
  Lemma mapM_In {A B} (f : A -> res B) l bs : mapM f l = Ok bs -> forall a, In a l -> exists b, In b bs /\ f a = Ok b.
  Proof.
    intros H. apply mapM_Ok in H. induction H; intros c Hc; [destruct Hc|]. destruct Hc as [<-|Hc]; [eexists; split; [now left|auto]|].
    destruct (IHForall2 c Hc) as (b & Hb & E). exists b. split; [now right|auto].
  Qed.
  Lemma pteqb_R (p q : pt) : pteqb p q = true <-> p = q.
  Proof.
    destruct p as [a b], q as [c d]. unfold pteqb. cbn [fst snd]. numRg. rewrite andb_true_iff, !Reqb_true.
    split; [intros [-> ->]; reflexivity | intros K; injection K; auto].
  Qed.
  Lemma removeDuplicates_In (l : list pt) x : In x (removeDuplicates pteqb l) <-> In x l.
  Proof.
    destruct (removeDuplicates_full (A := pt) pteqb l) as (_ & _ & I & J & _).
    - intros. now apply pteqb_R.
    - intros a b. destruct (pteqb a b) eqn:K, (pteqb b a) eqn:K'; auto; apply pteqb_R in K || apply pteqb_R in K'; subst;
        (rewrite (proj2 (pteqb_R _ _) eq_refl) in * ; discriminate).
    - intros a b c K K'. apply pteqb_R in K, K'. subst. now apply pteqb_R.
    - split; [apply I|]. intros H. destruct (J x H) as (y & Hy & E). apply pteqb_R in E. now subst.
  Qed.
  Lemma reportPair_R c1 c2 : reportPair c1 c2 = ((bt1 c1 + bt2 c1) / 2, (bt1 c2 + bt2 c2) / 2).
  Proof. unfold reportPair. numRg. f_equal; field. Qed.

  (** One step of the recursion. *)
  Definition quads (l1 r1 l2 r2 : bezier R) := [(l1, l2); (l1, r2); (r1, r2); (r1, l2)].
  Lemma pair_step f l r c1 c2 a1 z1 a2 z2 : subc l c1 a1 z1 -> subc r c2 a2 z2 ->
    exists b1 b2 l1 r1 l2 r2 pairs, boundsRectangle c1 = Ok b1 /\ boundsRectangle c2 = Ok b2 /\
      subc l l1 a1 ((a1 + z1) / 2) /\ subc l r1 ((a1 + z1) / 2) z1 /\ subc r l2 a2 ((a2 + z2) / 2) /\ subc r r2 ((a2 + z2) / 2) z2 /\
      (forall pr, In pr pairs <-> In pr (quads l1 r1 l2 r2) /\ overlaps (fst pr) (snd pr) = Ok true) /\
      filterM (fun pr : bezier R * bezier R => overlaps (fst pr) (snd pr)) (quads l1 r1 l2 r2) = Ok pairs /\
      pairiteration (S f) threshold c1 c2 =
        if (Rltb (height b1 + width b1) threshold && Rltb (height b2 + width b2) threshold)%bool then Ok [reportPair c1 c2]
        else let* rs := mapM (fun pr => pairiteration f threshold (fst pr) (snd pr)) pairs in Ok (removeDuplicates pteqb (concat rs)).
  Proof.
    intros S1 S2. destruct (subc_box _ _ _ _ S1) as (b1 & E1 & _). destruct (subc_box _ _ _ _ S2) as (b2 & E2 & _).
    destruct (subc_split _ _ _ _ S1) as (l1 & r1 & P1 & L1 & R1). destruct (subc_split _ _ _ _ S2) as (l2 & r2 & P2 & L2 & R2).
    destruct (filterM_total (fun pr : bezier R * bezier R => overlaps (fst pr) (snd pr)) (quads l1 r1 l2 r2)) as (pairs & F).
    { intros pr Hp. unfold quads in Hp. destruct Hp as [<-|[<-|[<-|[<-|[]]]]]; cbn [fst snd]; eapply overlaps_total; eauto. }
    exists b1, b2, l1, r1, l2, r2, pairs. do 6 (split; [assumption|]). split; [exact (filterM_Ok _ _ _ F)|]. split; [exact F|].
    cbn [pairiteration]. rewrite E1, E2. cbn [bind]. numRg. destruct (Rltb _ _ && Rltb _ _)%bool; [reflexivity|].
    replace (IZR 1 / IZR 2) with (1 / 2) in * by reflexivity.
    change (nlit 1 2) with (1 / 2). rewrite P1. cbn [bind]. rewrite P2. cbn [bind]. change [(l1, l2); (l1, r2); (r1, r2); (r1, l2)] with (quads l1 r1 l2 r2).
    rewrite F. cbn [bind]. destruct pairs; reflexivity.
  Qed.
  Lemma quads_sub l r l1 r1 l2 r2 a1 m1 z1 a2 m2 z2 pr : subc l l1 a1 m1 -> subc l r1 m1 z1 -> subc r l2 a2 m2 -> subc r r2 m2 z2 -> In pr (quads l1 r1 l2 r2) ->
    exists x1 y1 x2 y2, subc l (fst pr) x1 y1 /\ subc r (snd pr) x2 y2 /\
      ((x1, y1) = (a1, m1) \/ (x1, y1) = (m1, z1)) /\ ((x2, y2) = (a2, m2) \/ (x2, y2) = (m2, z2)).
  Proof.
    intros. unfold quads in *. destruct H3 as [<-|[<-|[<-|[<-|[]]]]]; cbn [fst snd]; do 4 eexists; (split; [eassumption|]); (split; [eassumption|]); auto.
  Qed.

  (** C52 *)
  Theorem pair_sound l r : forall fuel c1 c2 a1 z1 a2 z2 res t s, subc l c1 a1 z1 -> subc r c2 a2 z2 -> overlaps c1 c2 = Ok true ->
    pairiteration fuel threshold c1 c2 = Ok res -> In (t, s) res ->
    exists u v, a1 <= u <= z1 /\ a2 <= v <= z2 /\ t = bt1 l + u * (bt2 l - bt1 l) /\ s = bt1 r + v * (bt2 r - bt1 r) /\
      taxi (curve (cps l) u) (curve (cps r) v) < 2 * threshold.
  Proof.
    induction fuel as [|f IH]; intros c1 c2 a1 z1 a2 z2 res t s S1 S2 O E I; [discriminate|].
    destruct (pair_step f l r c1 c2 a1 z1 a2 z2 S1 S2) as (b1 & b2 & l1 & r1 & l2 & r2 & pairs & B1 & B2 & Sl1 & Sr1 & Sl2 & Sr2 & P & _ & Eq).
    rewrite Eq in E. clear Eq. destruct (Rltb_spec (height b1 + width b1) threshold) as [T1|]; [destruct (Rltb_spec (height b2 + width b2) threshold) as [T2|]|]; cbn [andb] in E.
    - injection E as <-. destruct I as [I|[]]. rewrite reportPair_R in I. injection I as <- <-.
      pose proof S1 as (_ & _ & A1 & _ & _ & U1 & U2). pose proof S2 as (_ & _ & A2 & _ & _ & V1 & V2).
      exists ((a1 + z1) / 2), ((a2 + z2) / 2). split; [lra|]. split; [lra|]. split; [rewrite U1, U2; field|]. split; [rewrite V1, V2; field|].
      destruct (subc_box _ _ _ _ S1) as (b1' & E1 & X1 & _). destruct (subc_box _ _ _ _ S2) as (b2' & E2 & X2 & _).
      rewrite B1 in E1; injection E1 as <-. rewrite B2 in E2; injection E2 as <-.
      destruct (overlaps_ok c1 c2 b1 b2 B1 B2) as (c & Ec & Hc). rewrite O in Ec. injection Ec as <-.
      apply proj1 in Hc. specialize (Hc eq_refl). apply intersection_some_R in Hc as [Hx Hy].
      specialize (X1 ((a1 + z1) / 2) ltac:(lra)). specialize (X2 ((a2 + z2) / 2) ltac:(lra)).
      unfold taxi. unfold height, width in T1, T2. numR.
      assert (right b2 >= left b1 /\ right b1 >= left b2 /\ top b2 >= bottom b1 /\ top b1 >= bottom b2).
      { pose proof (Rmax_l (left b1) (left b2)). pose proof (Rmax_r (left b1) (left b2)). pose proof (Rmin_l (right b1) (right b2)). pose proof (Rmin_r (right b1) (right b2)).
        pose proof (Rmax_l (bottom b1) (bottom b2)). pose proof (Rmax_r (bottom b1) (bottom b2)). pose proof (Rmin_l (top b1) (top b2)). pose proof (Rmin_r (top b1) (top b2)). lra. }
      unfold Rabs. destruct (Rcase_abs _), (Rcase_abs _); lra.
    - apply bind_Ok in E as (rs & E & F). injection F as <-. rewrite removeDuplicates_In in I. apply in_concat in I as (x & Hx & I).
      destruct (In_mapM _ _ _ E x Hx) as (pr & Hp & Ep). apply P in Hp as (Hq & Ho).
      destruct (quads_sub l r _ _ _ _ _ _ _ _ _ _ pr Sl1 Sr1 Sl2 Sr2 Hq) as (x1 & y1 & x2 & y2 & Q1 & Q2 & D1 & D2).
      destruct (IH _ _ _ _ _ _ _ _ _ Q1 Q2 Ho Ep I) as (u & v & U & V & HH). exists u, v.
      pose proof S1 as (_ & _ & A1 & _). pose proof S2 as (_ & _ & A2 & _).
      split; [destruct D1 as [D|D]; injection D as -> ->; lra|]. split; [destruct D2 as [D|D]; injection D as -> ->; lra|]. exact HH.
    - apply bind_Ok in E as (rs & E & F). injection F as <-. rewrite removeDuplicates_In in I. apply in_concat in I as (x & Hx & I).
      destruct (In_mapM _ _ _ E x Hx) as (pr & Hp & Ep). apply P in Hp as (Hq & Ho).
      destruct (quads_sub l r _ _ _ _ _ _ _ _ _ _ pr Sl1 Sr1 Sl2 Sr2 Hq) as (x1 & y1 & x2 & y2 & Q1 & Q2 & D1 & D2).
      destruct (IH _ _ _ _ _ _ _ _ _ Q1 Q2 Ho Ep I) as (u & v & U & V & HH). exists u, v.
      pose proof S1 as (_ & _ & A1 & _). pose proof S2 as (_ & _ & A2 & _).
      split; [destruct D1 as [D|D]; injection D as -> ->; lra|]. split; [destruct D2 as [D|D]; injection D as -> ->; lra|]. exact HH.
  Qed.
  (** C53 *)
  Lemma small_box o b a z r : subc o b a z -> boundsRectangle b = Ok r -> height r + width r < threshold -> small_part threshold (cps o) a z.
  Proof.
    intros S E H w w' W W'. destruct (subc_box _ _ _ _ S) as (r' & E' & B & _). rewrite E in E'; injection E' as <-.
    pose proof (B w W). pose proof (B w' W'). unfold taxi. unfold height, width in H. numR. unfold Rabs. destruct (Rcase_abs _), (Rcase_abs _); lra.
  Qed.
  Theorem pair_complete l r u v : curve (cps l) u = curve (cps r) v ->
    forall fuel c1 c2 a1 z1 a2 z2 res, subc l c1 a1 z1 -> subc r c2 a2 z2 -> a1 <= u <= z1 -> a2 <= v <= z2 ->
    pairiteration fuel threshold c1 c2 = Ok res ->
    exists x1 y1 x2 y2, a1 <= x1 <= u /\ u <= y1 <= z1 /\ a2 <= x2 <= v /\ v <= y2 <= z2 /\ small_part threshold (cps l) x1 y1 /\ small_part threshold (cps r) x2 y2 /\
      In (bt1 l + (x1 + y1) / 2 * (bt2 l - bt1 l), bt1 r + (x2 + y2) / 2 * (bt2 r - bt1 r)) res.
  Proof.
    intros M. induction fuel as [|f IH]; intros c1 c2 a1 z1 a2 z2 res S1 S2 U V E; [discriminate|].
    destruct (pair_step f l r c1 c2 a1 z1 a2 z2 S1 S2) as (b1 & b2 & l1 & r1 & l2 & r2 & pairs & B1 & B2 & Sl1 & Sr1 & Sl2 & Sr2 & P & _ & Eq).
    rewrite Eq in E. clear Eq.
    assert (Rec : forall rs, mapM (fun pr => pairiteration f threshold (fst pr) (snd pr)) pairs = Ok rs -> res = removeDuplicates pteqb (concat rs) ->
      exists x1 y1 x2 y2, a1 <= x1 <= u /\ u <= y1 <= z1 /\ a2 <= x2 <= v /\ v <= y2 <= z2 /\ small_part threshold (cps l) x1 y1 /\ small_part threshold (cps r) x2 y2 /\
      In (bt1 l + (x1 + y1) / 2 * (bt2 l - bt1 l), bt1 r + (x2 + y2) / 2 * (bt2 r - bt1 r)) res).
    { intros rs Em ->.
      assert (Sel : exists d1 d2 p1 q1 p2 q2, In (d1, d2) (quads l1 r1 l2 r2) /\ subc l d1 p1 q1 /\ subc r d2 p2 q2 /\
                 a1 <= p1 <= u /\ u <= q1 <= z1 /\ a2 <= p2 <= v /\ v <= q2 <= z2).
      { unfold quads. destruct (Rle_dec u ((a1 + z1) / 2)), (Rle_dec v ((a2 + z2) / 2)).
        - exists l1, l2, a1, ((a1 + z1) / 2), a2, ((a2 + z2) / 2). split; [simpl; auto|]. repeat (split; [assumption || lra|]). lra.
        - exists l1, r2, a1, ((a1 + z1) / 2), ((a2 + z2) / 2), z2. split; [simpl; auto|]. repeat (split; [assumption || lra|]). lra.
        - exists r1, l2, ((a1 + z1) / 2), z1, a2, ((a2 + z2) / 2). split; [simpl; auto|]. repeat (split; [assumption || lra|]). lra.
        - exists r1, r2, ((a1 + z1) / 2), z1, ((a2 + z2) / 2), z2. split; [simpl; auto|]. repeat (split; [assumption || lra|]). lra. }
      destruct Sel as (d1 & d2 & p1 & q1 & p2 & q2 & Hq & Q1 & Q2 & G1 & G2 & G3 & G4).
      assert (Hp : In (d1, d2) pairs).
      { apply P. split; [exact Hq|]. cbn [fst snd]. eapply overlaps_common; [exact Q1|exact Q2| | |exact M]; lra. }
      destruct (mapM_In _ _ _ Em _ Hp) as (x & Hx & Ex). cbn [fst snd] in Ex.
      destruct (IH d1 d2 p1 q1 p2 q2 x Q1 Q2) as (x1 & y1 & x2 & y2 & K1 & K2 & K3 & K4 & K5 & K6 & K7); [lra|lra|exact Ex|].
      exists x1, y1, x2, y2. do 4 (split; [lra|]). do 2 (split; [assumption|]). rewrite removeDuplicates_In. apply in_concat. eauto. }
    destruct (Rltb_spec (height b1 + width b1) threshold) as [T1|]; [destruct (Rltb_spec (height b2 + width b2) threshold) as [T2|]|]; cbn [andb] in E.
    - injection E as <-. exists a1, z1, a2, z2. do 4 (split; [lra|]). split; [eapply small_box; eauto|]. split; [eapply small_box; eauto|].
      left. rewrite reportPair_R. pose proof S1 as (_ & _ & _ & _ & _ & U1 & U2). pose proof S2 as (_ & _ & _ & _ & _ & V1 & V2).
      rewrite U1, U2, V1, V2. f_equal; field.
    - apply bind_Ok in E as (rs & E & F). injection F as <-. exact (Rec rs E eq_refl).
    - apply bind_Ok in E as (rs & E & F). injection F as <-. exact (Rec rs E eq_refl).
  Qed.
  (** C51 *)
  Theorem pair_terminates l r : in_sentinels (cps l) -> in_sentinels (cps r) ->
    forall k fuel c1 c2 a1 z1 a2 z2, subc l c1 a1 z1 -> subc r c2 a2 z2 ->
    speed (cps l) * (z1 - a1) < 2 ^ k * threshold -> speed (cps r) * (z2 - a2) < 2 ^ k * threshold -> (k < fuel)%nat ->
    exists res, pairiteration fuel threshold c1 c2 = Ok res.
  Proof.
    intros Rl Rr. induction k as [|k IH]; intros fuel c1 c2 a1 z1 a2 z2 S1 S2 H1 H2 F; (destruct fuel as [|f]; [lia|]);
      destruct (pair_step f l r c1 c2 a1 z1 a2 z2 S1 S2) as (b1 & b2 & l1 & r1 & l2 & r2 & pairs & B1 & B2 & Sl1 & Sr1 & Sl2 & Sr2 & P & _ & Eq);
      rewrite Eq; clear Eq.
    - destruct (subc_box _ _ _ _ S1) as (b1' & E1 & _ & X1). destruct (subc_box _ _ _ _ S2) as (b2' & E2 & _ & X2).
      rewrite B1 in E1; injection E1 as <-. rewrite B2 in E2; injection E2 as <-. specialize (X1 Rl). specialize (X2 Rr). unfold speed in *.
      cbn [pow] in *. numR. destruct (Rltb_spec (height b1 + width b1) threshold); [|lra]. destruct (Rltb_spec (height b2 + width b2) threshold); [|lra]. cbn [andb]. eauto.
    - destruct (_ && _)%bool; [eauto|]. destruct (mapM_total (fun pr => pairiteration f threshold (fst pr) (snd pr)) pairs) as (rs & ->).
      + intros pr Hp. apply P in Hp as (Hq & _).
        destruct (quads_sub l r _ _ _ _ _ _ _ _ _ _ pr Sl1 Sr1 Sl2 Sr2 Hq) as (x1 & y1 & x2 & y2 & Q1 & Q2 & D1 & D2).
        simpl pow in H1, H2. apply (IH f (fst pr) (snd pr) x1 y1 x2 y2 Q1 Q2); [| |lia].
        * replace (y1 - x1) with ((z1 - a1) / 2) by (destruct D1 as [D|D]; injection D as -> ->; field). nra.
        * replace (y2 - x2) with ((z2 - a2) / 2) by (destruct D2 as [D|D]; injection D as -> ->; field). nra.
      + cbn [bind]. eauto.
  Qed.
  (** More recursion depth does not change a result. *)
  Theorem pair_mono : forall fuel c1 c2 res k, pairiteration fuel threshold c1 c2 = Ok res -> pairiteration (fuel + k) threshold c1 c2 = Ok res.
  Proof.
    induction fuel as [|f IH]; intros c1 c2 res k E; [discriminate|]. cbn [Nat.add pairiteration] in *.
    apply bind_Ok in E as (b1 & E1 & E). apply bind_Ok in E as (b2 & E2 & E). rewrite E1, E2. cbn [bind].
    destruct (_ && _)%bool; [exact E|].
    apply bind_Ok in E as ([[l1 r1] h1] & S1 & E). apply bind_Ok in E as ([[l2 r2] h2] & S2 & E). rewrite S1, S2. cbn [bind].
    apply bind_Ok in E as (pairs & F & E). rewrite F. cbn [bind]. destruct (Nat.eqb (length pairs) 0); [exact E|].
    apply bind_Ok in E as (rs & M & E). 
    replace (mapM (fun pr => pairiteration (f + k) threshold (fst pr) (snd pr)) pairs) with (Ok rs); [exact E|]. symmetry.
    apply mapM_Ok. apply mapM_Ok in M. clear - M IH. induction M; constructor; auto.
  Qed.

  (** ** Lists of curves *)
  Definition flat (c : bezier R) : Prop := (length (cps c) = 3 \/ length (cps c) = 4)%nat.
  Lemma all_overlaps c1 c2 : Forall flat c1 -> Forall flat c2 ->
    exists pairs, filterM (fun pr : bezier R * bezier R => overlaps (fst pr) (snd pr)) (list_prod c1 c2) = Ok pairs /\
      forall l r, In (l, r) pairs <-> In l c1 /\ In r c2 /\ overlaps l r = Ok true.
  Proof.
    intros F1 F2. rewrite Forall_forall in F1, F2. destruct (filterM_total (fun pr : bezier R * bezier R => overlaps (fst pr) (snd pr)) (list_prod c1 c2)) as (ps & E).
    - intros [l r] H. apply in_prod_iff in H as [Hl Hr]. cbn [fst snd]. exact (overlaps_total l r l r 0 1 0 1 (subc_self l (F1 l Hl)) (subc_self r (F2 r Hr))).
    - exists ps. split; [exact E|]. intros l r. rewrite (filterM_Ok _ _ _ E (l, r)), in_prod_iff. cbn [fst snd]. tauto.
  Qed.
  Theorem curveIntersects_terminates c1 c2 k fuel : Forall flat c1 -> Forall flat c2 ->
    (forall c, In c c1 \/ In c c2 -> in_sentinels (cps c) /\ speed (cps c) < 2 ^ k * threshold) -> (k < fuel)%nat ->
    exists res, curveIntersects fuel threshold c1 c2 = Ok res.
  Proof.
    intros F1 F2 H F. unfold curveIntersects. destruct (all_overlaps c1 c2 F1 F2) as (ps & -> & P). cbn [bind].
    rewrite Forall_forall in F1, F2.
    destruct (mapM_total (fun pr => pairiteration fuel threshold (fst pr) (snd pr)) ps) as (rs & ->); [|cbn [bind]; eauto].
    intros [l r] Hp. apply P in Hp as (Hl & Hr & _). cbn [fst snd].
    destruct (H l (or_introl Hl)) as [Rl Sl]. destruct (H r (or_intror Hr)) as [Rr Sr].
    apply (pair_terminates l r Rl Rr k fuel l r 0 1 0 1 (subc_self l (F1 l Hl)) (subc_self r (F2 r Hr))); [lra|lra|exact F].
  Qed.
  Theorem curveIntersects_mono fuel c1 c2 res k : curveIntersects fuel threshold c1 c2 = Ok res -> curveIntersects (fuel + k) threshold c1 c2 = Ok res.
  Proof.
    unfold curveIntersects. intros E. apply bind_Ok in E as (ps & -> & E). cbn [bind]. apply bind_Ok in E as (rs & M & E).
    replace (mapM (fun pr => pairiteration (fuel + k) threshold (fst pr) (snd pr)) ps) with (Ok rs); [exact E|]. symmetry.
    apply mapM_Ok. apply mapM_Ok in M. clear - M. induction M; constructor; auto using pair_mono.
  Qed.
  Theorem curveIntersects_sound fuel c1 c2 res t s : Forall flat c1 -> Forall flat c2 ->
    curveIntersects fuel threshold c1 c2 = Ok res -> In (t, s) res ->
    exists l r u v, In l c1 /\ In r c2 /\ 0 <= u <= 1 /\ 0 <= v <= 1 /\ t = bt1 l + u * (bt2 l - bt1 l) /\ s = bt1 r + v * (bt2 r - bt1 r) /\
      taxi (curve (cps l) u) (curve (cps r) v) < 2 * threshold.
  Proof.
    intros F1 F2 E I. unfold curveIntersects in E. destruct (all_overlaps c1 c2 F1 F2) as (ps & Ep & P). rewrite Ep in E. cbn [bind] in E.
    rewrite Forall_forall in F1, F2. apply bind_Ok in E as (rs & M & E). injection E as <-. apply in_concat in I as (x & Hx & I).
    destruct (In_mapM _ _ _ M x Hx) as ([l r] & Hp & Ex). apply P in Hp as (Hl & Hr & O). cbn [fst snd] in Ex.
    destruct (pair_sound l r fuel l r 0 1 0 1 x t s (subc_self l (F1 l Hl)) (subc_self r (F2 r Hr)) O Ex I) as (u & v & H).
    exists l, r, u, v. tauto.
  Qed.
  Theorem curveIntersects_complete fuel c1 c2 res l r u v : Forall flat c1 -> Forall flat c2 ->
    curveIntersects fuel threshold c1 c2 = Ok res -> In l c1 -> In r c2 -> 0 <= u <= 1 -> 0 <= v <= 1 ->
    curve (cps l) u = curve (cps r) v ->
    exists x1 y1 x2 y2, 0 <= x1 <= u /\ u <= y1 <= 1 /\ 0 <= x2 <= v /\ v <= y2 <= 1 /\
      small_part threshold (cps l) x1 y1 /\ small_part threshold (cps r) x2 y2 /\
      In (bt1 l + (x1 + y1) / 2 * (bt2 l - bt1 l), bt1 r + (x2 + y2) / 2 * (bt2 r - bt1 r)) res.
  Proof.
    intros F1 F2 E Hl Hr U V Eq. unfold curveIntersects in E. destruct (all_overlaps c1 c2 F1 F2) as (ps & Ep & P). rewrite Ep in E. cbn [bind] in E.
    rewrite Forall_forall in F1, F2. apply bind_Ok in E as (rs & M & E). injection E as <-.
    pose proof (subc_self l (F1 l Hl)) as Sl. pose proof (subc_self r (F2 r Hr)) as Sr.
    assert (Hp : In (l, r) ps) by (apply P; split; [auto|split; [auto|]]; exact (overlaps_common l r l r 0 1 0 1 u v Sl Sr U V Eq)).
    destruct (mapM_In _ _ _ M _ Hp) as (x & Hx & Ex). cbn [fst snd] in Ex.
    destruct (pair_complete l r u v Eq fuel l r 0 1 0 1 x Sl Sr U V Ex) as (x1 & y1 & x2 & y2 & K1 & K2 & K3 & K4 & K5 & K6 & K7).
    exists x1, y1, x2, y2. do 6 (split; [assumption|]). apply in_concat. eauto.
  Qed.
End Inter.

(** A threshold of 0 or less is never reached: a curve against itself recurses for ever. *)
Section Diverge.
  Context (rnd : R -> R).
  #[local] Hint Extern 0 (TrigOps R) => exact (RTrig rnd) : typeclass_instances.
  Lemma overlaps_self o b a z : subc o b a z -> overlaps b b = Ok true.
  Proof. intros S. pose proof S as (_ & _ & A & _). apply (overlaps_common rnd o o b b a z a z a a S S); [lra|lra|reflexivity]. Qed.
  Theorem pair_diverges threshold o : (forall b a z r, subc o b a z -> boundsRectangle b = Ok r -> threshold <= height r + width r) ->
    forall fuel b a z, subc o b a z -> pairiteration fuel threshold b b = Err RecursionError.
  Proof.
    intros Big. induction fuel as [|f IH]; intros b a z S; [reflexivity|].
    destruct (subc_box rnd _ _ _ _ S) as (r & E & _). destruct (subc_split _ _ _ _ S) as (l' & r' & E' & Sl & Sr).
    cbn [pairiteration]. rewrite E. cbn [bind]. numRg. destruct (Rltb_spec (height r + width r) threshold) as [K|K]; [specialize (Big b a z r S E); lra|]. cbn [andb].
    change (nlit 1 2) with (1 / 2). rewrite E'. cbn [bind]. cbn [filterM fst snd].
    rewrite (overlaps_self _ _ _ _ Sl). cbn [bind]. rewrite (overlaps_self _ _ _ _ Sr). cbn [bind].
    destruct (overlaps_total rnd o o l' r' _ _ _ _ Sl Sr) as (c1 & ->). destruct (overlaps_total rnd o o r' l' _ _ _ _ Sr Sl) as (c2 & ->). cbn [bind].
    destruct c1, c2; cbn [length Nat.eqb mapM fst snd]; rewrite (IH l' _ _ Sl); reflexivity.
  Qed.
  Theorem threshold_needed threshold b : (length (cps b) = 3 \/ length (cps b) = 4)%nat -> threshold <= 0 ->
    forall fuel, pairiteration fuel threshold b b = Err RecursionError.
  Proof.
    intros L T fuel. apply (pair_diverges threshold b) with (a := 0) (z := 1); [|now apply subc_self].
    intros c a z r S E. destruct (subc_box rnd _ _ _ _ S) as (r' & E' & B & _). rewrite E in E'. injection E' as <-.
    pose proof S as (_ & _ & A & _). specialize (B a ltac:(lra)). unfold height, width. numRg. lra.
  Qed.
  Theorem range_needed threshold b : (length (cps b) = 3 \/ length (cps b) = 4)%nat -> (forall q, In q (cps b) -> 32768 + threshold <= fst q) ->
    forall fuel, pairiteration fuel threshold b b = Err RecursionError.
  Proof.
    intros L T fuel. apply (pair_diverges threshold b) with (a := 0) (z := 1); [|now apply subc_self].
    intros c a z r S E. pose proof S as (_ & Lc & A & Z & C & _). destruct (subc_box rnd _ _ _ _ S) as (r' & E' & B & _). rewrite E in E'. injection E' as <-.
    specialize (B a ltac:(lra)). unfold height, width. numRg.
    assert (Lo : left r <= 32768).
    { destruct (bbox_spec rnd c) as (x0 & x1 & y0 & y1 & Eb & _); [lia|]. unfold boundsRectangle in E. rewrite Eb in E. cbn [bind] in E. injection E as <-.
      rewrite BR_two. cbn [left]. eapply Rle_trans; [apply Rmin_l|]. apply Rmin_l. }
    assert (Hi : 32768 + threshold <= fst (curve (cps b) a)).
    { set (M := fold_right (fun q m => Rmax (Rmax (fst q) (Rabs (snd q))) m) 0 (cps b)).
      assert (HM : forall q, In q (cps b) -> fst q <= M /\ Rabs (snd q) <= M).
      { unfold M. clear. induction (cps b) as [|x p IH]; intros q []; cbn [fold_right].
        - subst. pose proof (Rmax_l (Rmax (fst q) (Rabs (snd q))) (fold_right (fun q m => Rmax (Rmax (fst q) (Rabs (snd q))) m) 0 p)).
          pose proof (Rmax_l (fst q) (Rabs (snd q))). pose proof (Rmax_r (fst q) (Rabs (snd q))). lra.
        - destruct (IH q H). pose proof (Rmax_r (Rmax (fst x) (Rabs (snd x))) (fold_right (fun q m => Rmax (Rmax (fst q) (Rabs (snd q))) m) 0 p)). lra. }
      destruct (curve_in_box (cps b) a (32768 + threshold) M (- M) M) as [X _]; [intros K; rewrite K in L; simpl in L; lia|lra| |lra].
      intros q Hq. destruct (HM q Hq) as [H1 H2]. specialize (T q Hq). apply Rabs_inv in H2. lra. }
    lra.
  Qed.
End Diverge.

Section Fresh.
  Context (rnd : R -> R).
  #[local] Hint Extern 0 (TrigOps R) => exact (RTrig rnd) : typeclass_instances.
  Theorem pair_terminates_some threshold c1 c2 : 0 < threshold ->
    (length (cps c1) = 3 \/ length (cps c1) = 4)%nat -> (length (cps c2) = 3 \/ length (cps c2) = 4)%nat ->
    in_sentinels (cps c1) -> in_sentinels (cps c2) ->
    exists depth, forall fuel, (depth <= fuel)%nat -> exists res, pairiteration fuel threshold c1 c2 = Ok res.
  Proof.
    intros T L1 L2 R1 R2.
    assert (B : forall x, exists k, x < 2 ^ k * threshold).
    { intros x. destruct (Pow_x_infinity 2 ltac:(rewrite Rabs_pos_eq; lra) (x / threshold + 1)) as (k & K). exists k. specialize (K k (Nat.le_refl k)).
      rewrite Rabs_pos_eq in K by (apply pow_le; lra). apply Rge_le in K. apply (Rmult_le_compat_r threshold) in K; [|lra].
      replace ((x / threshold + 1) * threshold) with (x + threshold) in K by (field; lra). lra. }
    destruct (B (speed (cps c1))) as (k1 & K1). destruct (B (speed (cps c2))) as (k2 & K2).
    assert (P : forall k m x, (k <= m)%nat -> x < 2 ^ k * threshold -> x < 2 ^ m * threshold).
    { intros k m x Le H. assert (2 ^ k <= 2 ^ m) by (apply Rle_pow; [lra|auto]). nra. }
    exists (S (max k1 k2)). intros fuel F.
    apply (pair_terminates rnd threshold c1 c2 R1 R2 (max k1 k2) fuel c1 c2 0 1 0 1 (subc_self c1 L1) (subc_self c2 L2)); [| |lia];
      rewrite Rminus_0_r, Rmult_1_r; eapply P; [|eassumption| |eassumption]; lia.
  Qed.
  Theorem fresh_sound threshold fuel p q l r res t s :
    (length p = 3 \/ length p = 4)%nat -> (length q = 3 \/ length q = 4)%nat -> newBezier p = Ok l -> newBezier q = Ok r ->
    curveIntersects fuel threshold [l] [r] = Ok res -> In (t, s) res ->
    exists x y, get l t = Ok x /\ get r s = Ok y /\ 0 <= t <= 1 /\ 0 <= s <= 1 /\ taxi x y < 2 * threshold.
  Proof.
    intros Lp Lq El Er E I. rewrite newBezier_ok in El, Er by lia. injection El as <-. injection Er as <-.
    destruct (curveIntersects_sound rnd threshold fuel [mkBez p 0 1] [mkBez q 0 1] res t s (Forall_cons (P := flat) (mkBez p 0 1) Lp (Forall_nil _)) (Forall_cons (P := flat) (mkBez q 0 1) Lq (Forall_nil _)) E I)
      as (l & r & u & v & [<-|[]] & [<-|[]] & U & V & Et & Es & T). cbn [cps bt1 bt2] in *. numR.
    replace t with u by lra. replace s with v by lra.
    exists (curve p u), (curve q v). rewrite !get_ok by (cbn [cps]; lia). cbn [cps]. tauto.
  Qed.
  Theorem fresh_complete threshold fuel p q l r res u v x :
    (length p = 3 \/ length p = 4)%nat -> (length q = 3 \/ length q = 4)%nat -> newBezier p = Ok l -> newBezier q = Ok r ->
    curveIntersects fuel threshold [l] [r] = Ok res -> 0 <= u <= 1 -> 0 <= v <= 1 -> get l u = Ok x -> get r v = Ok x ->
    exists t s y z, In (t, s) res /\ get l t = Ok y /\ get r s = Ok z /\ taxi y x < threshold /\ taxi z x < threshold.
  Proof.
    intros Lp Lq El Er E U V Gl Gr. rewrite newBezier_ok in El, Er by lia. injection El as <-. injection Er as <-.
    rewrite get_ok in Gl, Gr by (cbn [cps]; lia). cbn [cps] in Gl, Gr. apply Ok_inv in Gl, Gr. subst x. symmetry in Gr. rename Gr into Eq.
    destruct (curveIntersects_complete rnd threshold fuel [mkBez p 0 1] [mkBez q 0 1] res (mkBez p 0 1) (mkBez q 0 1) u v (Forall_cons (P := flat) (mkBez p 0 1) Lp (Forall_nil _)) (Forall_cons (P := flat) (mkBez q 0 1) Lq (Forall_nil _)) E
      (or_introl eq_refl) (or_introl eq_refl) U V Eq) as (x1 & y1 & x2 & y2 & H1 & H2 & H3 & H4 & S1 & S2 & I). cbn [cps bt1 bt2] in *.
    replace (0 + (x1 + y1) / 2 * (1 - 0)) with ((x1 + y1) / 2) in I by ring. replace (0 + (x2 + y2) / 2 * (1 - 0)) with ((x2 + y2) / 2) in I by ring.
    exists ((x1 + y1) / 2), ((x2 + y2) / 2), (curve p ((x1 + y1) / 2)), (curve q ((x2 + y2) / 2)). split; [exact I|].
    rewrite !get_ok by (cbn [cps]; lia). split; [reflexivity|]. split; [reflexivity|]. split.
    - apply S1; lra.
    - rewrite Eq. apply S2; lra.
  Qed.
End Fresh.
