(** Property C143: how well lookup tables and control polygons stand for the curve (Bezier.py getLUT, split, findClosestPoint). *)
From Coq Require Import List ZArith Bool Reals Lra Lia.
From Verif Require Import Py Inst SpecGeom SpecBezier SpecCurve SpecContour SpecPolyline MBezier MContour ProofBezier ProofContour ProofClosest ProofPolyline PropContour.
Import ListNotations.
Local Open Scope R_scope.
#[local] Existing Instance RPy.

(** ** C143.  The polyline through the table of a curve of order m follows the curve: between two samples the point of the curve and the
    point of the line that belong to the same parameter are within m (m - 1) / 8 * D / (s - 1)^2 of each other, where D is twice the distance
    of a control point from the middle of its neighbours.  Twice the steps, a quarter of the error. *)
Theorem C143_sag (b : bezier R) (s : Z) (l : list pt) D i lam : (1 <= length (cps b))%nat -> (2 <= s)%Z -> getLUT b s = Ok l ->
  bent D (cps b) -> 0 <= D -> (S i < length l)%nat -> 0 <= lam <= 1 ->
  let m := INR (length (cps b) - 1) in
  vdist (curve (cps b) ((INR i + lam) / IZR (s - 1))) (part_way lam (nth i l (0, 0)) (nth (S i) l (0, 0))) <= m * (m - 1) / 8 * D / (IZR (s - 1)) ^ 2.
Proof. intros Hb Hs Hl. exact (table_sag b s l Hb Hs Hl D i lam). Qed.
Print Assumptions C143_sag.
(** The way along the table is no shorter than the straight line and no longer than the control polygon. *)
Theorem C143_walk (b : bezier R) (s : Z) (l : list pt) : (1 <= length (cps b))%nat -> (2 <= s)%Z -> getLUT b s = Ok l ->
  vdist (hd (0, 0) (cps b)) (last (cps b) (0, 0)) <= walk l <= walk (cps b).
Proof. exact (table_walk b s l). Qed.
Print Assumptions C143_walk.
(** With every step divided into k it can only become longer. *)
Theorem C143_finer (b : bezier R) (s k : Z) l l' : (1 <= length (cps b))%nat -> (2 <= s)%Z -> (1 <= k)%Z ->
  getLUT b s = Ok l -> getLUT b (k * (s - 1) + 1) = Ok l' -> walk l <= walk l'.
Proof. exact (table_finer b s k l l'). Qed.
Print Assumptions C143_finer.
(** The control polygons of the two parts of a curve are together no longer than its own. *)
Theorem C143_split (b l r : bezier R) t h : (length (cps b) = 3 \/ length (cps b) = 4)%nat -> 0 <= t <= 1 -> split1 b t = Ok (l, r, h) ->
  walk (cps l) + walk (cps r) <= walk (cps b).
Proof. exact (split_walk b l r t h). Qed.
Print Assumptions C143_split.
(** Where findClosestPoint works (C69), no point of any curve of the contour is nearer than the answer by more than 9/5 of the way
    a curve goes in one step. *)
Theorem C143_closest (c : list (list pt)) (bc : bcontour R) (p : pt) (s : Z) : Forall drawable c -> newContour c = Ok bc -> (2 <= s <= 201)%Z ->
  (forall seg q, In seg c -> In q seg -> moderate q) -> moderate p ->
  exists d q, snd (findClosestPoint bc p s) = Ok (d, q) /\ d = vdist q p /\ (exists m t, (m < length c)%nat /\ 0 <= t <= 1 /\ q = curve (nth m c []) t) /\
    forall M m t, (forall seg, In seg c -> speed seg <= M) -> (m < length c)%nat -> 0 <= t <= 1 -> d <= vdist (curve (nth m c []) t) p + 9 / 5 * M / IZR (s - 1).
Proof.
  intros F E S Mc Mp. destruct (C69_closest_partial c bc p s F E (or_introl S) Mc Mp) as (d & q & m & t & G & Hm & T & Q & Dq & B).
  exists d, q. split; [exact G|]. split; [exact Dq|]. split; [exists m, t; auto|]. intros M m' t' HM Hm' T'.
  destruct (table_near c s m' t' M ltac:(lia) F Hm' T' (HM _ (nth_In _ _ Hm'))) as (x & Ix & Near). specialize (B M x HM Ix). specialize (Near p). lra.
Qed.
Print Assumptions C143_closest.

(** A parabola for which the bound on the sag is attained: with two samples the curve is exactly D/4 = 1 off the line. *)
Example C143_sag_case : let b := mkBez [(0, 0); (1, 2); (2, 0)] 0 1 in
  bent 4 (cps b) /\ getLUT b 2 = Ok [(0, 0); (2, 0)] /\ vdist (curve (cps b) (1 / 2)) (part_way (1 / 2) (0, 0) (2, 0)) = INR 2 * (INR 2 - 1) / 8 * 4 / IZR (2 - 1) ^ 2.
Proof.
  intros b. assert (V : forall x z : R, 0 <= z -> x = z * z -> sqrt x = z) by (intros x z Z ->; now apply sqrt_square). split; [|split].
  - intros p q r pre post E. destruct pre as [|x pre]; [|apply (f_equal (@length _)) in E; simpl in E; rewrite app_length in E; simpl in E; lia].
    injection E as <- <- <- _. unfold vdist, dist2, part_way. cbn [fst snd]. rewrite (V _ 2) by (lra || field). lra.
  - pose proof (ProofLut.sample_ok b 2 ltac:(simpl; lia) ltac:(lia)) as K. change (getLUT b 2) with (MBezierObj.sampleLUT b 2). rewrite K. change (Z.to_nat 2) with 2%nat. cbn [seq map cps b]. rewrite !curve3. cbn [fst snd INR].
    change (2 - 1)%Z with 1%Z. f_equal. repeat (apply (f_equal2 cons); [apply f_equal2; field|]). reflexivity.
  - cbn [cps b]. rewrite curve3. unfold vdist, dist2, part_way. cbn [fst snd INR]. rewrite (V _ 1) by (lra || field). change (2 - 1)%Z with 1%Z. lra.
Qed.
(** Its table of two samples is 2 long, its control polygon more than 4. *)
Example C143_walk_case : walk [(0, 0); (2, 0)] = 2 /\ 4 < walk [(0, 0); (1, 2); (2, 0)].
Proof.
  split; cbn [walk]; unfold vdist, dist2; cbn [fst snd].
  - replace ((0 - 2) ^ 2 + (0 - 0) ^ 2) with (2 * 2) by ring. rewrite sqrt_square; lra.
  - replace ((0 - 1) ^ 2 + (0 - 2) ^ 2) with 5 by ring. replace ((1 - 2) ^ 2 + (2 - 0) ^ 2) with 5 by ring.
    assert (2 < sqrt 5); [|lra]. replace 2 with (sqrt (2 * 2)) by (apply sqrt_square; lra). apply sqrt_lt_1; lra.
Qed.
(** A contour and a point that meet the hypotheses of the last theorem. *)
Example C143_closest_case : exists bc, newContour [[(0, 0); (1, 0)]; [(1, 0); (1, 1); (0, 0)]] = Ok bc /\ Forall drawable [[(0, 0); (1, 0)]; [(1, 0); (1, 1); (0, 0)]] /\
  (forall seg q, In seg [[(0, 0); (1, 0)]; [(1, 0); (1, 1); (0, 0)]] -> In q seg -> moderate q) /\ moderate (5, 7).
Proof.
  assert (F : Forall drawable [[(0, 0); (1, 0)]; [(1, 0); (1, 1); (0, 0)]]) by (repeat constructor).
  destruct (C65_contour_bounds _ F ltac:(discriminate)) as (bc & E & _). exists bc. split; [exact E|]. split; [exact F|].
  assert (M : forall x, Rabs x <= 7 -> Rabs x <= 10 ^ 15) by (intros; lra).
  assert (K : forall x, 0 <= x <= 7 -> Rabs x <= 10 ^ 15) by (intros x X; apply M; rewrite Rabs_pos_eq; lra).
  split; [|split; cbn [fst snd]; apply K; lra]. intros seg q Is Iq.
  destruct Is as [<-|[<-|[]]]; cbn [In] in Iq; repeat (destruct Iq as [<-|Iq]; [split; cbn [fst snd]; apply K; lra|]); destruct Iq.
Qed.
