(** Properties C65-C69: contours of curves and outlines (Bezier.py 811-1042).
    [chistory b ks] is the contour [b] after the calls [ks]. *)
From Coq Require Import List ZArith Bool Reals Lra Lia.
From Verif Require Import Py Inst SpecGeom SpecBezier SpecCurve SpecContour MTransform MBounds MBezUtil MBezier MContour
  ProofBezier ProofContour ProofClosest.
Import ListNotations.
Local Open Scope R_scope.
#[local] Existing Instance RPy.

(** ** C65 *)
Theorem C65_contour_bounds (c : list (list pt)) : Forall drawable c -> c <> [] ->
  exists b, newContour c = Ok b /\ contour_first c = Some (c_start b) /\ contour_last c = Some (c_end b) /\
    forall s t, In s c -> 0 <= t <= 1 -> enclosesPoint (c_bounds b) (curve s t) = true.
Proof. intros F N. destruct (newContour_ok round15 c F N) as (b & E & _ & _ & A & B & _ & K). exists b. auto. Qed.
Print Assumptions C65_contour_bounds.
Theorem C65_outline_bounds (cs : list (list (list pt))) : Forall (fun c => Forall drawable c /\ c <> []) cs ->
  exists o, newOutline cs = Ok o /\ Forall2 (fun c b => newContour c = Ok b) cs (ol_contours o) /\
  forall c s t, In c cs -> In s c -> 0 <= t <= 1 -> enclosesPoint (ol_bounds o) (curve s t) = true.
Proof. exact (newOutline_ok round15 cs). Qed.
Print Assumptions C65_outline_bounds.
(** No curves, no contour. *)
Theorem C65_empty_raises : newContour (T := R) [] = Err IndexError.
Proof. exact (newContour_nil round15). Qed.
Print Assumptions C65_empty_raises.
(** A line and a cubic; the top of the cubic, (3, 3/4), is enclosed. *)
Definition arch : list (list pt) := [[(0, 0); (2, 0)]; [(2, 0); (2, 1); (4, 1); (4, 0)]].
Lemma arch_drawable : Forall drawable arch.
Proof. repeat constructor. Qed.
Example C65_case : exists b, newContour arch = Ok b /\ c_start b = (0, 0) /\ c_end b = (4, 0) /\ enclosesPoint (c_bounds b) (3, 3 / 4) = true.
Proof.
  destruct (C65_contour_bounds arch arch_drawable ltac:(discriminate)) as (b & E & A & B & K). injection A as A. injection B as B. exists b. split; [exact E|]. split; [congruence|]. split; [congruence|].
  replace (3, 3 / 4) with (curve [(2, 0); (2, 1); (4, 1); (4, 0)] (1 / 2)) by (rewrite curve4; cbn [fst snd]; f_equal; field). apply K; [cbn; auto|lra].
Qed.

(** ** C66 *)
(** Violated: with k >= 2 curves, getLUT(s) and then getLUT(k(s-1)+1) gives the first table again. *)
Theorem C66_getLUT_refuted (c : list (list pt)) (b : bcontour R) (s : Z) : Forall drawable c -> newContour c = Ok b -> (2 <= length c)%nat -> (2 <= s)%Z ->
  let steps := (Z.of_nat (length c) * (s - 1) + 1)%Z in
  snd (contourLUT (chistory b [CLut s]) steps) = Ok (table s c) /\ snd (contourLUT b steps) = Ok (table steps c) /\
  length (table s c) <> length (table steps c).
Proof. exact (lut_stale round15 c b s). Qed.
Print Assumptions C66_getLUT_refuted.
(** Two curves, three samples each, then a request for five. *)
Example C66_case : exists b, newContour arch = Ok b /\ snd (contourLUT (chistory b [CLut 3]) 5) = Ok (table 3 arch) /\ length (table 3 arch) = 5%nat /\ length (table 5 arch) = 9%nat.
Proof.
  destruct (C65_contour_bounds arch arch_drawable ltac:(discriminate)) as (b & E & _). exists b. split; [exact E|].
  destruct (C66_getLUT_refuted arch b 3 arch_drawable E ltac:(cbn; lia) ltac:(lia)) as (A & _). split; [exact A|split; reflexivity].
Qed.
(** Every other request is answered from the curves alone. *)
Theorem C66_getLUT_partial (c : list (list pt)) (b : bcontour R) (ks : list (ccall R)) (steps : Z) : Forall drawable c -> newContour c = Ok b -> lookups ks -> (2 <= steps)%Z ->
  (forall k s, In k ks -> looked k = Some s -> s = steps \/ (Z.of_nat (length c) * (s - 1) + 1 <> steps)%Z) ->
  snd (contourLUT (chistory b ks) steps) = Ok (table steps c).
Proof. exact (lut_after_history round15 c b ks steps). Qed.
Print Assumptions C66_getLUT_partial.
(** Exactly: an old table whose length is the number asked for is returned, any other request builds a new one. *)
Theorem C66_exact_partial (c : list (list pt)) (b : bcontour R) (ks : list (ccall R)) (steps : Z) : Forall drawable c -> newContour c = Ok b -> lookups ks -> (2 <= steps)%Z ->
  let k := Z.of_nat (length c) in let h := fold_left (held k) (sizes ks) None in
  exists s, held k h steps = Some s /\ snd (contourLUT (chistory b ks) steps) = Ok (table s c).
Proof. exact (lut_exact round15 c b ks steps). Qed.
Print Assumptions C66_exact_partial.
Example C66_exact_case : sizes [CLut 3; CFind (0, 0) 5; CLut 9] = [3; 5; 9]%Z /\ map (fun l => fold_left (held 2) l None) [[3]; [3; 5]; [3; 5; 9]; [3; 5; 9; 17]; [3; 1]]%Z = [Some 3; Some 3; Some 9; Some 9; None]%Z.
Proof. split; reflexivity. Qed.
(** In particular for contours of one curve. *)
Theorem C66_one_curve_partial (s : list pt) (b : bcontour R) (ks : list (ccall R)) (steps : Z) : drawable s -> newContour [s] = Ok b -> lookups ks -> (2 <= steps)%Z ->
  snd (contourLUT (chistory b ks) steps) = Ok (table steps [s]).
Proof. exact (lut_single round15 s b ks steps). Qed.
Print Assumptions C66_one_curve_partial.
(** The table has k(steps-1)+1 points; on a connected contour entry m(steps-1)+j is curve m at j/(steps-1). *)
Theorem C66_table_length_partial (steps : Z) (c : list (list pt)) : c <> [] -> (1 <= steps)%Z -> length (table steps c) = (length c * (Z.to_nat steps - 1) + 1)%nat.
Proof. exact (table_length steps c). Qed.
Print Assumptions C66_table_length_partial.
Theorem C66_table_entry_partial (steps : Z) (c : list (list pt)) (m j : nat) : Forall drawable c -> connected c -> (2 <= steps)%Z -> (m < length c)%nat -> (j < Z.to_nat steps)%nat ->
  nth (m * (Z.to_nat steps - 1) + j) (table steps c) (0, 0) = curve (nth m c []) (INR j / IZR (steps - 1)).
Proof. exact (table_nth steps c m j). Qed.
Print Assumptions C66_table_entry_partial.
Example C66_case2 : connected arch /\ nth 3 (table 3 arch) (0, 0) = (3, 3 / 4).
Proof.
  assert (C : connected arch) by (unfold arch; cbn; eauto). split; [exact C|].
  change 3%nat with (1 * (Z.to_nat 3 - 1) + 1)%nat. rewrite (C66_table_entry_partial 3 arch 1 1 arch_drawable C ltac:(lia) ltac:(cbn; lia) ltac:(cbn; lia)). cbn [nth arch]. rewrite curve4. cbn [fst snd INR]. f_equal; cbn [Z.sub Z.add Z.opp Z.pos_sub]; field.
Qed.
Example C66_case3 : forall k s, In k [@CLut R 7; CFind (0, 0) 5] -> looked k = Some s -> s = 5%Z \/ (Z.of_nat (length arch) * (s - 1) + 1 <> 5)%Z.
Proof. intros k s [<-|[<-|[]]] E; injection E as <-; [right; cbn; lia|now left]. Qed.

(** ** C67 *)
(** Violated: boundsRectangle is not updated; *)
Theorem C67_bounds_refuted : exists (b b' f : bcontour R), newContour [[(0, 0); (1, 1)]] = Ok b /\ setitem b 0 [(0, 0); (50, 50)] = (b', None) /\
  newContour [[(0, 0); (50, 50)]] = Ok f /\ enclosesPoint (c_bounds f) (50, 50) = true /\ enclosesPoint (c_bounds b') (50, 50) = false.
Proof. exact (stale_bounds round15). Qed.
Print Assumptions C67_bounds_refuted.
(** a table asked for before is returned after the edit; *)
Theorem C67_getLUT_refuted (c : list (list pt)) (b : bcontour R) (v : list pt) (s : Z) : drawable v -> length c = 1%nat -> Forall drawable c -> newContour c = Ok b -> (2 <= s)%Z ->
  snd (contourLUT (chistory b [CLut s; CSet 0 v]) s) = Ok (table s c).
Proof. exact (stale_table round15 c b v s). Qed.
Print Assumptions C67_getLUT_refuted.
(** (the two tables differ:) *)
Example C67_case : nth 1 (table 2 [[(0, 0); (1, 1)]]) (0, 0) <> nth 1 (table 2 [[(0, 0); (50, 50)]]) (0, 0).
Proof.
  change 1%nat with (0 * (Z.to_nat 2 - 1) + 1)%nat. rewrite (C66_table_entry_partial 2 [[(0, 0); (1, 1)]] 0 1), (C66_table_entry_partial 2 [[(0, 0); (50, 50)]] 0 1); try (repeat constructor; fail); try (cbn; lia).
  cbn [nth]. rewrite !curve2. cbn [fst snd INR Z.sub Z.add Z.opp Z.pos_sub]. intros E. injection E as E _. lra.
Qed.
(** and deleting the only curve raises IndexError with the curve already gone. *)
Theorem C67_delete_refuted (s : list pt) (b : bcontour R) : newContour [s] = Ok b -> drawable s -> exists b', delitem b 0 = (b', Some IndexError) /\ c_beziers b' = [].
Proof. exact (delete_only round15 s b). Qed.
Print Assumptions C67_delete_refuted.
(** The curves and the end points do follow every edit. *)
Theorem C67_set_ends_partial (c : list (list pt)) (b : bcontour R) (i : nat) (v : list pt) : Forall drawable c -> c_beziers b = map (fun s => mkBez s 0 1) c -> (i < length c)%nat -> drawable v ->
  exists b' f, setitem b i v = (b', None) /\ newContour (replaceAt c i v) = Ok f /\ c_beziers b' = c_beziers f /\
    c_start b' = c_start f /\ c_end b' = c_end f /\ c_bounds b' = c_bounds b /\ c_lut b' = c_lut b.
Proof. exact (setitem_ends round15 c b i v). Qed.
Print Assumptions C67_set_ends_partial.
Theorem C67_delete_ends_partial (c : list (list pt)) (b : bcontour R) (i : nat) : Forall drawable c -> c_beziers b = map (fun s => mkBez s 0 1) c -> (i < length c)%nat -> (2 <= length c)%nat ->
  exists b' f, delitem b i = (b', None) /\ newContour (deleteAt c i) = Ok f /\ c_beziers b' = c_beziers f /\
    c_start b' = c_start f /\ c_end b' = c_end f /\ c_bounds b' = c_bounds b /\ c_lut b' = c_lut b.
Proof. exact (delitem_ends round15 c b i). Qed.
Print Assumptions C67_delete_ends_partial.
Example C67_case2 : exists b b', newContour arch = Ok b /\ delitem b 1 = (b', None) /\ c_end b' = (2, 0).
Proof.
  destruct (newContour_ok round15 arch arch_drawable ltac:(discriminate)) as (b & E & B & _).
  destruct (C67_delete_ends_partial arch b 1 arch_drawable B ltac:(cbn; lia) ltac:(cbn; lia)) as (b' & f & D & Ef & _ & _ & Ee & _).
  exists b, b'. split; [exact E|]. split; [exact D|]. rewrite Ee.
  destruct (C65_contour_bounds (deleteAt arch 1)) as (f' & Ef' & _ & L & _); [repeat constructor|discriminate|]. rewrite Ef in Ef'. assert (f = f') by congruence. subst f'. injection L as L. congruence.
Qed.

(** ** C68 *)
Theorem C68_findClosest (p : pt) (lut : list pt) :
  (findClosest p lut = (-1)%Z /\ forall q, In q lut -> 9007199254740991 <= vdist q p) \/
  (exists k, findClosest p lut = Z.of_nat k /\ (k < length lut)%nat /\ vdist (nth k lut (0, 0)) p < 9007199254740991 /\
     (forall q, In q lut -> vdist (nth k lut (0, 0)) p <= vdist q p) /\
     forall m, (m < k)%nat -> vdist (nth k lut (0, 0)) p < vdist (nth m lut (0, 0)) p).
Proof. exact (findClosest_spec round15 p lut). Qed.
Print Assumptions C68_findClosest.
(** The second of three points, the third being as near. *)
Example C68_case : findClosest (0, 0) [(2, 0); (1, 0); (0, 1)] = 1%Z.
Proof.
  assert (V : forall x y, vdist (x, y) (0, 0) = sqrt (x * x + y * y)) by (intros; unfold vdist, dist2; cbn [fst snd]; f_equal; ring).
  assert (S : vdist (1, 0) (0, 0) = 1 /\ vdist (0, 1) (0, 0) = 1 /\ vdist (2, 0) (0, 0) = 2).
  { rewrite !V. replace (1 * 1 + 0 * 0) with 1 by ring. replace (0 * 0 + 1 * 1) with 1 by ring. replace (2 * 2 + 0 * 0) with (2 * 2) by ring. rewrite sqrt_1, sqrt_square; lra. }
  destruct S as (S1 & S2 & S3). destruct (C68_findClosest (0, 0) [(2, 0); (1, 0); (0, 1)]) as [(_ & F)|(k & E & K & _ & B & M)].
  - specialize (F (1, 0) (or_intror (or_introl eq_refl))). lra.
  - rewrite E. destruct k as [|[|[|k]]]; [| reflexivity| |cbn in K; lia]; exfalso.
    + specialize (B (1, 0) (or_intror (or_introl eq_refl))). cbn [nth] in B. lra.
    + specialize (M 1%nat ltac:(lia)). cbn [nth] in M. lra.
Qed.

(** ** C69 *)
(** Violated: the answer can be farther than a point of the table: the start of a line is never found. *)
Theorem C69_closest_refuted (bc : bcontour R) (s : Z) (d : R) (q : pt) : newContour [[(0, 0); (1, 0)]] = Ok bc -> (2 <= s)%Z ->
  snd (findClosestPoint bc (0, 0) s) = Ok (d, q) -> 0 < d /\ In (0, 0) (table s [[(0, 0); (1, 0)]]) /\ vdist (0, 0) (0, 0) = 0.
Proof. exact (closest_misses round15 bc s d q). Qed.
Print Assumptions C69_closest_refuted.
(** Violated: with more than 401 steps the answer is always 2^53-1 and (0, 0); with more than 201 steps it is that
    if the nearest point of the table is the first or last sample of the first curve or the second sample of a later one. *)
Theorem C69_many_steps_refuted (c : list (list pt)) (bc : bcontour R) (p : pt) (s : Z) : Forall drawable c -> newContour c = Ok bc ->
  (401 < s \/ 201 < s /\ forall k, first_nearest p (table s c) k -> ~ within s k)%Z -> snd (findClosestPoint bc p s) = Ok (9007199254740991, (0, 0)).
Proof.
  intros F E S. assert (N : c <> []) by (intros ->; discriminate). destruct (newContour_ok round15 c F N) as (b & E' & B & L & _). pose proof (eq_trans (eq_sym E) E') as Eb. injection Eb as <-.
  exact (closest_lost round15 c bc p s F B L N S).
Qed.
Print Assumptions C69_many_steps_refuted.
Example C69_many_steps_case : first_nearest (0, 0) [(0, 0); (1, 0)] 0 /\ ~ within 300 0 /\ within 300 5.
Proof.
  split; [|split; unfold within; cbn; lia]. split; [cbn; lia|]. split; [|lia]. intros q _. cbn [nth]. replace (vdist (0, 0) (0, 0)) with 0; [apply sqrt_pos|].
  unfold vdist, dist2; cbn [fst snd]. rewrite <- sqrt_0. f_equal. ring.
Qed.
(** Violated: so is the answer for a point at least 2^53-1 away from the whole table. *)
Theorem C69_far_refuted (c : list (list pt)) (bc : bcontour R) (p : pt) (s : Z) : Forall drawable c -> newContour c = Ok bc -> (2 <= s)%Z ->
  (forall q, In q (table s c) -> 9007199254740991 <= vdist q p) -> snd (findClosestPoint bc p s) = Ok (9007199254740991, (0, 0)).
Proof.
  intros F E S X. assert (N : c <> []) by (intros ->; discriminate). destruct (newContour_ok round15 c F N) as (b & E' & B & L & _). pose proof (eq_trans (eq_sym E) E') as Eb. injection Eb as <-.
  exact (closest_far round15 c bc p s F B L N S X).
Qed.
Print Assumptions C69_far_refuted.
Example C69_far_case : table 2 [[(0, 0); (0, 0)]] = [(0, 0); (0, 0)] /\ 9007199254740991 <= vdist (0, 0) (10 ^ 16, 0).
Proof.
  split.
  - unfold table, tails, row_of. simpl. rewrite !curve2. cbn [fst snd]. repeat f_equal; ring.
  - unfold vdist, dist2; cbn [fst snd]. replace (_ + _) with (10 ^ 16 * 10 ^ 16) by ring. rewrite sqrt_square; lra.
Qed.
(** With up to 201 steps (up to 401 when the nearest point of the table lies otherwise) and coordinates up to 10^15 the answer of a new contour is a point of the contour and its distance,
    and it is farther than the nearest point of the table by at most 4/5 of the way a curve goes in one step.
    Missing for the full claim: that it is no farther. *)
Theorem C69_closest_partial (c : list (list pt)) (bc : bcontour R) (p : pt) (s : Z) : Forall drawable c -> newContour c = Ok bc ->
  (2 <= s <= 201 \/ 2 <= s <= 401 /\ exists k, first_nearest p (table s c) k /\ within s k)%Z ->
  (forall seg q, In seg c -> In q seg -> moderate q) -> moderate p ->
  exists d q m t, snd (findClosestPoint bc p s) = Ok (d, q) /\ (m < length c)%nat /\ 0 <= t <= 1 /\ q = curve (nth m c []) t /\ d = vdist q p /\
    forall M x, (forall seg, In seg c -> speed seg <= M) -> In x (table s c) -> d <= vdist x p + 4 / 5 * M / IZR (s - 1).
Proof.
  intros F E. assert (N : c <> []) by (intros ->; discriminate). destruct (newContour_ok round15 c F N) as (b & E' & B & L & _). pose proof (eq_trans (eq_sym E) E') as Eb. injection Eb as <-.
  exact (closest_spec round15 c bc p s F N B L).
Qed.
Print Assumptions C69_closest_partial.
Example C69_case : exists bc d q, newContour [[(0, 0); (1, 0)]] = Ok bc /\ snd (findClosestPoint bc (0, 0) 100) = Ok (d, q) /\ 0 < d.
Proof.
  assert (F : Forall drawable [[(0, 0); (1, 0)]]) by (repeat constructor).
  destruct (C65_contour_bounds _ F ltac:(discriminate)) as (bc & E & _).
  assert (M : forall x, Rabs x <= 1 -> Rabs x <= 10 ^ 15) by (intros; lra).
  assert (Z0 : Rabs 0 <= 1) by (rewrite Rabs_R0; lra). assert (Z1 : Rabs 1 <= 1) by (rewrite Rabs_R1; lra).
  destruct (C69_closest_partial _ bc (0, 0) 100 F E) as (d & q & _ & _ & H & _); [lia| |split; cbn [fst snd]; auto|].
  - intros seg x [<-|[]] [<-|[<-|[]]]; split; cbn [fst snd]; auto.
  - exists bc, d, q. split; [exact E|]. split; [exact H|]. now destruct (C69_closest_refuted bc 100 d q E ltac:(lia) H).
Qed.
