(** Proofs about BezierUtilities.py and the functions of PathUtilities.py. *)
From Coq Require Import List ZArith Bool Reals Lra Lia Psatz.
From Verif Require Import Py Inst SpecGeom SpecOrder SpecBounds SpecUtil MBounds MBezUtil MPathUtil ProofBounds.
Import ListNotations.
Local Open Scope R_scope.

(** ** C32: line-line intersection *)
Lemma lli4_R (p1 p2 p3 p4 : pt) :
  let d := vcross (vsub p2 p1) (vsub p4 p3) in
  let s := vcross (vsub p3 p1) (vsub p4 p3) / d in
  lli4 p1 p2 p3 p4 = if Req_EM_T d 0 then None else Some (along p1 p2 s).
Proof.
  destruct p1 as [x1 y1], p2 as [x2 y2], p3 as [x3 y3], p4 as [x4 y4].
  unfold lli4, lli8, along, vadd, vscale, vcross, vsub; cbn [fst snd]; numRg. unfold Reqb.
  set (d := (x1 - x2) * (y3 - y4) - (y1 - y2) * (x3 - x4)).
  assert (E : (x2 - x1) * (y4 - y3) - (y2 - y1) * (x4 - x3) = d) by (unfold d; ring).
  rewrite E. destruct (Req_EM_T d 0) as [Z|Z]; auto.
  refine (f_equal (@Some pt) _). apply f_equal2; unfold d in *; field; auto.
Qed.

(** Points of a line through two distinct points are those collinear with them. *)
Lemma on_line_iff (a b p : pt) : a <> b -> on_line a b p <-> collinear a b p.
Proof.
  destruct a as [ax ay], b as [bx by'], p as [px py]. intros N.
  unfold on_line, collinear, along, vadd, vscale, vcross, vsub; cbn [fst snd]. split.
  - intros (s & E). injection E as -> ->. ring.
  - intros C. destruct (Req_dec (bx - ax) 0) as [Z|Z].
    + assert (Zy : by' - ay <> 0). { intros Zy. apply N. f_equal; lra. }
      exists ((py - ay) / (by' - ay)). f_equal.
      * rewrite Z in *. assert (px - ax = 0).
        { apply Rmult_eq_reg_l with (by' - ay); auto. lra. } lra.
      * field; auto.
    + exists ((px - ax) / (bx - ax)). f_equal; [field; auto|].
      apply Rmult_eq_reg_r with (bx - ax); auto. field_simplify; auto. lra.
Qed.
Lemma on_line_cross (a b p : pt) : on_line a b p -> collinear a b p.
Proof.
  unfold on_line, collinear, along, vadd, vscale, vcross, vsub; intros (s & ->); cbn [fst snd]; ring.
Qed.

Theorem lli4_None (p1 p2 p3 p4 : pt) : lli4 p1 p2 p3 p4 = None <-> parallel p1 p2 p3 p4.
Proof.
  rewrite lli4_R. unfold parallel. destruct (Req_EM_T _ 0); split; intros; congruence.
Qed.
Lemma lines_meet_once (p1 p2 p3 p4 q r : pt) : ~ parallel p1 p2 p3 p4 ->
  on_line p1 p2 q -> on_line p3 p4 q -> on_line p1 p2 r -> on_line p3 p4 r -> q = r.
Proof.
  intros NP (s & ->) H2 (s' & ->) H4. apply on_line_cross in H2, H4.
  destruct p1 as [x1 y1], p2 as [x2 y2], p3 as [x3 y3], p4 as [x4 y4].
  unfold parallel, collinear, along, vadd, vscale, vcross, vsub in *; cbn [fst snd] in *.
  assert (E : s = s'); [|subst; auto].
  apply Rmult_eq_reg_r with ((x2 - x1) * (y4 - y3) - (y2 - y1) * (x4 - x3)); auto. lra.
Qed.
Lemma lli4_on (p1 p2 p3 p4 p : pt) : lli4 p1 p2 p3 p4 = Some p ->
  ~ parallel p1 p2 p3 p4 /\ on_line p1 p2 p /\ on_line p3 p4 p.
Proof.
  rewrite lli4_R. unfold parallel. destruct (Req_EM_T _ 0) as [Z|Z]; [discriminate|].
  intros E; injection E as <-. split; auto. split; [eexists; reflexivity|].
  apply on_line_iff.
  - intros ->. apply Z. unfold vcross, vsub; cbn [fst snd]; ring.
  - destruct p1 as [x1 y1], p2 as [x2 y2], p3 as [x3 y3], p4 as [x4 y4].
    unfold collinear, along, vadd, vscale, vcross, vsub in *; cbn [fst snd] in *. field; auto.
Qed.
Theorem lli4_Some (p1 p2 p3 p4 p : pt) : lli4 p1 p2 p3 p4 = Some p <->
  ~ parallel p1 p2 p3 p4 /\ on_line p1 p2 p /\ on_line p3 p4 p.
Proof.
  split; [apply lli4_on|]. intros (NP & A & B).
  destruct (lli4 p1 p2 p3 p4) as [q|] eqn:E.
  - apply lli4_on in E as (_ & A' & B'). f_equal. eapply lines_meet_once; eauto.
  - apply lli4_None in E. contradiction.
Qed.

(** ** C33: droots *)
Lemma In_two {A} (x a b : A) : In (Some x) [Some a; Some b] <-> x = a \/ x = b.
Proof.
  simpl. split.
  - intros [E | [E | []]]; injection E as ->; auto.
  - intros [-> | ->]; auto.
Qed.
Section Droots.
Context (rnd : R -> R).
#[local] Hint Extern 0 (TrigOps R) => exact (RTrig rnd) : typeclass_instances.

Theorem droots2 (a b c t : R) : ~ (a = 0 /\ b = 0 /\ c = 0) ->
  In (Some t) (droots [a; b; c]) <-> bern2 a b c t = 0.
Proof.
  intros NZ. unfold droots, bsqrt; numRg. unfold bern2.
  set (d := a - 2 * b + c).
  assert (P : (1 - t) ^ 2 * a + 2 * (1 - t) * t * b + t ^ 2 * c = d * t ^ 2 + 2 * (b - a) * t + a)
    by (unfold d; ring).
  rewrite P. clear P.
  destruct (Reqb_spec d 0) as [Z|Z]; cbn [negb andb].
  - rewrite Z. destruct (Reqb_spec b c) as [E|E]; cbn [negb andb].
    + subst c. assert (a = b) by (unfold d in Z; lra). subst b.
      split; [intros []|]. intros K. exfalso. apply NZ. lra.
    + assert (Ea : a = 2 * b - c) by (unfold d in Z; lra). split.
      * intros [K | []]. injection K as <-. rewrite Ea. field. lra.
      * intros K. left. f_equal. rewrite Ea in K. apply Rmult_eq_reg_r with (2 * (b - c)); [|lra].
        field_simplify; [|lra]. lra.
  - destruct (Rltb_spec (b * b - a * c) 0) as [L|L].
    + split; [intros [K | [K | []]]; discriminate|]. intros K. exfalso.
      assert (d * (d * t ^ 2 + 2 * (b - a) * t + a) = (d * t + (b - a)) ^ 2 - (b * b - a * c))
        by (unfold d; ring).
      rewrite K in H. pose proof (pow2_ge_0 (d * t + (b - a))). lra.
    + pose proof (sqrt_sqrt _ L) as S. set (s := sqrt _) in *.
      assert (Q : d * (d * t ^ 2 + 2 * (b - a) * t + a) = (d * t + (b - a) - s) * (d * t + (b - a) + s)).
      { transitivity ((d * t + (b - a)) ^ 2 - s * s); [rewrite S; unfold d; ring | ring]. }
      rewrite In_two. split.
      * intros K. apply Rmult_eq_reg_l with d; auto. rewrite Q, Rmult_0_r.
        assert (F : d * t = - (b - a) + s \/ d * t = - (b - a) - s)
          by (destruct K as [-> | ->]; [left | right]; field; auto).
        destruct F as [-> | ->]; ring.
      * intros K. rewrite K, Rmult_0_r in Q. symmetry in Q. apply Rmult_integral in Q as [Q|Q].
        -- left. apply Rmult_eq_reg_r with d; auto. field_simplify; auto. lra.
        -- right. apply Rmult_eq_reg_r with d; auto. field_simplify; auto. lra.
Qed.
Theorem droots1 (a b t : R) : ~ (a = 0 /\ b = 0) ->
  In (Some t) (droots [a; b]) <-> bern1 a b t = 0.
Proof.
  intros NZ. unfold droots, bern1; numRg. destruct (Reqb_spec a b) as [E|E]; cbn [negb].
  - subst b. split; [intros []|]. intros K. exfalso; apply NZ. lra.
  - split.
    + intros [K | []]. injection K as <-. field. lra.
    + intros K. left. f_equal. apply Rmult_eq_reg_r with (a - b); [|lra]. field_simplify; lra.
Qed.
Theorem droots_other (p : list R) : length p <> 2%nat -> length p <> 3%nat -> droots p = [].
Proof. destruct p as [|a [|b [|c [|d p]]]]; simpl; intros; auto; lia. Qed.
(** NaN entries exactly when the discriminant is negative. *)
Theorem droots_nan (a b c : R) :
  In None (droots [a; b; c]) <-> a - 2 * b + c <> 0 /\ b * b - a * c < 0.
Proof.
  unfold droots, bsqrt; numRg.
  destruct (Reqb_spec (a - 2 * b + c) 0); cbn [negb andb].
  - destruct (Reqb b c); simpl; intuition discriminate.
  - destruct (Rltb_spec (b * b - a * c) 0); simpl; intuition (discriminate || lra).
Qed.
End Droots.

(** ** C34: cube root *)
Section Crt.
Context (rnd : R -> R).
#[local] Hint Extern 0 (TrigOps R) => exact (RTrig rnd) : typeclass_instances.
Lemma Rpow_third (v : R) : 0 <= v -> 0 <= Rpow v (1 / 3) /\ Rpow v (1 / 3) ^ 3 = v.
Proof.
  intros V. unfold Rpow. destruct (Req_EM_T v 0) as [->|N]; [split; [lra | ring]|].
  assert (0 < v) by lra. split; [left; apply exp_pos|].
  rewrite <- Rpower_pow by apply exp_pos. rewrite Rpower_mult.
  replace (1 / 3 * INR 3) with 1 by (simpl; lra). apply Rpower_1; auto.
Qed.
Theorem crt_cube (v : R) : crt v ^ 3 = v.
Proof.
  unfold crt, nlit; numRg. destruct (Rltb_spec v 0) as [L|L].
  - destruct (Rpow_third (- v)) as [_ E]; [lra|]. 
    replace ((- Rpow (- v) (1 / 3)) ^ 3) with (- (Rpow (- v) (1 / 3) ^ 3)) by ring. rewrite E; ring.
  - apply Rpow_third; auto.
Qed.
Lemma cube_inj (x y : R) : x ^ 3 = y ^ 3 -> x = y.
Proof.
  intros E. assert (F : (x - y) * ((x + y / 2) ^ 2 + 3 / 4 * y ^ 2) = 0) by (field_simplify; lra).
  apply Rmult_integral in F as [F|F]; [lra|].
  pose proof (pow2_ge_0 (x + y / 2)). pose proof (pow2_ge_0 y).
  assert (Y : y ^ 2 = 0) by lra. assert (y = 0) by nra. subst. assert (X : (x + 0 / 2) ^ 2 = 0) by lra. nra.
Qed.
Lemma cube_lt (x y : R) : x < y -> x ^ 3 < y ^ 3.
Proof. intros. assert (0 < (y - x) * (((x + y / 2) ^ 2 + 3 / 4 * y ^ 2))); [|field_simplify in H0; lra].
  apply Rmult_lt_0_compat; [lra|]. destruct (Req_dec y 0) as [->|N].
  - assert (0 < x ^ 2) by nra. nra.
  - assert (0 < y ^ 2) by nra. pose proof (pow2_ge_0 (x + y / 2)). lra.
Qed.
Theorem crt_unique (v x : R) : x ^ 3 = v <-> x = crt v.
Proof. split; [intros E; apply cube_inj; now rewrite crt_cube | intros ->; apply crt_cube]. Qed.
Theorem crt_odd (v : R) : crt (- v) = - crt v.
Proof. symmetry. apply crt_unique. replace ((- crt v) ^ 3) with (- (crt v ^ 3)) by ring. now rewrite crt_cube. Qed.
Theorem crt_lt (u v : R) : u < v <-> crt u < crt v.
Proof.
  split; intros L.
  - destruct (Rlt_le_dec (crt u) (crt v)) as [|[G|G]]; auto.
    + apply cube_lt in G. rewrite !crt_cube in G. lra.
    + assert (crt u ^ 3 = crt v ^ 3) by now rewrite G. rewrite !crt_cube in H. lra.
  - apply cube_lt in L. now rewrite !crt_cube in L.
Qed.
Lemma crt_0 : crt 0 = 0.
Proof. symmetry. apply crt_unique. ring. Qed.
Theorem crt_sign (v : R) : (0 < v <-> 0 < crt v) /\ (v < 0 <-> crt v < 0) /\ (v = 0 <-> crt v = 0).
Proof.
  pose proof (crt_lt 0 v) as A. pose proof (crt_lt v 0) as B. rewrite crt_0 in A, B.
  split; auto. split; auto. split; [intros ->; apply crt_0|].
  intros E. rewrite <- (crt_cube v), E. ring.
Qed.
End Crt.

(** ** C35: removeDuplicates *)
Section RD.
  Context {A : Type} (eqb : A -> A -> bool).
  Hypothesis eqb_refl : forall x, eqb x x = true.
  Hypothesis eqb_sym : forall x y, eqb x y = eqb y x.
  Hypothesis eqb_trans : forall x y z, eqb x y = true -> eqb y z = true -> eqb x z = true.

  Definition memb (v : A) (l : list A) : bool := existsb (fun x => eqb x v) l.
  Lemma index_of_app v l1 l2 :
    index_of eqb v (l1 ++ l2) =
    match index_of eqb v l1 with
    | Some j => Some j
    | None => option_map (plus (length l1)) (index_of eqb v l2)
    end.
  Proof.
    induction l1 as [|x l1 IH]; simpl; [destruct (index_of eqb v l2); auto|].
    destruct (eqb x v); auto. rewrite IH. destruct (index_of eqb v l1); simpl; auto.
    destruct (index_of eqb v l2); auto.
  Qed.
  Lemma index_of_memb v l : (exists j, index_of eqb v l = Some j /\ (j < length l)%nat) /\ memb v l = true
     \/ index_of eqb v l = None /\ memb v l = false.
  Proof.
    induction l as [|x l IH]; simpl; auto. destruct (eqb x v); simpl.
    - left; split; auto. exists O; split; auto; lia.
    - destruct IH as [[(j & -> & L) ->] | [-> ->]]; auto. left; split; auto. exists (S j); split; auto; lia.
  Qed.
  (** The scan with an explicit prefix. *)
  Fixpoint scan (pre suf : list A) : list A :=
    match suf with
    | [] => []
    | v :: r => (if memb v pre then [] else [v]) ++ scan (pre ++ [v]) r
    end.
  Lemma rd_scan l pre suf acc : l = pre ++ suf ->
    fold_left
      (fun result iv =>
         match index_of eqb (snd iv) l with
         | Some j => if Nat.eqb j (fst iv) then result ++ [snd iv] else result
         | None => result
         end)
      (combine (seq (length pre) (length suf)) suf) acc = acc ++ scan pre suf.
  Proof.
    revert pre acc; induction suf as [|v suf IH]; intros pre acc E; simpl; [now rewrite app_nil_r|].
    specialize (IH (pre ++ [v])). rewrite app_length in IH. simpl in IH.
    replace (length pre + 1)%nat with (S (length pre)) in IH by lia.
    rewrite IH by (rewrite E, <- app_assoc; auto). rewrite app_assoc. f_equal.
    rewrite E, index_of_app. simpl. rewrite eqb_refl. simpl.
    destruct (index_of_memb v pre) as [[(j & -> & L) ->] | [-> ->]].
    - destruct (Nat.eqb_spec j (length pre)); [lia|]. now rewrite app_nil_r.
    - rewrite Nat.add_0_r, Nat.eqb_refl. auto.
  Qed.
  Lemma filter_filter_and (f g : A -> bool) l : filter f (filter g l) = filter (fun x => g x && f x) l.
  Proof. induction l; simpl; auto. destruct (g a); simpl; [destruct (f a)|]; rewrite IHl; auto. Qed.
  Lemma memb_snoc x pre v : memb x (pre ++ [v]) = memb x pre || eqb v x.
  Proof. unfold memb. rewrite existsb_app. simpl. now rewrite orb_false_r. Qed.
  Lemma scan_fo pre suf : scan pre suf = filter (fun x => negb (memb x pre)) (first_occurrences eqb suf).
  Proof.
    revert pre; induction suf as [|v suf IH]; intros pre; simpl; auto.
    rewrite IH, filter_filter_and.
    assert (E : filter (fun x => negb (eqb v x) && negb (memb x pre)) (first_occurrences eqb suf) =
                filter (fun x => negb (memb x (pre ++ [v]))) (first_occurrences eqb suf)).
    { apply filter_ext. intros x. rewrite memb_snoc, negb_orb. apply andb_comm. }
    rewrite E. destruct (memb v pre); simpl; auto.
  Qed.
  Theorem removeDuplicates_fo l : removeDuplicates eqb l = first_occurrences eqb l.
  Proof.
    unfold removeDuplicates. etransitivity; [exact (rd_scan l [] l [] eq_refl)|]. simpl. rewrite scan_fo.
    unfold memb; simpl. induction (first_occurrences eqb l) as [|x r IH]; simpl; auto. now rewrite IH.
  Qed.
  Definition distinct (l : list A) : Prop := ForallOrdPairs (fun x y => eqb x y = false) l.
  Lemma FOP_filter (P : A -> A -> Prop) f l : ForallOrdPairs P l -> ForallOrdPairs P (filter f l).
  Proof.
    induction 1; simpl; [constructor|]. destruct (f a); auto. constructor; auto.
    rewrite Forall_forall in *. intros x Hx. apply filter_In in Hx; apply H; tauto.
  Qed.
  Lemma fo_distinct l : distinct (first_occurrences eqb l).
  Proof.
    induction l as [|x l IH]; simpl; constructor; [|apply FOP_filter; auto].
    rewrite Forall_forall. intros y Hy. apply filter_In in Hy as [_ Hy]. now apply negb_true_iff in Hy.
  Qed.
  Lemma fo_incl l x : In x (first_occurrences eqb l) -> In x l.
  Proof. induction l as [|y l IH]; simpl; auto. intros [|H]; auto. apply filter_In in H; tauto. Qed.
  Lemma fo_covers l x : In x l -> exists y, In y (first_occurrences eqb l) /\ eqb y x = true.
  Proof.
    induction l as [|z l IH]; simpl; [tauto|]. intros [->|H]; [exists x; auto|].
    destruct (IH H) as (y & Hy & E). destruct (eqb z y) eqn:Z.
    - exists z; split; auto. eapply eqb_trans; eauto.
    - exists y; split; auto. right. apply filter_In. rewrite Z; auto.
  Qed.
  Lemma fo_id l : distinct l -> first_occurrences eqb l = l.
  Proof.
    induction 1 as [|x l F P IH]; simpl; auto. rewrite IH. f_equal.
    clear - F. induction F; simpl; auto. rewrite H; simpl. now f_equal.
  Qed.
  Theorem removeDuplicates_sp l : let r := removeDuplicates eqb l in
    r = first_occurrences eqb l /\ distinct r /\ (forall x, In x r -> In x l) /\
    (forall x, In x l -> exists y, In y r /\ eqb y x = true) /\ removeDuplicates eqb r = r.
  Proof.
    cbv zeta. rewrite !removeDuplicates_fo. repeat split.
    - apply fo_distinct. - apply fo_incl. - apply fo_covers. - apply fo_id, fo_distinct.
  Qed.
End RD.
Theorem removeDuplicates_full {A : Type} (eqb : A -> A -> bool) (l : list A) :
  (forall x, eqb x x = true) -> (forall x y, eqb x y = eqb y x) ->
  (forall x y z, eqb x y = true -> eqb y z = true -> eqb x z = true) ->
  let r := removeDuplicates eqb l in
  r = first_occurrences eqb l /\ ForallOrdPairs (fun x y => eqb x y = false) r /\
  (forall x, In x r -> In x l) /\ (forall x, In x l -> exists y, In y r /\ eqb y x = true) /\
  removeDuplicates eqb r = r.
Proof. intros R S T. apply removeDuplicates_sp; auto. Qed.
Theorem removeDuplicates_NoDup {A : Type} (eqb : A -> A -> bool) (l : list A) :
  (forall x y, eqb x y = true <-> x = y) ->
  NoDup (removeDuplicates eqb l) /\ (forall x, In x (removeDuplicates eqb l) <-> In x l).
Proof.
  intros E. destruct (removeDuplicates_full eqb l) as (_ & D & I & J & _).
  - intros x; now apply E.
  - intros x y. apply eq_true_iff_eq. rewrite !E. split; auto.
  - intros x y z. rewrite !E. congruence.
  - set (r := removeDuplicates eqb l) in *. clearbody r. split.
    + clear I J. induction D as [|x r F D IH]; constructor; auto. intros K.
      rewrite Forall_forall in F. apply F in K. assert (eqb x x = true) by now apply E. congruence.
    + intros x; split; auto. intros K. destruct (J x K) as (y & Hy & Ey). apply E in Ey. now subst.
Qed.

(** ** C36: lerp and map *)
Theorem lerp_spec (r : R) (a b : pt) : lerp 0 a b = a /\ lerp 1 a b = b /\ lerp r a b = along a b r /\
  lerp r a b = vadd (vscale (1 - r) a) (vscale r b).
Proof.
  destruct a, b. unfold lerp, along, vadd, vscale, vsub; numRg; cbn [fst snd].
  repeat split; f_equal; ring.
Qed.
Theorem bmap_spec (v ds de ts te : R) :
  (ds = de -> bmap v ds de ts te = Err ZeroDivisionError) /\
  (ds <> de -> exists w, bmap v ds de ts te = Ok w /\ w = ts + (te - ts) * ((v - ds) / (de - ds)) /\
     (v = ds -> w = ts) /\ (v = de -> w = te) /\
     (ts <> te -> bmap w ts te ds de = Ok v)).
Proof.
  unfold bmap; numRg. split.
  - intros ->. replace (de - de) with 0 by ring. now rewrite ndivR0.
  - intros N. rewrite ndivR by lra. cbn [bind]. eexists; split; [reflexivity|]. split; auto.
    repeat split.
    + intros ->. field. lra.
    + intros ->. field. lra.
    + intros N'. rewrite ndivR by lra. cbn [bind]. f_equal. field. lra.
Qed.

(** ** C16: classification of lines *)
Section Lines.
Context (rnd : R -> R).
#[local] Hint Extern 0 (TrigOps R) => exact (RTrig rnd) : typeclass_instances.

Lemma endPoints_two (a b : pt) : endPoints [a; b] = Ok (a, b).
Proof. reflexivity. Qed.
Lemma endPoints_ends (s : segment R) a b : seg_first s = Some a -> seg_last s = Some b ->
  endPoints s = Ok (a, b).
Proof.
  intros F L. assert (Q : forall l : list pt, seg_last l = last_error l) by (induction l as [|? [|]]; simpl in *; auto).
  rewrite Q in L. unfold endPoints, idx, idx_last.  rewrite L.
  destruct s as [|x s]; [discriminate|]. injection F as ->. reflexivity.
Qed.
Theorem line_classes (a b : pt) : a <> b ->
  exists v h d, isVerticalLine [a; b] = Ok v /\ isHorizontalLine [a; b] = Ok h /\ isDiagonalLine [a; b] = Ok d /\
    (v = true <-> fst a = fst b) /\ (h = true <-> snd a = snd b) /\
    (d = true <-> fst a <> fst b /\ snd a <> snd b) /\
    ((v = true /\ h = false /\ d = false) \/ (v = false /\ h = true /\ d = false) \/
     (v = false /\ h = false /\ d = true)).
Proof.
  destruct a as [ax ay], b as [bx by']. intros N.
  unfold isVerticalLine, isHorizontalLine, isDiagonalLine, getDeltas. rewrite endPoints_two. cbn [bind fst snd length Nat.eqb andb].
  do 3 eexists. split; [reflexivity|]. split; [reflexivity|]. split; [reflexivity|]. numRg.
  destruct (Reqb_spec (bx - ax) 0), (Reqb_spec (by' - ay) 0); cbn [negb andb].
  - exfalso; apply N; f_equal; lra.
  - intuition (try discriminate; try lra).
  - intuition (try discriminate; try lra).
  - intuition (try discriminate; try lra).
Qed.
Theorem line_classes_other (s : segment R) : length s <> 2%nat ->
  (s = [] -> isVerticalLine s = Err IndexError /\ isHorizontalLine s = Err IndexError /\ isDiagonalLine s = Err IndexError) /\
  (s <> [] -> isVerticalLine s = Ok false /\ isHorizontalLine s = Ok false /\ isDiagonalLine s = Ok false).
Proof.
  intros L. split; [intros ->; repeat split|]. intros N.
  assert (E : exists d, getDeltas s = Ok d).
  { unfold getDeltas, endPoints, idx, idx_last. destruct s as [|a s]; [congruence|]. simpl nth_error; cbv iota. cbn [bind].
    rewrite (last_error_last (a :: s) a) by discriminate. cbn [bind]. eauto. }
  destruct E as ([dx dy] & E). unfold isVerticalLine, isHorizontalLine, isDiagonalLine. rewrite E; cbn [bind].
  apply Nat.eqb_neq in L. rewrite L. auto.
Qed.
Theorem slope_spec (a b : pt) :
  (slope [a; b] = Ok SInf <-> fst a = fst b) /\
  (fst a <> fst b -> slope [a; b] = Ok (SFin ((snd b - snd a) / (fst b - fst a)))) /\
  slope [b; a] = slope [a; b].
Proof.
  destruct a as [ax ay], b as [bx by']. unfold slope, getDeltas. rewrite !endPoints_two. cbn [bind fst snd]. numRg.
  destruct (Reqb_spec (bx - ax) 0), (Reqb_spec (ax - bx) 0); try lra.
  - repeat split; intros; auto; try lra.
  - repeat split; intros; auto; try lra; try discriminate. do 2 f_equal. field. lra.
Qed.

(** ** C17: intersectionPoint *)
Lemma BR_two_R (a b : pt) p : near a b ->
  enclosesPoint (BoundsRectangle [a; b]) p = true ->
  Rmin (fst a) (fst b) <= fst p <= Rmax (fst a) (fst b) /\ Rmin (snd a) (snd b) <= snd p <= Rmax (snd a) (snd b).
Proof.
  intros (N1 & N2 & N3 & N4) E. rewrite enclosesPoint_R in E.
  assert (X : Rmin (fst a) (fst b) <= left (BoundsRectangle [a; b]) /\ right (BoundsRectangle [a; b]) <= Rmax (fst a) (fst b) /\
              Rmin (snd a) (snd b) <= bottom (BoundsRectangle [a; b]) /\ top (BoundsRectangle [a; b]) <= Rmax (snd a) (snd b)).
  { destruct (BR_tight _ R_order [a; b] (Rmin (fst a) (fst b)) (Rmax (fst a) (fst b)) (Rmin (snd a) (snd b)) (Rmax (snd a) (snd b)))
      as (X1 & X2 & X3 & X4); auto using Rgood.
    - unfold in_range, le; numRg. repeat split;
        [destruct N1 | destruct N2 | destruct N3 | destruct N4];
        ((exists a; split; [simpl; auto | apply Rleb_true; assumption]) || (exists b; split; [simpl; auto | apply Rleb_true; assumption])).
    - intros q [<- | [<- | []]]; unfold in_box; numRg; rewrite !Rleb_true;
        auto using Rmin_l, Rmin_r, Rmax_l, Rmax_r.
    - unfold le in *. numR. rewrite Rleb_true in *. auto. }
  lra.
Qed.
Lemma on_line_box (a b p : pt) : on_line a b p ->
  Rmin (fst a) (fst b) <= fst p <= Rmax (fst a) (fst b) -> Rmin (snd a) (snd b) <= snd p <= Rmax (snd a) (snd b) ->
  on_segment a b p.
Proof.
  destruct a as [ax ay], b as [bx by']. intros (s & ->) Bx By.
  unfold along, vadd, vscale, vsub in *; cbn [fst snd] in *.
  destruct (Req_dec ax bx) as [->|Nx].
  - destruct (Req_dec ay by') as [->|Ny].
    + exists 0; split; [lra|]. unfold along, vadd, vscale, vsub; cbn [fst snd]. f_equal; ring.
    + exists s; split; auto. revert By. unfold Rmin, Rmax. destruct (Rle_dec ay by'); intros; split; nra.
  - exists s; split; auto. revert Bx. unfold Rmin, Rmax. destruct (Rle_dec ax bx); intros; split; nra.
Qed.
Lemma on_segment_line (a b p : pt) : on_segment a b p -> on_line a b p.
Proof. intros (s & _ & E); exists s; auto. Qed.
Lemma on_segment_box (a b p : pt) : on_segment a b p -> enclosesPoint (BoundsRectangle [a; b]) p = true.
Proof.
  intros (s & S & ->). rewrite enclosesPoint_R.
  pose proof (BR_encloses _ R_order [a; b] a (Rgood _) ltac:(simpl; auto)) as A.
  pose proof (BR_encloses _ R_order [a; b] b (Rgood _) ltac:(simpl; auto)) as B.
  rewrite enclosesPoint_R in A, B. set (r := BoundsRectangle _) in *.
  unfold along, vadd, vscale, vsub; cbn [fst snd].
  destruct A as [A1 A2], B as [B1 B2]. repeat split; nra.
Qed.
Theorem intersectionPoint_complete (a b c d p : pt) : ~ parallel a b c d ->
  on_segment a b p -> on_segment c d p -> intersectionPoint [a; b] [c; d] = Ok (Some p).
Proof.
  intros NP A B. unfold intersectionPoint. change (lli [a; b] [c; d]) with (Ok (lli4 a b c d)). cbn [bind].
  assert (E : lli4 a b c d = Some p) by (apply lli4_Some; auto using on_segment_line).
  rewrite E, !on_segment_box by auto. reflexivity.
Qed.
Theorem intersectionPoint_parallel (a b c d : pt) : parallel a b c d -> intersectionPoint [a; b] [c; d] = Ok None.
Proof.
  intros P. unfold intersectionPoint. change (lli [a; b] [c; d]) with (Ok (lli4 a b c d)). cbn [bind].
  apply lli4_None in P. now rewrite P.
Qed.
Theorem intersectionPoint_sound (a b c d p : pt) : near a b -> near c d ->
  intersectionPoint [a; b] [c; d] = Ok (Some p) -> on_segment a b p /\ on_segment c d p.
Proof.
  intros N1 N2. unfold intersectionPoint. change (lli [a; b] [c; d]) with (Ok (lli4 a b c d)). cbn [bind].
  destruct (lli4 a b c d) as [q|] eqn:E; [|discriminate].
  destruct (enclosesPoint (BoundsRectangle [a; b]) q) eqn:E1; [|discriminate].
  destruct (enclosesPoint (BoundsRectangle [c; d]) q) eqn:E2; [|discriminate]. cbn [andb].
  intros F; injection F as <-. apply lli4_on in E as (_ & A & B).
  apply BR_two_R in E1 as [X1 Y1]; auto. apply BR_two_R in E2 as [X2 Y2]; auto.
  split; apply on_line_box; auto.
Qed.

(** ** C18: pointOnLine *)
Lemma slopeeqb_true (x y : slopeval R) : slopeeqb x y = true <-> x = y.
Proof.
  destruct x, y; simpl; numRg; rewrite ?Reqb_true; split; intros; try congruence.
Qed.
Theorem pointOnLine_spec (p a b : pt) : near a b -> p <> a \/ fst a = fst b ->
  exists r, pointOnLine p [a; b] = Ok r /\ (r = true <-> on_segment a b p).
Proof.
  intros N1 N2. unfold pointOnLine. destruct (enclosesPoint (BoundsRectangle [a; b]) p) eqn:E.
  - destruct (slope_spec a b) as (S1 & S2 & _). destruct (slope_spec a p) as (S1' & S2' & _).
    apply BR_two_R in E as [X Y]; auto. change (idx [a; b] 0) with (Ok a).
    destruct (Req_dec (fst a) (fst b)) as [V|V].
    + apply S1 in V as Vs. rewrite Vs. cbn [bind].
      destruct (Req_dec (fst a) (fst p)) as [W|W].
      * apply S1' in W as Ws. rewrite Ws. cbn [bind slopeeqb]. eexists; split; [reflexivity|]. split; auto.
        intros _. apply on_line_box; auto. destruct a as [ax ay], b as [bx by'], p as [px py]. cbn [fst snd] in *. subst.
        destruct (Req_dec ay by') as [->|Ny].
        -- exists 0. unfold along, vadd, vscale, vsub; cbn [fst snd]. f_equal; [ring|].
           unfold Rmin, Rmax in Y. destruct (Rle_dec by' by'); lra.
        -- exists ((py - ay) / (by' - ay)). unfold along, vadd, vscale, vsub; cbn [fst snd]. f_equal; [ring|]. field. lra.
      * rewrite S2' by auto. cbn [bind slopeeqb]. eexists; split; [reflexivity|]. split; [discriminate|].
        intros (s & _ & ->). exfalso. apply W. unfold along, vadd, vscale, vsub; cbn [fst snd]. rewrite <- V. ring.
    + destruct N2 as [N2|N2]; [|contradiction]. rewrite S2 by auto. cbn [bind].
      destruct (Req_dec (fst a) (fst p)) as [W|W].
      * apply S1' in W as Ws. rewrite Ws. cbn [bind slopeeqb]. eexists; split; [reflexivity|]. split; [discriminate|].
        intros (s & _ & E). exfalso. subst p. unfold along, vadd, vscale, vsub in *; cbn [fst snd] in *.
        assert (s = 0). { apply Rmult_eq_reg_r with (fst b - fst a); lra. }
        subst s. apply N2. destruct a; simpl; f_equal; ring.
      * rewrite S2' by auto. cbn [bind slopeeqb]. numRg. eexists; split; [reflexivity|]. rewrite Reqb_true. split.
        -- intros Es. apply on_line_box; auto. exists ((fst p - fst a) / (fst b - fst a)).
           destruct a as [ax ay], b as [bx by'], p as [px py]. unfold along, vadd, vscale, vsub; cbn [fst snd] in *.
           f_equal; [field; lra|].
           assert (py - ay = (by' - ay) / (bx - ax) * (px - ax)) by (rewrite Es; field; lra).
           replace py with (ay + (py - ay)) by ring. rewrite H. field. lra.
        -- intros (s & _ & ->). destruct a as [ax ay], b as [bx by']. unfold along, vadd, vscale, vsub in *; cbn [fst snd] in *.
           field. split; [lra|]. intros K. apply W. lra.
  - eexists; split; [reflexivity|]. split; [discriminate|]. intros S. apply on_segment_box in S. congruence.
Qed.
Theorem pointOnLine_true (p a b : pt) : near a b -> pointOnLine p [a; b] = Ok true -> on_segment a b p.
Proof.
  intros N E. destruct (Req_dec (fst a) (fst b)) as [V|V].
  - destruct (pointOnLine_spec p a b N (or_intror V)) as (r & Er & Hr). rewrite Er in E; injection E as ->. tauto.
  - destruct (Req_dec (fst p) (fst a)) as [W|W].
    + destruct (Req_dec (snd p) (snd a)) as [W'|W'].
      * exists 0; split; [lra|]. destruct p, a; unfold along, vadd, vscale, vsub; cbn [fst snd] in *; subst. f_equal; ring.
      * destruct (pointOnLine_spec p a b N) as (r & Er & Hr); [left; congruence|]. rewrite Er in E; injection E as ->. tauto.
    + destruct (pointOnLine_spec p a b N) as (r & Er & Hr); [left; congruence|]. rewrite Er in E; injection E as ->. tauto.
Qed.

(** ** C19: midpoint, length, slopeAngle *)
Theorem midpoint_spec (s : segment R) (a b : pt) : seg_first s = Some a -> seg_last s = Some b ->
  exists m, midpoint s = Ok m /\ on_segment a b m /\ vdist a m = vdist m b /\ m = along a b (1 / 2).
Proof.
  intros F L. unfold midpoint. rewrite (endPoints_ends s a b F L). cbn [bind]. numRg. eexists; split; [reflexivity|].
  destruct a as [ax ay], b as [bx by']; cbn [fst snd].
  assert (E : ((ax + bx) / 2, (ay + by') / 2) = along (ax, ay) (bx, by') (1 / 2)).
  { unfold along, vadd, vscale, vsub; cbn [fst snd]. f_equal; field. }
  split; [exists (1 / 2); split; [lra | auto]|]. split; auto.
  unfold vdist, dist2; cbn [fst snd]. f_equal. field.
Qed.
Theorem seglength_spec (s : segment R) (a b : pt) : seg_first s = Some a -> seg_last s = Some b ->
  seglength s = Ok (vdist a b).
Proof.
  intros F L. unfold seglength, getDeltas. rewrite (endPoints_ends s a b F L). cbn [bind]. numRg.
  f_equal. unfold vdist, dist2. f_equal. ring.
Qed.
Lemma dist2_pos (a b : pt) : 0 <= dist2 a b.
Proof. unfold dist2. apply Rplus_le_le_0_compat; apply pow2_ge_0. Qed.
Lemma sqrt_triangle (x1 y1 x2 y2 : R) :
  sqrt ((x1 + x2) ^ 2 + (y1 + y2) ^ 2) <= sqrt (x1 ^ 2 + y1 ^ 2) + sqrt (x2 ^ 2 + y2 ^ 2).
Proof.
  assert (P : forall x y, 0 <= x ^ 2 + y ^ 2) by (intros; apply Rplus_le_le_0_compat; apply pow2_ge_0).
  assert (C : x1 * x2 + y1 * y2 <= sqrt (x1 ^ 2 + y1 ^ 2) * sqrt (x2 ^ 2 + y2 ^ 2)).
  { rewrite <- sqrt_mult by apply P. apply Rle_trans with (Rabs (x1 * x2 + y1 * y2)); [apply Rle_abs|].
    rewrite <- sqrt_Rsqr_abs. apply sqrt_le_1_alt. unfold Rsqr. pose proof (pow2_ge_0 (x1 * y2 - y1 * x2)). nra. }
  pose proof (sqrt_pos (x1 ^ 2 + y1 ^ 2)). pose proof (sqrt_pos (x2 ^ 2 + y2 ^ 2)).
  apply Rsqr_incr_0_var; [|lra]. unfold Rsqr. rewrite sqrt_sqrt by apply P.
  pose proof (sqrt_sqrt _ (P x1 y1)). pose proof (sqrt_sqrt _ (P x2 y2)). nra.
Qed.
Lemma vdist_metric (a b c v : pt) :
  vdist a b = vdist b a /\ 0 <= vdist a b /\ (vdist a b = 0 <-> a = b) /\
  vdist (vadd a v) (vadd b v) = vdist a b /\ vdist a c <= vdist a b + vdist b c.
Proof.
  destruct a as [ax ay], b as [bx by'], c as [cx cy], v as [vx vy]. unfold vdist, dist2, vadd; cbn [fst snd].
  repeat split.
  - f_equal; ring.
  - apply sqrt_pos.
  - intros E. apply sqrt_eq_0 in E; [|apply Rplus_le_le_0_compat; apply pow2_ge_0].
    pose proof (pow2_ge_0 (ax - bx)). pose proof (pow2_ge_0 (ay - by')).
    assert ((ax - bx) ^ 2 = 0 /\ (ay - by') ^ 2 = 0) as [E1 E2] by lra. f_equal; nra.
  - intros E; injection E as -> ->. replace ((bx - bx) ^ 2 + (by' - by') ^ 2) with 0 by ring. apply sqrt_0.
  - f_equal; ring.
  - pose proof (sqrt_triangle (ax - bx) (ay - by') (bx - cx) (by' - cy)) as T.
    replace (ax - bx + (bx - cx)) with (ax - cx) in T by ring.
    replace (ay - by' + (by' - cy)) with (ay - cy) in T by ring. exact T.
Qed.
Theorem seglength_metric (a b c v : pt) :
  exists ab ba bc ac tr, seglength [a; b] = Ok ab /\ seglength [b; a] = Ok ba /\ seglength [b; c] = Ok bc /\
    seglength [a; c] = Ok ac /\ seglength [vadd a v; vadd b v] = Ok tr /\
    ab = ba /\ 0 <= ab /\ (ab = 0 <-> a = b) /\ tr = ab /\ ac <= ab + bc.
Proof.
  exists (vdist a b), (vdist b a), (vdist b c), (vdist a c), (vdist (vadd a v) (vadd b v)).
  repeat (split; [apply seglength_spec; reflexivity|]). apply vdist_metric.
Qed.
Lemma atan2_first_quadrant (y x : R) : 0 <= y -> 0 <= x -> 0 <= Ratan2 y x <= PI / 2.
Proof.
  intros Y X. unfold Ratan2. pose proof PI_RGT_0 as P.
  destruct (Rlt_dec 0 x).
  - pose proof (atan_bound (y / x)). split; [|lra].
    destruct Y as [Y|<-].
    + rewrite <- atan_0. left. apply atan_increasing. apply Rdiv_lt_0_compat; auto.
    + replace (0 / x) with 0 by (field; lra). rewrite atan_0. lra.
  - destruct (Rlt_dec x 0); [lra|]. destruct (Rlt_dec 0 y); [lra|]. destruct (Rlt_dec y 0); lra.
Qed.
Theorem slopeAngle_range (s : segment R) (a b : pt) : seg_first s = Some a -> seg_last s = Some b ->
  exists d, slopeAngle s = Ok d /\ 0 <= d <= 90.
Proof.
  intros F L. unfold slopeAngle, getDeltas. rewrite (endPoints_ends s a b F L). cbn [bind]. unfold degrees; numRg.
  eexists; split; [reflexivity|]. set (t := Ratan2 _ _).
  assert (T : 0 <= t <= PI / 2) by (apply atan2_first_quadrant; apply Rabs_pos).
  pose proof PI_RGT_0 as P. split.
  - apply Rmult_le_pos; [lra|]. apply Rmult_le_pos; [lra|]. left; apply Rinv_0_lt_compat; auto.
  - apply Rmult_le_reg_r with PI; auto. unfold Rdiv. rewrite Rmult_assoc, (Rmult_assoc 180), Rinv_l by lra. lra.
Qed.
End Lines.

(** ** Counterexamples *)
Section Counter.
Context (rnd : R -> R).
#[local] Hint Extern 0 (TrigOps R) => exact (RTrig rnd) : typeclass_instances.
Ltac box := rewrite enclosesPoint_R; unfold BoundsRectangle, emptyRect; cbn [fold_left]; unfold addPoint, pmin, pmax;
  cbn [left right top bottom fst snd]; numRg; rcasesi; lra.
Lemma intersectionPoint_far :
  intersectionPoint [(40000, 0); (50000, 0)] [(35000, -10); (35000, 10)] = Ok (Some (35000, 0)).
Proof.
  unfold intersectionPoint. set (l1 := [_; _]). set (l2 := [(35000, _); _]).
  change (lli l1 l2) with (Ok (lli4 (40000, 0) (50000, 0) (35000, -10) (35000, 10))). cbn [bind].
  assert (E : lli4 (40000, 0) (50000, 0) (35000, -10) (35000, 10) = Some (35000, 0)).
  { apply lli4_Some. unfold parallel, vcross, vsub, on_line, along, vadd, vscale; cbn [fst snd]. split; [lra|].
    split; [exists (-1/2) | exists (1/2)]; unfold vsub; cbn [fst snd]; f_equal; lra. }
  rewrite E.
  assert (E1 : enclosesPoint (BoundsRectangle l1) (35000, 0) = true) by (unfold l1; box).
  assert (E2 : enclosesPoint (BoundsRectangle l2) (35000, 0) = true) by (unfold l2; box).
  now rewrite E1, E2.
Qed.
Theorem intersectionPoint_unsound :
  exists a b c d p, intersectionPoint [a; b] [c; d] = Ok (Some p) /\ ~ on_segment a b p.
Proof.
  do 5 eexists. split; [apply intersectionPoint_far|]. intros (s & S & E).
  unfold along, vadd, vscale, vsub in E; cbn [fst snd] in E. injection E; intros; lra.
Qed.
Theorem pointOnLine_start (a b : pt) : fst a <> fst b -> pointOnLine a [a; b] = Ok false.
Proof.
  intros N. unfold pointOnLine. destruct (enclosesPoint _ a); auto.
  destruct (slope_spec a b) as (_ & S & _). rewrite S by auto. cbn [bind]. change (idx [a; b] 0) with (Ok a). cbn [bind].
  destruct (slope_spec a a) as ((_ & S') & _). rewrite S' by auto. reflexivity.
Qed.
Theorem pointOnLine_misses_start :
  exists p a b, on_segment a b p /\ pointOnLine p [a; b] = Ok false.
Proof.
  exists (0, 0), (0, 0), (1, 1). split; [|apply pointOnLine_start; simpl; lra].
  exists 0. split; [lra|]. unfold along, vadd, vscale, vsub; cbn [fst snd]; f_equal; lra.
Qed.
Theorem pointOnLine_accepts_outside :
  exists p a b, ~ on_segment a b p /\ pointOnLine p [a; b] = Ok true.
Proof.
  exists (35000, 0), (40000, 0), (50000, 0). split; [|].
  { intros (s & S & E). unfold along, vadd, vscale, vsub in E; cbn [fst snd] in E. injection E; intros; lra. }
  { unfold pointOnLine. set (l := [(40000, 0); _]).
    assert (E1 : enclosesPoint (BoundsRectangle l) (35000, 0) = true) by (unfold l; box).
    rewrite E1. unfold l. destruct (slope_spec (40000, 0) (50000, 0)) as (_ & S & _). rewrite S by (simpl; lra).
    cbn [bind]. change (idx [(40000, 0); (50000, 0)] 0) with (Ok (40000, 0)). cbn [bind].
    destruct (slope_spec (40000, 0) (35000, 0)) as (_ & S' & _). rewrite S' by (simpl; lra). cbn [bind slopeeqb fst snd].
    numRg. f_equal. apply Reqb_true. lra. }
Qed.
End Counter.
