(** Exchanging the two curves of an intersection (Bezier.py 646-708). *)
From Coq Require Import List ZArith Bool Reals Lra Lia Permutation.
From Verif Require Import Py Inst SpecGeom SpecBezier SpecOrder SpecBounds SpecCurve SpecMove SpecSwap
  MTransform MBounds MBezUtil MPathUtil MBezier ProofUtil ProofBounds ProofBezier ProofBezier2 ProofBBox ProofInter ProofReduce.
Import ListNotations.
Local Open Scope R_scope.

(** ** Lists collected from calls that can only run out of recursion depth *)
Section Collect.
  Context {A B : Type}.
  Implicit Types (f g : A -> res B).
  Definition deep f (a : A) : Prop := (exists r, f a = Ok r) \/ f a = Err RecursionError.
  Lemma mapM_deep f l : (forall a, In a l -> deep f a) ->
    (exists rs, mapM f l = Ok rs) /\ (forall a, In a l -> exists r, f a = Ok r) \/ mapM f l = Err RecursionError /\ exists a, In a l /\ f a = Err RecursionError.
  Proof.
    induction l as [|a l IH]; intros D; cbn [mapM]; [left; split; [eauto|intros a []]|].
    destruct (D a (or_introl eq_refl)) as [(r & E)|E].
    - rewrite E. cbn [bind]. destruct IH as [[(rs & E') O]|[E' (x & Hx & Ex)]]; [intros x Hx; apply D; now right| |].
      + left. rewrite E'. split; [eexists; reflexivity|]. intros x [<-|Hx]; eauto.
      + right. rewrite E'. split; [reflexivity|]. exists x. split; [now right|exact Ex].
    - right. rewrite E. split; [reflexivity|]. exists a. split; [now left|exact E].
  Qed.
End Collect.
Definition orNil {A B} (f : A -> res (list B)) (a : A) : list B := match f a with Ok r => r | Err _ => [] end.
Lemma mapM_orNil {A B} (f : A -> res (list B)) : forall l rs, mapM f l = Ok rs -> concat rs = flat_map (orNil f) l.
Proof.
  induction l as [|a l IH]; intros rs E; cbn [mapM] in E; [injection E as <-; reflexivity|].
  destruct (f a) as [r|] eqn:Ea; cbn [bind] in E; [|discriminate]. destruct (mapM f l) as [r'|]; cbn [bind] in E; [|discriminate]. injection E as <-.
  cbn [concat flat_map]. unfold orNil at 1. rewrite Ea. f_equal. now apply IH.
Qed.
Lemma flat_map_perm {A B} (f g : A -> list B) l : (forall a, In a l -> Permutation (f a) (g a)) -> Permutation (flat_map f l) (flat_map g l).
Proof.
  induction l as [|a l IH]; intros E; cbn [flat_map]; [constructor|]. apply Permutation_app; [apply E; now left|apply IH; intros x Hx; apply E; now right].
Qed.
Lemma collect_exchanged {A} (f : A * A -> res (list pt)) l l' : Permutation (map exchange l) l' -> (forall a, In a l -> deep f a) ->
  (forall a, In a l -> exchanged (f a) (f (exchange a))) ->
  match mapM f l, mapM f l' with
  | Ok rs, Ok rs' => Permutation (map exchange (concat rs)) (concat rs')
  | Err e, Err e' => e = RecursionError /\ e' = RecursionError
  | _, _ => False
  end.
Proof.
  intros P D X. assert (I : forall a, In a l' <-> exists b, In b l /\ exchange b = a).
  { intros a. rewrite <- (Permutation_in' eq_refl P). rewrite in_map_iff. firstorder. }
  assert (D' : forall a, In a l' -> deep f a).
  { intros a Ha. apply I in Ha as (b & Hb & <-). specialize (X b Hb). specialize (D b Hb). unfold exchanged in X. destruct D as [(r & E)|E]; rewrite E in X.
    - left. destruct (f (exchange b)) as [r'|]; [eauto|destruct X].
    - right. destruct (f (exchange b)) as [r'|e]; [destruct X|now subst]. }
  destruct (mapM_deep f l D) as [[(rs & E) O]|[E (a & Ha & Ea)]], (mapM_deep f l' D') as [[(rs' & E') O']|[E' (a' & Ha' & Ea')]]; rewrite E, E'.
  - rewrite (mapM_orNil f l rs E), (mapM_orNil f l' rs' E'). transitivity (flat_map (orNil f) (map exchange l)); [|now apply Permutation_flat_map].
    rewrite flat_map_concat_map, concat_map, map_map, <- flat_map_concat_map. rewrite (flat_map_concat_map _ (map _ _)), map_map, <- flat_map_concat_map.
    apply flat_map_perm. intros a Ha. specialize (X a Ha). destruct (O a Ha) as (r & Er). unfold exchanged in X. unfold orNil. rewrite Er in X |- *. destruct (f (exchange a)); [exact X|destruct X].
  - apply I in Ha' as (b & Hb & <-). specialize (X b Hb). destruct (O b Hb) as (r & Er). unfold exchanged in X. now rewrite Er, Ea' in X.
  - specialize (X a Ha). destruct (O' (exchange a)) as (r & Er); [apply I; eauto|]. unfold exchanged in X. now rewrite Ea, Er in X.
  - auto.
Qed.
Lemma filterM_deep {A} (f : A -> res bool) l : (forall a, In a l -> exists c, f a = Ok c) ->
  filterM f l = Ok (filter (fun a => match f a with Ok c => c | Err _ => false end) l).
Proof.
  induction l as [|a l IH]; intros T; cbn [filterM filter]; [reflexivity|]. destruct (T a (or_introl eq_refl)) as (c & E). rewrite E. cbn [bind].
  rewrite IH by (intros x Hx; apply T; now right). cbn [bind]. now destruct c.
Qed.
Lemma Permutation_filter {A} (f : A -> bool) l l' : Permutation l l' -> Permutation (filter f l) (filter f l').
Proof.
  induction 1 as [|x l l' P IH|x y l|l m n P1 I1 P2 I2]; cbn [filter]; [constructor| | |etransitivity; eauto].
  - destruct (f x); [now constructor|exact IH].
  - destruct (f x), (f y); try reflexivity. constructor.
Qed.
Lemma filter_exchange {A} (f g : A * A -> bool) l : (forall a, In a l -> g (exchange a) = f a) -> filter g (map exchange l) = map exchange (filter f l).
Proof.
  induction l as [|a l IH]; intros E; cbn [map filter]; [reflexivity|]. rewrite E by (now left). rewrite IH by (intros x Hx; apply E; now right). now destruct (f a).
Qed.
Lemma exchange_inv {A B} (p : A * B) : exchange (exchange p) = p.
Proof. now destruct p. Qed.

Section Swap.
  Context (rnd : R -> R).
  #[local] Hint Extern 0 (TrigOps R) => exact (RTrig rnd) : typeclass_instances.
  Definition flat3 (c : bezier R) : Prop := (length (cps c) = 3 \/ length (cps c) = 4)%nat.
  Lemma overlaps_swap a b : flat3 a -> flat3 b -> exists c, overlaps a b = Ok c /\ overlaps b a = Ok c.
  Proof.
    intros La Lb. destruct (boundsRectangle_spec rnd a) as (ra & Ea & _); [unfold flat3 in *; lia|]. destruct (boundsRectangle_spec rnd b) as (rb & Eb & _); [unfold flat3 in *; lia|].
    destruct (overlaps_ok rnd a b ra rb Ea Eb) as (c & Ec & I). destruct (overlaps_ok rnd b a rb ra Eb Ea) as (c' & Ec' & I').
    exists c. split; [exact Ec|]. rewrite Ec'. f_equal. rewrite intersection_some_R in I, I'.
    rewrite (Rmax_comm (left ra)), (Rmin_comm (right ra)), (Rmax_comm (bottom ra)), (Rmin_comm (top ra)) in I. destruct c, c'; intuition congruence.
  Qed.
  Lemma halves_flat c : flat3 c -> exists l r q, split1 c (1 / 2) = Ok (l, r, q) /\ flat3 l /\ flat3 r.
  Proof.
    intros F. destruct (split1_ok c (1 / 2) F) as (l & r & E & Ll & Lr & _). exists l, r, (hull c (1 / 2)). split; [exact E|]. unfold flat3 in *. split; congruence || (rewrite ?Ll, ?Lr; exact F).
  Qed.
  Lemma report_exchange c1 c2 : exchange (reportPair c1 c2) = reportPair c2 c1.
  Proof. reflexivity. Qed.
  Lemma dedup_exchange (l l' : list pt) : Permutation (map exchange l) l' -> Permutation (map exchange (removeDuplicates pteqb l)) (removeDuplicates pteqb l').
  Proof.
    intros P. assert (N : forall m : list pt, NoDup (removeDuplicates pteqb m)).
    { intros m. destruct (removeDuplicates_full (A := pt) pteqb m) as (_ & D & _).
      - intros x. now apply pteqb_R.
      - intros x y. apply eq_true_iff_eq. rewrite !pteqb_R. split; congruence.
      - intros x y z. rewrite !pteqb_R. congruence.
      - induction D as [|x m' H D IH]; constructor; auto. intros K. rewrite Forall_forall in H. specialize (H x K). assert (pteqb x x = true) by (now apply pteqb_R). congruence. }
    apply NoDup_Permutation; [|apply N|].
    - apply FinFun.Injective_map_NoDup; [|apply N]. intros x y E. rewrite <- (exchange_inv x), E. apply exchange_inv.
    - intros x. rewrite in_map_iff, removeDuplicates_In. rewrite <- (Permutation_in' eq_refl P), in_map_iff. split; intros (y & E & Hy); exists y; rewrite removeDuplicates_In in *; auto.
  Qed.
  Lemma pair_swap th : forall fuel c1 c2, flat3 c1 -> flat3 c2 ->
    deep (fun p => pairiteration fuel th (fst p) (snd p)) (c1, c2) /\ exchanged (pairiteration fuel th c1 c2) (pairiteration fuel th c2 c1).
  Proof.
    induction fuel as [|f IH]; intros c1 c2 F1 F2; [split; [right; reflexivity|reflexivity]|].
    unfold deep. cbn [fst snd pairiteration].
    destruct (boundsRectangle_spec rnd c1) as (r1 & E1 & _); [unfold flat3 in *; lia|]. destruct (boundsRectangle_spec rnd c2) as (r2 & E2 & _); [unfold flat3 in *; lia|].
    rewrite E1, E2. cbn [bind]. rewrite (andb_comm (nltb (nadd (height r2) (width r2)) th)).
    destruct (_ && _); [split; [eauto|exact (Permutation_refl [reportPair c2 c1])]|].
    change (nlit 1 2) with (1 / 2). destruct (halves_flat c1 F1) as (l1 & q1 & h1 & S1 & L1 & Q1). destruct (halves_flat c2 F2) as (l2 & q2 & h2 & S2 & L2 & Q2).
    rewrite S1, S2. cbn [bind].
    set (P := [(l1, l2); (l1, q2); (q1, q2); (q1, l2)]). set (P' := [(l2, l1); (l2, q1); (q2, q1); (q2, l1)]).
    assert (PP : Permutation (map exchange P) P'). { unfold P, P', exchange. cbn [map fst snd]. apply perm_skip. exact (Permutation_rev [(q2, l1); (q2, q1); (l2, q1)]). }
    assert (G : forall a, In a P -> flat3 (fst a) /\ flat3 (snd a)) by (intros a [<-|[<-|[<-|[<-|[]]]]]; cbn [fst snd]; auto).
    assert (G' : forall a, In a P' -> flat3 (fst a) /\ flat3 (snd a)) by (intros a [<-|[<-|[<-|[<-|[]]]]]; cbn [fst snd]; auto).
    assert (T : forall l, (forall a : bezier R * bezier R, In a l -> flat3 (fst a) /\ flat3 (snd a)) -> forall a, In a l -> exists c, overlaps (fst a) (snd a) = Ok c).
    { intros l Gl a Ha. destruct (Gl a Ha) as [A1 A2]. destruct (overlaps_swap _ _ A1 A2) as (c & E & _). eauto. }
    rewrite (filterM_deep _ P (T P G)), (filterM_deep _ P' (T P' G')). cbn [bind].
    set (g := fun a : bezier R * bezier R => match overlaps (fst a) (snd a) with Ok c => c | Err _ => false end).
    assert (PF : Permutation (map exchange (filter g P)) (filter g P')).
    { rewrite <- (filter_exchange g g); [now apply Permutation_filter|]. intros a Ha. destruct (G a Ha) as [A1 A2]. destruct (overlaps_swap _ _ A1 A2) as (c & E & E').
      unfold g. cbn [exchange fst snd]. now rewrite E, E'. }
    assert (Len : length (filter g P') = length (filter g P)) by (rewrite <- (Permutation_length PF); apply map_length).
    rewrite Len. destruct (Nat.eqb (length (filter g P)) 0); [split; [eauto|cbn [exchanged map]; constructor]|].
    pose proof (collect_exchanged (fun pr => pairiteration f th (fst pr) (snd pr)) _ _ PF) as C.
    assert (GF : forall a, In a (filter g P) -> flat3 (fst a) /\ flat3 (snd a)) by (intros a Ha; apply filter_In in Ha; apply G; tauto).
    specialize (C ltac:(intros [x y] Ha; apply GF in Ha as [A1 A2]; exact (proj1 (IH _ _ A1 A2)))
                  ltac:(intros [x y] Ha; apply GF in Ha as [A1 A2]; exact (proj2 (IH _ _ A1 A2)))).
    destruct (mapM _ (filter g P)) as [rs|e], (mapM _ (filter g P')) as [rs'|e']; cbn [bind]; [|destruct C..|].
    - split; [eauto|]. cbn [exchanged]. now apply dedup_exchange.
    - destruct C as [-> ->]. split; [now right|reflexivity].
  Qed.
  Lemma prod_exchange {A} : forall c1 c2 : list A, Permutation (map exchange (list_prod c1 c2)) (list_prod c2 c1).
  Proof.
    induction c1 as [|a c1 IH]; intros c2; cbn [list_prod map].
    - induction c2 as [|b c2 IH]; cbn [list_prod map app]; [constructor|exact IH].
    - rewrite map_app, map_map. rewrite (IH c2). clear IH. induction c2 as [|b c2 IH]; cbn [list_prod map app]; [constructor|].
      apply perm_skip. rewrite <- IH. rewrite !app_assoc. apply Permutation_app_tail, Permutation_app_comm.
  Qed.
  Lemma curveIntersects_swap fuel th c1 c2 : Forall flat3 c1 -> Forall flat3 c2 ->
    exchanged (curveIntersects fuel th c1 c2) (curveIntersects fuel th c2 c1) /\
    ((exists r, curveIntersects fuel th c1 c2 = Ok r) \/ curveIntersects fuel th c1 c2 = Err RecursionError).
  Proof.
    intros F1 F2. rewrite Forall_forall in F1, F2. unfold curveIntersects.
    assert (G : forall a, In a (list_prod c1 c2) -> flat3 (fst a) /\ flat3 (snd a)) by (intros [x y] H; apply in_prod_iff in H; cbn [fst snd]; split; [apply F1|apply F2]; tauto).
    assert (G' : forall a, In a (list_prod c2 c1) -> flat3 (fst a) /\ flat3 (snd a)) by (intros [x y] H; apply in_prod_iff in H; cbn [fst snd]; split; [apply F2|apply F1]; tauto).
    assert (T : forall l, (forall a : bezier R * bezier R, In a l -> flat3 (fst a) /\ flat3 (snd a)) -> forall a, In a l -> exists c, overlaps (fst a) (snd a) = Ok c).
    { intros l Gl a Ha. destruct (Gl a Ha) as [A1 A2]. destruct (overlaps_swap _ _ A1 A2) as (c & E & _). eauto. }
    rewrite (filterM_deep _ _ (T _ G)), (filterM_deep _ _ (T _ G')). cbn [bind].
    set (g := fun a : bezier R * bezier R => match overlaps (fst a) (snd a) with Ok c => c | Err _ => false end).
    assert (PF : Permutation (map exchange (filter g (list_prod c1 c2))) (filter g (list_prod c2 c1))).
    { rewrite <- (filter_exchange g g); [apply Permutation_filter, prod_exchange|]. intros a Ha. destruct (G a Ha) as [A1 A2]. destruct (overlaps_swap _ _ A1 A2) as (c & E & E').
      unfold g. cbn [exchange fst snd]. now rewrite E, E'. }
    pose proof (collect_exchanged (fun pr => pairiteration fuel th (fst pr) (snd pr)) _ _ PF) as C.
    assert (GF : forall a, In a (filter g (list_prod c1 c2)) -> flat3 (fst a) /\ flat3 (snd a)) by (intros a Ha; apply filter_In in Ha; apply G; tauto).
    specialize (C ltac:(intros [x y] Ha; apply GF in Ha as [A1 A2]; exact (proj1 (pair_swap th fuel _ _ A1 A2)))
                  ltac:(intros [x y] Ha; apply GF in Ha as [A1 A2]; exact (proj2 (pair_swap th fuel _ _ A1 A2)))).
    destruct (mapM _ (filter g (list_prod c1 c2))) as [rs|e], (mapM _ (filter g (list_prod c2 c1))) as [rs'|e']; cbn [bind]; [|destruct C..|].
    - split; [exact C|eauto].
    - destruct C as [-> ->]. split; [reflexivity|now right].
  Qed.
  Theorem intersects_swap rf f b c th : flat3 b -> flat3 c -> (102 <= rf)%nat -> exchanged (intersects rf f b (Some c) th) (intersects rf f c (Some b) th).
  Proof.
    intros Fb Fc F. unfold intersects.
    assert (Q : forall o, flat3 o -> reduce rf o = Err ZeroDivisionError \/ exists l, reduce rf o = Ok l /\ Forall flat3 l).
    { intros o Fo. destruct (reduce_spec' rnd o rf Fo F) as [[E _]|(l & E & [->|[T _]])]; [now left|right; exists []; auto|right; exists l; split; auto].
      clear E F. revert T. generalize 0, 1. induction l as [|s l IH]; intros a z T; cbn [tiles] in T; constructor; [|apply (IH _ _ (proj2 (proj2 (proj2 (proj2 T)))))].
      destruct T as (_ & _ & E & _). unfold flat3 in *. now rewrite E. }
    destruct (Q b Fb) as [E|(l & E & Fl)], (Q c Fc) as [E'|(l' & E' & Fl')]; rewrite E, E'; cbn [bind]; try reflexivity.
    apply curveIntersects_swap; auto.
  Qed.
End Swap.
