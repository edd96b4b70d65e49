(** Proofs for C138: what becomes of coordinates that are not numbers, or infinite. *)
From Coq Require Import List ZArith Bool Reals Lra Lia Psatz SpecFloat.
From Flocq Require Import Core BinarySingleNaN.
From Verif Require Import Py Inst InstFloat SpecOrder SpecDouble SpecDouble6 SpecNan MBounds MPathUtil MBezUtil MBezier MContour ProofBounds ProofDouble ProofDouble2 ProofDouble3 ProofDouble7 ProofDouble9 ProofDouble11 ProofDouble13 ProofDouble20 ProofSize.
Import ListNotations.
Local Open Scope R_scope.
Local Notation top := MBounds.top.
#[local] Existing Instance InstFloat.prec_gt_0.
#[local] Existing Instance InstFloat.prec_lt_emax.

Local Infix "≤" := (fun x y : b64 => nleb x y = true) (at level 70).

Lemma ltb_nums (x y : b64) : nltb x y = true -> not_nan x /\ not_nan y.
Proof. change (nltb x y) with (Bltb x y). unfold not_nan. destruct x, y; cbn; auto; discriminate. Qed.
Lemma leb_nums (x y : b64) : nleb x y = true -> not_nan x /\ not_nan y.
Proof. change (nleb x y) with (Bleb x y). unfold not_nan. destruct x, y; cbn; auto; discriminate. Qed.
Lemma nan_dec (x : b64) : not_nan x \/ is_nan x = true.
Proof. unfold not_nan. destruct (is_nan x); auto. Qed.
Lemma nan_ltb (x y : b64) : is_nan x = true \/ is_nan y = true -> nltb x y = false.
Proof. intros N. destruct (nltb x y) eqn:E; [|reflexivity]. apply ltb_nums in E as [A B]. unfold not_nan in *. destruct N; congruence. Qed.

Lemma le_pl (x y : b64) : not_nan x -> not_nan y -> nleb x y = true <-> place x <= place y.
Proof. exact (leb_place x y). Qed.
Lemma lt_pl (x y : b64) : not_nan x -> not_nan y -> nltb x y = true <-> place x < place y.
Proof. exact (ltb_place x y). Qed.
Lemma pmin_num (a b : b64) : not_nan a -> not_nan (pmin a b) /\ forall x, not_nan x -> x ≤ pmin a b <-> x ≤ a /\ (not_nan b -> x ≤ b).
Proof.
  intros Na. unfold pmin. destruct (nltb b a) eqn:E.
  - destruct (ltb_nums _ _ E) as [Nb _]. split; [exact Nb|]. intros x Nx. apply lt_pl in E; auto. cbn beta.
    rewrite !le_pl by auto. split; [intros L; split; [lra | intros; lra] | intros [_ L]; auto].
  - split; [exact Na|]. intros x Nx. cbn beta. split; [|tauto]. intros L. split; [exact L|]. intros Nb.
    assert (G : ~ place b < place a) by (rewrite <- lt_pl by auto; congruence).
    rewrite le_pl in L |- * by auto. lra.
Qed.
Lemma pmax_num (a b : b64) : not_nan a -> not_nan (pmax a b) /\ forall x, not_nan x -> pmax a b ≤ x <-> a ≤ x /\ (not_nan b -> b ≤ x).
Proof.
  intros Na. unfold pmax. destruct (nltb a b) eqn:E.
  - destruct (ltb_nums _ _ E) as [_ Nb]. split; [exact Nb|]. intros x Nx. apply lt_pl in E; auto. cbn beta.
    rewrite !le_pl by auto. split; [intros L; split; [lra | intros; lra] | intros [_ L]; auto].
  - split; [exact Na|]. intros x Nx. cbn beta. split; [|tauto]. intros L. split; [exact L|]. intros Nb.
    assert (G : ~ place a < place b) by (rewrite <- lt_pl by auto; congruence).
    rewrite le_pl in L |- * by auto. lra.
Qed.
Lemma minl_num (l : list b64) : forall a, not_nan a -> not_nan (minl l a) /\ forall x, not_nan x -> x ≤ minl l a <-> x ≤ a /\ forall b, In b l -> not_nan b -> x ≤ b.
Proof.
  induction l as [|b l IH]; intros a Na; [split; [exact Na|]; cbn; intros x Nx; split; [intros L; split; [exact L | intros ? []] | tauto]|].
  destruct (pmin_num a b Na) as [P Q]. destruct (IH (pmin a b) P) as [P' Q']. split; [exact P'|]. intros x Nx. cbn beta in *. unfold minl in *. cbn [fold_left]. rewrite Q', Q by exact Nx.
  split; [intros [[A B] C]; split; [exact A|]; intros y [<-|Hy]; auto | intros [A B]; split; [split; [exact A|]; intros; apply B; cbn; auto | intros; apply B; cbn; auto]].
Qed.
Lemma maxl_num (l : list b64) : forall a, not_nan a -> not_nan (maxl l a) /\ forall x, not_nan x -> maxl l a ≤ x <-> a ≤ x /\ forall b, In b l -> not_nan b -> b ≤ x.
Proof.
  induction l as [|b l IH]; intros a Na; [split; [exact Na|]; cbn; intros x Nx; split; [intros L; split; [exact L | intros ? []] | tauto]|].
  destruct (pmax_num a b Na) as [P Q]. destruct (IH (pmax a b) P) as [P' Q']. split; [exact P'|]. intros x Nx. cbn beta in *. unfold maxl in *. cbn [fold_left]. rewrite Q', Q by exact Nx.
  split; [intros [[A B] C]; split; [exact A|]; intros y [<-|Hy]; auto | intros [A B]; split; [split; [exact A|]; intros; apply B; cbn; auto | intros; apply B; cbn; auto]].
Qed.
Lemma lit_num z : not_nan (bofZ z). Proof. apply bofZ_place. Qed.

Lemma in_map_all {A B} (f : A -> B) (P : B -> Prop) l : (forall b, In b (map f l) -> P b) <-> forall a, In a l -> P (f a).
Proof. split; intros H; [intros a Ha; apply H, in_map, Ha | intros b Hb; apply in_map_iff in Hb as (a & <- & Ha); auto]. Qed.
Theorem box_nan (ps : list (point b64)) : let r := BoundsRectangle ps in
  numbers r /\ forall x : b64, not_nan x ->
  (x ≤ left r <-> x ≤ bofZ 32768 /\ forall p, In p ps -> not_nan (fst p) -> x ≤ fst p) /\
  (right r ≤ x <-> bofZ (-32768) ≤ x /\ forall p, In p ps -> not_nan (fst p) -> fst p ≤ x) /\
  (x ≤ bottom r <-> x ≤ bofZ 32768 /\ forall p, In p ps -> not_nan (snd p) -> x ≤ snd p) /\
  (top r ≤ x <-> bofZ (-32768) ≤ x /\ forall p, In p ps -> not_nan (snd p) -> snd p ≤ x).
Proof.
  intros r. unfold r. rewrite BR_fields. unfold numbers. cbn [left right top bottom]. change (@nofZ b64 _) with bofZ.
  destruct (minl_num (map fst ps) _ (lit_num 32768)) as [A A']. destruct (maxl_num (map fst ps) _ (lit_num (-32768))) as [B B'].
  destruct (minl_num (map snd ps) _ (lit_num 32768)) as [C C']. destruct (maxl_num (map snd ps) _ (lit_num (-32768))) as [D D'].
  split; [tauto|]. intros x Nx. cbn beta in *. rewrite A', B', C', D' by exact Nx.
  rewrite (in_map_all fst (fun b => not_nan b -> nleb x b = true)), (in_map_all fst (fun b => not_nan b -> nleb b x = true)), (in_map_all snd (fun b => not_nan b -> nleb x b = true)), (in_map_all snd (fun b => not_nan b -> nleb b x = true)). tauto.
Qed.
(** A point of which neither coordinate is a number may as well be left out. *)
Lemma addPoint_nan (r : rect b64) (p : point b64) : is_nan (fst p) = true -> is_nan (snd p) = true -> addPoint r p = r.
Proof. destruct p as [x y], r as [l ri t b]. cbn [fst snd]. intros X Y. unfold addPoint, pmin, pmax. cbn [left right top bottom]. rewrite !nan_ltb by auto. reflexivity. Qed.
Theorem box_skips (ps qs : list (point b64)) (p : point b64) : is_nan (fst p) = true -> is_nan (snd p) = true -> BoundsRectangle (ps ++ p :: qs) = BoundsRectangle (ps ++ qs).
Proof. intros X Y. unfold BoundsRectangle. rewrite !fold_left_app. cbn [fold_left]. now rewrite addPoint_nan. Qed.

Theorem boxes_nan : (forall a b : rect b64, numbers (union a b)) /\ (forall a b i : rect b64, intersection a b = Some i -> numbers i) /\
  (forall c : contour b64, numbers (fromContour c)) /\ (forall cs : list (contour b64), numbers (fromContours cs)).
Proof.
  assert (U : forall a b : rect b64, numbers (union a b)) by (intros; unfold union; apply box_nan).
  assert (F : forall {A} (f : A -> rect b64) l, numbers (fold_left (fun r a => union r (f a)) l (BoundsRectangle []))).
  { intros A f l. induction l as [|x l _] using rev_ind; [apply box_nan|]. rewrite fold_left_app. cbn [fold_left]. apply U. }
  split; [exact U|]. split; [|split; [intros; apply (F _ BoundsRectangle) | intros; apply (F _ fromContour)]].
  intros a b i. unfold intersection. destruct (_ || _); [discriminate|]. intros E. injection E as <-. apply box_nan.
Qed.

Theorem inside_nan (r : rect b64) (p : point b64) : enclosesPoint r p = true -> not_nan (fst p) /\ not_nan (snd p) /\ numbers r.
Proof.
  destruct p as [x y]. unfold enclosesPoint. intros E. apply andb_prop in E as [E1 E2]. apply andb_prop in E1 as [A B]. apply andb_prop in E2 as [C D].
  apply leb_nums in A, B, C, D. unfold numbers. cbn [fst snd]. tauto.
Qed.

(** ** Lines *)
Lemma sub_0_total (x y : b64) : neqb (nsub x y) (nofZ 0) = true <-> fin x /\ fin y /\ val x = val y.
Proof.
  destruct (is_finite x) eqn:Fx; [destruct (is_finite y) eqn:Fy|].
  - rewrite sub_is_0 by assumption. unfold fin. tauto.
  - split; [|intros (_ & F & _); unfold fin in F; congruence]. intros E. exfalso. destruct x as [s|s| |s m e H]; try discriminate; destruct y as [s'|s'| |s' m' e' H']; try discriminate; try destruct s'; vm_compute in E; discriminate.
  - split; [|intros (F & _); unfold fin in F; congruence]. intros E. exfalso. destruct x as [s|[]| |s m e H]; try discriminate; destruct y as [s'|[]| |s' m' e' H']; try discriminate; vm_compute in E; discriminate.
Qed.
Theorem lines_total (a b : point b64) : exists v h d, isVerticalLine [a; b] = Ok v /\ isHorizontalLine [a; b] = Ok h /\ isDiagonalLine [a; b] = Ok d /\
  (v = true <-> fin (fst a) /\ fin (fst b) /\ val (fst a) = val (fst b)) /\ (h = true <-> fin (snd a) /\ fin (snd b) /\ val (snd a) = val (snd b)) /\
  d = negb v && negb h /\ (slope [a; b] = Ok SInf <-> v = true).
Proof.
  pose proof (sub_0_total (fst b) (fst a)) as X. pose proof (sub_0_total (snd b) (snd a)) as Y.
  exists (neqb (nsub (fst b) (fst a)) (nofZ 0)), (neqb (nsub (snd b) (snd a)) (nofZ 0)). eexists.
  unfold isVerticalLine, isHorizontalLine, isDiagonalLine, slope, getDeltas. change [a; b] with (a :: [] ++ [b]); rewrite (ends_of a b []); cbn [app]. cbn [bind length Nat.eqb andb].
  split; [reflexivity|]. split; [reflexivity|]. split; [reflexivity|].
  split; [rewrite X; intuition|]. split; [rewrite Y; intuition|]. split; [reflexivity|].
  destruct (neqb (nsub (fst b) (fst a)) (nofZ 0)); split; congruence.
Qed.

(** ** Parameters *)
Lemma rootOk_total (v : b64) : rootOk v = true -> fin v /\ - (2 / 1000000) <= val v <= 1 + 2 / 1000000.
Proof.
  intros E. destruct (is_finite v) eqn:F.
  2:{ exfalso. destruct v as [s|[]| |s m e H]; try discriminate; vm_compute in E; discriminate. }
  split; [exact F|]. apply (rootOk_out v F); [|exact E]. destruct lit01 as (F0 & V0 & F1 & V1). destruct eps_val as [Fe Ve]. apply Rabs_le_inv in Ve.
  assert (P : 1024 <= 2 ^ 40) by (replace 1024 with (2 ^ 10) by lra; apply Rle_pow; [lra | lia]).
  unfold rootOk, approximately, approximatelyP in E. change (nofZ 0 : b64) with (bofZ 0) in E. change (nofZ 1 : b64) with (bofZ 1) in E.
  apply orb_prop in E as [E|E]; [apply orb_prop in E as [E|E]|].
  - apply andb_prop in E as [A B]. apply leb_val in A, B; auto. apply Rabs_le. lra.
  - destruct (sub_zero v F) as [Fs Vs]. apply abs_le_val in E; auto. rewrite Vs in E. lra.
  - destruct (Rle_or_lt (Rabs (val v)) (2 ^ 40)) as [L|L]; [exact L|]. exfalso.
    pose proof (Bminus_correct prec emax _ _ mode_NE v (bofZ 1) F F1) as C.
    destruct (Rlt_bool_spec (Rabs (fl (val v - val (bofZ 1)))) ProofDouble.top) as [T|T].
    + destruct (minus_fl v (bofZ 1) F F1 T) as [Fm Vm]. apply abs_le_val in E; auto. rewrite Vm, V1 in E. apply Rabs_le_inv in E.
      destruct (val_int 2) as [_ V2]; [lia|]. destruct (val_int (-2)) as [_ V2']; [lia|].
      unfold Rabs in L. destruct (Rcase_abs (val v)).
      * pose proof (fl_mono (val v - 1) (IZR (-2)) ltac:(lra)) as Mo. rewrite <- V2', fl_val, V2' in Mo. lra.
      * pose proof (fl_mono (IZR 2) (val v - 1) ltac:(lra)) as Mo. rewrite <- V2, fl_val, V2 in Mo. lra.
    + unfold fl, ProofDouble.top, val in T. rewrite Rlt_bool_false in C by exact T. destruct C as [C _].
      assert (I : exists s, Bminus mode_NE v (bofZ 1) = B754_infinity s).
      { destruct (Bminus mode_NE v (bofZ 1)) as [s|s| |s m e H]; cbn in C; try discriminate; eauto. }
      destruct I as (s & I). change (nsub v (bofZ 1)) with (Bminus mode_NE v (bofZ 1)) in E. rewrite I in E. destruct s; vm_compute in E; discriminate.
Qed.
Lemma unit_total (v : b64) : nleb (nofZ 0) v && nleb v (nofZ 1) = true -> fin v /\ 0 <= val v <= 1.
Proof.
  intros E. destruct lit01 as (F0 & V0 & F1 & V1). destruct (is_finite v) eqn:F.
  2:{ exfalso. destruct v as [s|[]| |s m e H]; try discriminate; vm_compute in E; discriminate. }
  split; [exact F|]. change (nofZ 0 : b64) with (bofZ 0) in E. change (nofZ 1 : b64) with (bofZ 1) in E. apply andb_prop in E as [A B]. apply leb_val in A, B; auto. rewrite V0 in A. rewrite V1 in B. lra.
Qed.

Section Params.
  Context {T : Type} {NO : NumOps T} {TO : TrigOps T}.
  Lemma keep_ok (l : list (option T)) : Forall (fun t => rootOk t = true) (keepRoots l).
  Proof. apply Forall_forall. intros t. unfold keepRoots. rewrite in_flat_map. intros ([u|] & _ & I); [|destruct I]. destruct (rootOk u) eqn:E; [|destruct I]. destruct I as [<-|[]]. exact E. Qed.
  Lemma quadRoots_ok (a b c : T) : Forall (fun t => rootOk t = true) (quadRoots a b c).
  Proof. unfold quadRoots. destruct (negb _); [destruct (bsqrt _); apply keep_ok|]. destruct (_ && _); [apply keep_ok | constructor]. Qed.
  Lemma cubicRoots_ok (a b c d : T) : Forall (fun t => rootOk t = true) (cubicRoots a b c d).
  Proof.
    unfold cubicRoots. cbv zeta. destruct (approximately _ _).
    - destruct (approximately _ _); [destruct (approximately _ _)|destruct (bsqrt _)]; try apply keep_ok. constructor.
    - destruct (_ <? _)%num; [destruct (bsqrt _)|destruct (approximately _ _); [|destruct (bsqrt _)]]; apply keep_ok.
  Qed.
  Lemma roots_ok (b : bezier T) (seg : option (segment T)) (l : list T) : roots b seg = Ok l -> Forall (fun t => rootOk t = true) l.
  Proof.
    unfold roots. destruct (match seg with Some ((_ :: _) as s) => alignPoints (cps b) s | _ => Ok (cps b) end) as [p|]; cbn [bind]; [|discriminate].
    destruct p as [|a [|c [|d p]]]; unfold idx; cbn [nth_error bind length Nat.sub Nat.eqb]; try discriminate.
    destruct p as [|e p]; cbn [nth_error bind length Nat.sub Nat.eqb]; intros E; injection E as <-; [apply quadRoots_ok | apply cubicRoots_ok].
  Qed.
  Lemma filterM_sub {A} (f : A -> res bool) : forall l r, filterM f l = Ok r -> forall x, In x r -> In x l.
  Proof.
    induction l as [|a l IH]; intros r; cbn [filterM]; [intros E; injection E as <-; auto|].
    destruct (f a) as [c|]; cbn [bind]; [|discriminate]. destruct (filterM f l) as [r'|]; cbn [bind]; [|discriminate]. intros E x Hx. specialize (IH r' eq_refl x).
    destruct c; injection E as <-; cbn in *; tauto.
  Qed.
  Lemma line_ok (b : bezier T) (p1 p2 : point T) (l : list T) : lineIntersects b p1 p2 = Ok l -> Forall (fun t => rootOk t = true) l.
  Proof.
    unfold lineIntersects. destruct (roots b _) as [r|] eqn:E; cbn [bind]; [|discriminate]. apply roots_ok in E. intros F. rewrite Forall_forall in *. intros t Ht. apply E. eapply filterM_sub; eassumption.
  Qed.
  Local Notation in01 := (fun t : T => nleb (nofZ 0) t && nleb t (nofZ 1) = true).
  Lemma inUnit_ok (l : list (option T)) : Forall in01 (inUnit l).
  Proof. apply Forall_forall. intros t. unfold inUnit. rewrite in_flat_map. intros ([u|] & _ & I); [|destruct I]. destruct (_ && _) eqn:E; [|destruct I]. destruct I as [<-|[]]. exact E. Qed.
  Lemma insert_In (x : T) l y : In y (insert x l) -> y = x \/ In y l.
  Proof. induction l as [|a l IH]; cbn [insert]; [cbn; intuition|]. destruct (_ <? _)%num; cbn [In]; intuition. Qed.
  Lemma sorted_sub (l : list T) y : In y (sorted l) -> In y l.
  Proof.
    assert (G : forall l acc, In y (fold_left (fun acc x => insert x acc) l acc) -> In y l \/ In y acc).
    { clear l. induction l as [|a l IH]; intros acc; cbn [fold_left]; [tauto|]. intros I. apply IH in I as [I|I]; [cbn; tauto|]. apply insert_In in I as [->|I]; cbn; tauto. }
    intros I. apply G in I as [I|[]]. exact I.
  Qed.
  Lemma extrema_ok (b : bezier T) (e : extremaT T) : extrema b = Ok e -> Forall in01 (ex0 e) /\ Forall in01 (ex1 e) /\ Forall in01 (ex2 e).
  Proof.
    assert (G : forall d l, extremaDim b d = Ok l -> Forall in01 l).
    { intros d l. unfold extremaDim. destruct (idx (dcPoints b) 0); cbn [bind]; [|discriminate]. destruct (Nat.eqb _ 3); [destruct (idx (dcPoints b) 1)|]; cbn [bind]; try discriminate; intros E; injection E as <-; apply inUnit_ok. }
    unfold extrema. destruct (extremaDim b 0) as [e0|] eqn:E0; cbn [bind]; [|discriminate]. destruct (extremaDim b 1) as [e1|] eqn:E1; cbn [bind]; [|discriminate].
    intros E. injection E as <-. cbn [ex0 ex1 ex2]. apply G in E0, E1. split; [exact E0|]. split; [exact E1|]. rewrite Forall_forall in *. intros t Ht. apply dups_sub, sorted_sub, in_app_or in Ht as [Ht|Ht]; apply sorted_sub in Ht; auto.
  Qed.
End Params.

Theorem roots_nan {TO : TrigOps b64} (b : bezier b64) (seg : option (segment b64)) (l : list b64) : roots b seg = Ok l -> Forall (fun t => fin t /\ - (2 / 1000000) <= val t <= 1 + 2 / 1000000) l.
Proof. intros E. apply roots_ok in E. eapply Forall_impl; [|exact E]. exact rootOk_total. Qed.
Theorem line_nan {TO : TrigOps b64} (b : bezier b64) (p1 p2 : point b64) (l : list b64) : lineIntersects b p1 p2 = Ok l -> Forall (fun t => fin t /\ - (2 / 1000000) <= val t <= 1 + 2 / 1000000) l.
Proof. intros E. apply line_ok in E. eapply Forall_impl; [|exact E]. exact rootOk_total. Qed.
Theorem extrema_nan {TO : TrigOps b64} (b : bezier b64) (e : extremaT b64) : extrema b = Ok e -> Forall (fun t => fin t /\ 0 <= val t <= 1) (ex0 e ++ ex1 e ++ ex2 e).
Proof. intros E. apply extrema_ok in E as (A & B & C). rewrite !Forall_app. split; [|split]; (eapply Forall_impl; [|eassumption]); exact unit_total. Qed.

(** ** Boxes of curves *)
Lemma foldM_inv {A S} (P : S -> Prop) (f : S -> A -> res S) : (forall s a s', P s -> f s a = Ok s' -> P s') -> forall l s s', P s -> foldM f l s = Ok s' -> P s'.
Proof. intros H. induction l as [|a l IH]; intros s s' Ps; cbn [foldM]; [intros E; injection E as <-; exact Ps|]. destruct (f s a) as [s1|] eqn:E; cbn [bind]; [|discriminate]. apply IH. eapply H; eassumption. Qed.
Lemma getminmax_num {TO : TrigOps b64} (b : bezier b64) d l m : getminmax b d l = Ok m -> not_nan (fst m) /\ not_nan (snd m).
Proof.
  unfold getminmax. apply (foldM_inv (fun m => not_nan (fst m) /\ not_nan (snd m))).
  - intros [mn mx] t s' [A B]. cbn [fst snd] in *. destruct (get b t) as [c|]; cbn [bind]; [|discriminate]. intros E. injection E as <-. cbn [fst snd]. split.
    + destruct (Bltb (coord d c) mn) eqn:E; [exact (proj1 (ltb_nums _ _ E)) | exact A].
    + destruct (Bltb mx (coord d c)) eqn:E; [exact (proj2 (ltb_nums _ _ E)) | exact B].
  - split; apply lit_num.
Qed.
Theorem curve_box_nan {TO : TrigOps b64} (b : bezier b64) :
  (forall x0 x1 y0 y1, bbox b = Ok ((x0, x1), (y0, y1)) -> not_nan x0 /\ not_nan x1 /\ not_nan y0 /\ not_nan y1) /\
  (forall r, boundsRectangle b = Ok r -> numbers r).
Proof.
  split.
  - intros x0 x1 y0 y1. unfold bbox. destruct (extrema b) as [e|]; cbn [bind]; [|discriminate]. destruct (getminmax b 0 _) as [x|] eqn:X; cbn [bind]; [|discriminate]. destruct (getminmax b 1 _) as [y|] eqn:Y; cbn [bind]; [|discriminate].
    intros E. injection E as -> ->. apply getminmax_num in X, Y. cbn [fst snd] in *. tauto.
  - intros r. unfold boundsRectangle. destruct (bbox b) as [[[? ?] [? ?]]|]; cbn [bind]; [|discriminate]. intros E. injection E as <-. apply box_nan.
Qed.

(** ** The nearest point of a table *)
Theorem closest_nan {TO : TrigOps b64} (p : point b64) (lut : list (point b64)) : let d (q : point b64) := thypot (nsub (fst q) (fst p)) (nsub (snd q) (snd p)) in
  (findClosest p lut = (-1)%Z /\ forall q, In q lut -> nltb (d q) (bofZ 9007199254740991) = false) \/
  (exists k, findClosest p lut = Z.of_nat k /\ (k < length lut)%nat /\ not_nan (d (nth k lut p)) /\ nltb (d (nth k lut p)) (bofZ 9007199254740991) = true /\
    (forall q, In q lut -> nltb (d q) (d (nth k lut p)) = false) /\
    forall m, (m < k)%nat -> not_nan (d (nth m lut p)) -> nltb (d (nth k lut p)) (d (nth m lut p)) = true).
Proof.
  intros d. unfold findClosest. change (maxSafe : b64) with (bofZ 9007199254740991). set (B := bofZ 9007199254740991). assert (NB : not_nan B) by apply lit_num.
  enough (G : exists c i, fold_left (closestStep p) lut (0%Z, B, (-1)%Z) = (Z.of_nat (length lut), c, i) /\
    ((i = (-1)%Z /\ c = B /\ forall q, In q lut -> nltb (d q) B = false) \/
     (exists k, i = Z.of_nat k /\ (k < length lut)%nat /\ c = d (nth k lut p) /\ not_nan c /\ nltb c B = true /\ (forall q, In q lut -> nltb (d q) c = false) /\
        forall m, (m < k)%nat -> not_nan (d (nth m lut p)) -> nltb c (d (nth m lut p)) = true))).
  { destruct G as (c & i & -> & [(-> & _ & H)|(k & -> & L & -> & H)]); [left; split; [reflexivity | exact H] | right; exists k; split; [reflexivity|]; tauto]. }
  induction lut as [|q lut IH] using rev_ind; [exists B, (-1)%Z; split; [reflexivity|]; left; split; [reflexivity|]; split; [reflexivity | intros ? []]|].
  destruct IH as (c & i & E & IH). rewrite fold_left_app. rewrite E. cbn [fold_left closestStep]. fold (d q). rewrite app_length. cbn [length].
  assert (Nc : not_nan c) by (destruct IH as [(_ & -> & _)|(k & _ & _ & _ & H & _)]; assumption).
  replace (Z.of_nat (length lut) + 1)%Z with (Z.of_nat (length lut + 1)) by lia.
  assert (NT : forall k, (k < length lut)%nat -> nth k (lut ++ [q]) p = nth k lut p) by (intros; now apply app_nth1).
  destruct (nltb (d q) c) eqn:L.
  - destruct (ltb_nums _ _ L) as [Nq _]. exists (d q), (Z.of_nat (length lut)). split; [reflexivity|]. right. exists (length lut).
    split; [reflexivity|]. split; [lia|]. split; [now rewrite nth_middle|]. split; [exact Nq|].
    assert (TR : forall x, not_nan x -> nltb x c = false -> nltb (d q) x = true).
    { intros x Nx Hx. apply lt_pl; auto. apply lt_pl in L; auto. assert (~ place x < place c) by (rewrite <- lt_pl by auto; congruence). lra. }
    assert (HA : forall x, In x lut -> nltb (d x) c = false) by (destruct IH as [(_ & -> & H)|(k & _ & _ & _ & _ & _ & H & _)]; exact H).
    split.
    + destruct IH as [(_ & -> & _)|(k & _ & _ & _ & _ & H & _)]; [exact L|]. apply lt_pl; auto. apply lt_pl in L; auto. apply lt_pl in H; auto. lra.
    + split.
      * intros x Hx. apply in_app_or in Hx as [Hx|[<-|[]]].
        -- destruct (nltb (d x) (d q)) eqn:K; [|reflexivity]. destruct (ltb_nums _ _ K) as [Nx _]. specialize (TR (d x) Nx (HA x Hx)). apply lt_pl in K, TR; auto. lra.
        -- destruct (nltb (d q) (d q)) eqn:K; [|reflexivity]. apply lt_pl in K; auto. lra.
      * intros m Lm Nm. rewrite NT in * by exact Lm. apply TR; [exact Nm|]. apply HA, nth_In, Lm.
  - exists c, i. split; [reflexivity|]. destruct IH as [(-> & -> & H)|(k & -> & Lk & -> & _ & HB & H & K)].
    + left. split; [reflexivity|]. split; [reflexivity|]. intros x Hx. apply in_app_or in Hx as [Hx|[<-|[]]]; auto.
    + right. exists k. rewrite NT by exact Lk. split; [reflexivity|]. split; [lia|]. split; [reflexivity|]. split; [exact Nc|]. split; [exact HB|]. split.
      * intros x Hx. apply in_app_or in Hx as [Hx|[<-|[]]]; auto.
      * intros m Lm Nm. rewrite NT in * by lia. apply K; auto.
Qed.
