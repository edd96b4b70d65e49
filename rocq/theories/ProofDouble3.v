(** Intersection by bisection in binary64: when it ends. *)
From Coq Require Import List ZArith Bool Reals Lra Lia Psatz.
From Flocq Require Import Core BinarySingleNaN Relative Plus_error.
From Verif Require Import Py Inst InstFloat SpecGeom SpecFit SpecBezier SpecDouble MTransform MBounds MBezUtil MBezier MContour
  ProofBezier ProofBezier2 ProofInter ProofDouble ProofDouble2.
Import ListNotations.
Local Open Scope R_scope.
#[local] Existing Instance InstFloat.prec_gt_0.
#[local] Existing Instance InstFloat.prec_lt_emax.

(** ** Comparisons *)
Lemma ltb_val (x y : b64) : fin x -> fin y -> nltb x y = true <-> val x < val y.
Proof. intros Fx Fy. rewrite <- !fin_place by auto. apply ltb_place; now apply fin_not_nan. Qed.
Lemma leb_val (x y : b64) : fin x -> fin y -> nleb x y = true <-> val x <= val y.
Proof. intros Fx Fy. rewrite <- !fin_place by auto. apply leb_place; now apply fin_not_nan. Qed.
Lemma ltb_val_false (x y : b64) : fin x -> fin y -> nltb x y = false <-> val y <= val x.
Proof.
  intros Fx Fy. pose proof (ltb_val x y Fx Fy) as L. destruct (nltb x y).
  - split; [discriminate|]. intros. assert (val x < val y) by (now apply L). lra.
  - split; auto. intros _. destruct (Rlt_le_dec (val x) (val y)); auto. assert (false = true) by (now apply L). discriminate.
Qed.
Lemma unit_fin (t : b64) : nleb (bofZ 0) t = true -> nleb t (bofZ 1) = true -> fin t /\ 0 <= val t <= 1.
Proof.
  destruct (val_int 0) as [F0 V0]; [lia|]. destruct (val_int 1) as [F1 V1]; [lia|].
  intros A B. assert (F : fin t).
  { destruct t as [s|[]| |s m e H]; try reflexivity; [vm_compute in A | vm_compute in B | vm_compute in A]; discriminate. }
  split; [exact F|]. apply leb_val in A; auto. apply leb_val in B; auto. lra.
Qed.
Lemma pmin_val (x y : b64) : fin x -> fin y -> fin (pmin x y) /\ val (pmin x y) = Rmin (val x) (val y).
Proof.
  intros Fx Fy. unfold pmin. destruct (nltb y x) eqn:E; [apply ltb_val in E | apply ltb_val_false in E]; auto; (split; [auto|]);
    unfold Rmin; destruct (Rle_dec _ _); lra.
Qed.
Lemma pmax_val (x y : b64) : fin x -> fin y -> fin (pmax x y) /\ val (pmax x y) = Rmax (val x) (val y).
Proof.
  intros Fx Fy. unfold pmax. destruct (nltb x y) eqn:E; [apply ltb_val in E | apply ltb_val_false in E]; auto; (split; [auto|]);
    unfold Rmax; destruct (Rle_dec _ _); lra.
Qed.

(** ** The midpoint of two doubles lies between them *)
Lemma fl_0 : fl 0 = 0.
Proof. unfold fl. apply round_0. apply valid_rnd_round_mode. Qed.
Lemma fl_opp x : fl (- x) = - fl x.
Proof. unfold fl. cbn [round_mode]. apply round_NE_opp. Qed.
Lemma val_format (x : b64) : generic_format radix2 (FLT_exp (SpecFloat.emin prec emax) prec) (val x).
Proof. exact (generic_format_B2R prec emax x). Qed.
Lemma fl_format x : generic_format radix2 (FLT_exp (SpecFloat.emin prec emax) prec) x -> fl x = x.
Proof. intros G. apply round_generic; [apply valid_rnd_round_mode | exact G]. Qed.
Lemma half_gap (x : R) (a b : b64) : x = val b - val a -> 0 <= x -> 0 <= fl (/ 2 * fl x) <= x.
Proof.
  intros E P. pose proof ulp1_pos as Pu. pose proof tiny_pos as Pt. pose proof ulp1_small as Su.
  assert (N0 : 0 <= fl x) by (rewrite <- fl_0; apply fl_mono; exact P).
  split; [rewrite <- fl_0; apply fl_mono; lra|].
  destruct (Rle_lt_dec x (bpow radix2 (prec + SpecFloat.emin prec emax))) as [S|S].
  - assert (G : fl x = x).
    { apply fl_format. rewrite E. unfold Rminus. apply FLT_format_plus_small; [reflexivity | apply val_format | apply generic_format_opp, val_format|].
      unfold Rminus in E. rewrite <- E. now rewrite Rabs_pos_eq by exact P. }
    rewrite G. apply Rle_trans with (fl x); [apply fl_mono; lra | lra].
  - assert (T : 1000 * tiny <= x).
    { apply Rlt_le. eapply Rle_lt_trans; [|exact S]. rewrite tiny_bpow.
      change (prec + SpecFloat.emin prec emax)%Z with (-1075 + 54)%Z. rewrite bpow_plus, Rmult_comm.
      apply Rmult_le_compat_l; [apply bpow_ge_0|]. change (bpow radix2 54) with (IZR (2 ^ 54)). apply IZR_le. lia. }
    pose proof (fl_err x) as E1. rewrite (Rabs_pos_eq x P) in E1. apply Rabs_le_inv in E1.
    pose proof (fl_err (/ 2 * fl x)) as E2. rewrite (Rabs_pos_eq (/ 2 * fl x)) in E2 by lra. apply Rabs_le_inv in E2.
    assert (ulp1 * x <= / 1000000 * x) by (apply Rmult_le_compat_r; lra).
    assert (ulp1 * (/ 2 * fl x) <= / 1000000 * (/ 2 * fl x)) by (apply Rmult_le_compat_r; lra). lra.
Qed.
Definition between (lo hi x : R) : Prop := lo <= x <= hi \/ hi <= x <= lo.
Lemma mid_step (t a b : b64) (M : R) : fin t -> val t = / 2 -> fin a -> fin b -> Rabs (val a) <= M -> Rabs (val b) <= M -> 16 * M <= ProofDouble.top ->
  let x := nadd a (nmul t (nsub b a)) in
  fin x /\ between (val a) (val b) (val x) /\ Rabs (val x - (val a + val b) / 2) <= 6 * ulp1 * M + 4 * tiny.
Proof.
  intros Ft Vt Fa Fb Ma Mb MT x. pose proof ulp1_pos as Pu. pose proof tiny_pos as Pt. pose proof ulp1_small as Su. pose proof top_big as Tb.
  pose proof tiny_small as St. pose proof (Rabs_pos (val a)) as M0.
  apply Rabs_le_inv in Ma as Ia. apply Rabs_le_inv in Mb as Ib.
  assert (T : 0 <= val t <= 1) by lra.
  destruct (lerp_near t Ft T M a b (val a) (val b) 0 Fa Fb Ma Mb) as [Fx Ex].
  1, 2: rewrite Rminus_eq_0, Rabs_R0; lra. { lra. }
  fold x in Fx, Ex. split; [exact Fx|]. split.
  2: { rewrite Vt in Ex. replace ((val a + val b) / 2) with (val a + / 2 * (val b - val a)) by field. rewrite !Rplus_0_r, Rplus_0_l in Ex. exact Ex. }
  assert (Bd : forall z, Rabs z <= 2 * M -> Rabs (fl z) <= 3 * M + tiny /\ Rabs (fl z) < ProofDouble.top).
  { intros z Hz. pose proof (fl_err z) as E. pose proof (Rabs_triang (fl z - z) z) as K. replace (fl z - z + z) with (fl z) in K by ring.
    assert (ulp1 * Rabs z <= / 1000000 * Rabs z) by (apply Rmult_le_compat_r; [apply Rabs_pos | lra]). lra. }
  destruct (Bd (val b - val a)) as [D1 D2]; [apply Rabs_le; lra|].
  destruct (minus_fl b a Fb Fa D2) as [Fd Vd].
  assert (W : 0 <= fl (/ 2 * fl (val b - val a)) <= val b - val a \/ val b - val a <= fl (/ 2 * fl (val b - val a)) <= 0).
  { destruct (Rle_lt_dec 0 (val b - val a)) as [P|P].
    - left. apply (half_gap _ a b); auto.
    - right. destruct (half_gap (- (val b - val a)) b a) as [A B]; [ring | lra|].
      rewrite fl_opp in A, B. rewrite Ropp_mult_distr_r_reverse, fl_opp in A, B. lra. }
  assert (Aw : Rabs (fl (/ 2 * fl (val b - val a))) <= 2 * M) by (apply Rabs_le; lra).
  destruct (mult_fl t (nsub b a) Ft Fd) as [Fm Vm]; [rewrite Vd, Vt; lra|]. rewrite Vd, Vt in Vm.
  destruct (plus_fl a (nmul t (nsub b a)) Fa Fm) as [_ Vx].
  { apply Bd. rewrite Vm. apply Rabs_le. lra. }
  fold x in Vx. rewrite Vx, Vm. unfold between.
  destruct W as [W|W]; [left | right]; split.
  - apply Rle_trans with (fl (val a)); [rewrite fl_val; lra | apply fl_mono; lra].
  - apply Rle_trans with (fl (val b)); [apply fl_mono; lra | rewrite fl_val; lra].
  - apply Rle_trans with (fl (val b)); [rewrite fl_val; lra | apply fl_mono; lra].
  - apply Rle_trans with (fl (val a)); [apply fl_mono; lra | rewrite fl_val; lra].
Qed.
Lemma between_abs a b x M : between a b x -> Rabs a <= M -> Rabs b <= M -> Rabs x <= M.
Proof. intros [B|B] A C; apply Rabs_le_inv in A, C; apply Rabs_le; lra. Qed.

Section Boxes.
  Context {TO : TrigOps b64}.

  (** ** The box of a curve *)
  Definition evalErr (M : R) : R := 10 * ulp1 * M + 32 * tiny.
  (** Control points in the given ranges. *)
  Definition inside (xlo xhi ylo yhi : R) (b : bezier b64) : Prop :=
    forall p, In p (cps b) -> xlo <= val (fst p) <= xhi /\ ylo <= val (snd p) <= yhi.
  Definition flo (d : nat) (x y : R) : R := if Nat.eqb d 0 then x else y.
  Lemma get_inside (b : bezier b64) M xlo xhi ylo yhi t : (1 <= order b <= 3)%nat -> Forall (sized M) (cps b) -> M <= 32768 ->
    inside xlo xhi ylo yhi b -> fin t -> 0 <= val t <= 1 ->
    exists p, get b t = Ok p /\ fin (fst p) /\ fin (snd p) /\ xlo - evalErr M <= val (fst p) <= xhi + evalErr M /\ ylo - evalErr M <= val (snd p) <= yhi + evalErr M.
  Proof.
    intros O A L I Ft T. destruct (get_accuracy b t M O A) as (p & E & F1 & F2 & E1 & E2); auto.
    { apply (Rle_trans _ (2 ^ 15)); [lra | apply Rle_pow; [lra | lia]]. }
    exists p. split; [exact E|]. split; [exact F1|]. split; [exact F2|].
    destruct (curve_in_box (map vpt (cps b)) (val t) xlo xhi ylo yhi) as [X Y]; auto.
    - unfold order in O. destruct (cps b); [simpl in O; lia | discriminate].
    - intros q Hq. apply in_map_iff in Hq. destruct Hq as (p' & <- & Hp). unfold vpt; cbn [fst snd]. auto.
    - fold (evalErr M) in E1, E2. apply Rabs_le_inv in E1, E2. lra.
  Qed.
  Lemma inUnit_In (l : list (option b64)) t : In t (inUnit l) -> fin t /\ 0 <= val t <= 1.
  Proof.
    unfold inUnit. intros H. apply in_flat_map in H. destruct H as ([s|] & _ & H); [|destruct H].
    destruct (nleb (nofZ 0) s && nleb s (nofZ 1))%bool eqn:E; [|destruct H]. destruct H as [<-|[]].
    apply andb_true_iff in E. now apply unit_fin.
  Qed.
  Lemma addEnds_In (l : list b64) t : In t (addEnds l) -> In t l \/ t = bofZ 0 \/ t = bofZ 1.
  Proof.
    unfold addEnds. intros H.
    assert (K : In t (if nmem (nofZ 0) l then l else nofZ 0 :: l) \/ t = bofZ 1).
    { destruct (nmem (nofZ 1) _) in H; auto. apply in_app_iff in H. destruct H as [H|[H|[]]]; auto. }
    destruct K as [K|K]; auto. destruct (nmem (nofZ 0) l) in K; auto. destruct K as [K|K]; auto.
  Qed.
  Lemma addEnds_cons (l : list b64) : exists t r, addEnds l = t :: r.
  Proof.
    unfold addEnds. destruct (nmem (nofZ 0) l) eqn:E.
    - destruct l as [|t r]; [discriminate|]. destruct (nmem (nofZ 1) (t :: r)); cbn [app]; eauto.
    - destruct (nmem (nofZ 1) _); cbn [app]; eauto.
  Qed.
  Definition good (lo hi : R) (x : b64) : Prop := fin x /\ lo <= val x <= hi.
  Lemma getminmax_in (b : bezier b64) d lo hi l : lo <= hi -> -1000000 <= lo -> hi <= 1000000 ->
    (forall t, fin t -> 0 <= val t <= 1 -> exists p, get b t = Ok p /\ good lo hi (coord d p)) ->
    (forall t, In t l -> fin t /\ 0 <= val t <= 1) ->
    exists mn mx, getminmax b d l = Ok (mn, mx) /\ good lo hi mn /\ good lo hi mx.
  Proof.
    intros LH L1 L2 G U.
    assert (U' : forall t, In t (addEnds l) -> fin t /\ 0 <= val t <= 1).
    { intros t Ht. apply addEnds_In in Ht. destruct Ht as [Ht|[->| ->]]; auto.
      - destruct (val_int 0) as [F V]; [lia|]. split; [exact F | rewrite V; lra].
      - destruct (val_int 1) as [F V]; [lia|]. split; [exact F | rewrite V; lra]. }
    unfold getminmax. destruct (addEnds_cons l) as (t0 & r & E). rewrite E in U' |- *. clear E.
    destruct (U' t0 (or_introl eq_refl)) as [F0 T0]. destruct (G t0 F0 T0) as (p0 & E0 & Gf & Gr).
    cbn [foldM]. rewrite E0. cbn [bind fst snd].
    destruct (val_int 9007199254740991) as [Fa Va]; [lia|]. destruct (val_int (-9007199254740991)) as [Fb Vb]; [lia|].
    assert (A : nltb (coord d p0) maxSafe = true) by (apply ltb_val; auto; change (val maxSafe) with (val (bofZ 9007199254740991)); lra).
    assert (B : nltb minSafe (coord d p0) = true) by (apply ltb_val; auto; change (val minSafe) with (val (bofZ (-9007199254740991))); lra).
    rewrite A, B.
    assert (K : forall l mn mx, (forall t, In t l -> fin t /\ 0 <= val t <= 1) -> good lo hi mn -> good lo hi mx ->
      exists mn' mx', foldM (fun (mm : b64 * b64) t => let* c := get b t in
        let mn := if nltb (coord d c) (fst mm) then coord d c else fst mm in
        let mx := if nltb (snd mm) (coord d c) then coord d c else snd mm in Ok (mn, mx)) l (mn, mx) = Ok (mn', mx') /\ good lo hi mn' /\ good lo hi mx').
    { clear - G. induction l as [|t l IH]; intros mn mx U Gn Gx; [exists mn, mx; split; [reflexivity | auto]|].
      destruct (U t (or_introl eq_refl)) as [F T]. destruct (G t F T) as (p & E & Gp). cbn [foldM]. rewrite E. cbn [bind fst snd].
      apply IH; [intros; apply U; now right | destruct (nltb _ _); auto | destruct (nltb _ _); auto]. }
    apply K; [intros; apply U'; now right | split; auto | split; auto].
  Qed.
  Lemma box_in (b : bezier b64) M xlo xhi ylo yhi : (length (cps b) = 3 \/ length (cps b) = 4)%nat -> Forall (sized M) (cps b) -> M <= 32768 ->
    inside xlo xhi ylo yhi b -> - M <= xlo -> xhi <= M -> - M <= ylo -> yhi <= M ->
    exists r, boundsRectangle b = Ok r /\
      good (xlo - evalErr M) (xhi + evalErr M) (left r) /\ good (xlo - evalErr M) (xhi + evalErr M) (right r) /\
      good (ylo - evalErr M) (yhi + evalErr M) (MBounds.top r) /\ good (ylo - evalErr M) (yhi + evalErr M) (bottom r).
  Proof.
    intros L A LM I X1 X2 Y1 Y2. pose proof ulp1_pos as Pu. pose proof tiny_pos as Pt. pose proof ulp1_small as Su. pose proof tiny_small as St.
    assert (O : (1 <= order b <= 3)%nat) by (unfold order; lia).
    assert (In0 : exists p, In p (cps b)) by (destruct (cps b) as [|p ?]; [simpl in L; lia | exists p; now left]).
    destruct In0 as (p0 & Hp0). destruct (I p0 Hp0) as [Ix Iy].
    assert (M0 : 0 <= M) by lra.
    assert (EM : 0 <= evalErr M <= 1).
    { unfold evalErr. assert (0 <= ulp1 * M) by (apply Rmult_le_pos; lra). assert (ulp1 * M <= / 1000000 * 32768) by (apply Rmult_le_compat; lra). lra. }
    assert (Ex : forall d, exists l, extremaDim b d = Ok l /\ forall t, In t l -> fin t /\ 0 <= val t <= 1).
    { intros d. unfold extremaDim. unfold order. destruct b as [p u v]; cbn [cps] in *. unfold dcPoints; cbn [cps].
      destruct L as [L|L]; rewrite L; cbn [dcPointsFrom Nat.eqb Nat.sub idx nth_error bind];
        (eexists; split; [reflexivity|]); intros t; apply inUnit_In. }
    destruct (Ex 0%nat) as (l0 & El0 & U0). destruct (Ex 1%nat) as (l1 & El1 & U1).
    destruct (getminmax_in b 0 (xlo - evalErr M) (xhi + evalErr M) l0) as (x0 & x1 & Eg0 & Gx0 & Gx1); auto; try lra.
    { intros t Ft T. destruct (get_inside b M xlo xhi ylo yhi t O A LM I Ft T) as (p & E & F1 & F2 & B1 & B2).
      exists p. split; [exact E|]. split; [exact F1 | exact B1]. }
    destruct (getminmax_in b 1 (ylo - evalErr M) (yhi + evalErr M) l1) as (y0 & y1 & Eg1 & Gy0 & Gy1); auto; try lra.
    { intros t Ft T. destruct (get_inside b M xlo xhi ylo yhi t O A LM I Ft T) as (p & E & F1 & F2 & B1 & B2).
      exists p. split; [exact E|]. split; [exact F2 | exact B2]. }
    eexists. split.
    { unfold boundsRectangle, bbox, extrema. rewrite El0, El1. cbn [bind ex0 ex1]. rewrite Eg0, Eg1. cbn [bind]. reflexivity. }
    unfold BoundsRectangle. cbn [fold_left addPoint left right MBounds.top bottom emptyRect].
    destruct (val_int 32768) as [Fa Va]; [lia|]. destruct (val_int (-32768)) as [Fb Vb]; [lia|].
    change (nofZ 32768) with (bofZ 32768). change (nofZ (-32768)) with (bofZ (-32768)).
    destruct Gx0 as [Fx0 Bx0], Gx1 as [Fx1 Bx1], Gy0 as [Fy0 By0], Gy1 as [Fy1 By1].
    assert (MN : forall s x y lo hi, fin s -> fin x -> fin y -> lo <= val x <= hi -> lo <= val y <= hi -> lo <= val s -> good lo hi (pmin (pmin s x) y)).
    { intros s x y lo hi Fs Fx Fy Bx By Bs. destruct (pmin_val s x Fs Fx) as [F1 V1]. destruct (pmin_val _ y F1 Fy) as [F2 V2].
      split; [exact F2|]. rewrite V2, V1. unfold Rmin. repeat destruct (Rle_dec _ _); lra. }
    assert (MX : forall s x y lo hi, fin s -> fin x -> fin y -> lo <= val x <= hi -> lo <= val y <= hi -> val s <= hi -> good lo hi (pmax (pmax s x) y)).
    { intros s x y lo hi Fs Fx Fy Bx By Bs. destruct (pmax_val s x Fs Fx) as [F1 V1]. destruct (pmax_val _ y F1 Fy) as [F2 V2].
      split; [exact F2|]. rewrite V2, V1. unfold Rmax. repeat destruct (Rle_dec _ _); lra. }
    split; [apply MN; auto; lra|]. split; [apply MX; auto; lra|]. split; [apply MX; auto; lra | apply MN; auto; lra].
  Qed.

  (** ** Halving halves the steps of the control polygon, up to rounding *)
  Fixpoint stepsLe (D : R) (l : list (point b64)) : Prop :=
    match l with
    | a :: ((b :: _) as r) => Rabs (val (fst b) - val (fst a)) <= D /\ Rabs (val (snd b) - val (snd a)) <= D /\ stepsLe D r
    | _ => True
    end.
  Definition flat (M D : R) (b : bezier b64) : Prop :=
    (length (cps b) = 3 \/ length (cps b) = 4)%nat /\ Forall (sized M) (cps b) /\ stepsLe D (cps b).
  Definition midErr (M : R) : R := 6 * ulp1 * M + 4 * tiny.
  Definition isMid (M : R) (a b x : point b64) : Prop := sized M x /\
    Rabs (val (fst x) - (val (fst a) + val (fst b)) / 2) <= midErr M /\ Rabs (val (snd x) - (val (snd a) + val (snd b)) / 2) <= midErr M.
  Lemma lerp_mid t M a b : fin t -> val t = / 2 -> 16 * M <= ProofDouble.top -> sized M a -> sized M b -> isMid M a b (lerp t a b).
  Proof.
    intros Ft Vt MT (F1 & F2 & A1 & A2) (G1 & G2 & B1 & B2). destruct a as [ax ay], b as [bx by']. cbn [fst snd] in *. unfold lerp.
    destruct (mid_step t ax bx M Ft Vt F1 G1 A1 B1 MT) as (X & XB & XE). destruct (mid_step t ay by' M Ft Vt F2 G2 A2 B2 MT) as (Y & YB & YE).
    split; [|split; [exact XE | exact YE]]. split; [exact X|]. split; [exact Y|]. split; eapply between_abs; eauto.
  Qed.
  Lemma gap3 D e p0 p1 p2 q1 q2 s : Rabs (p1 - p0) <= D -> Rabs (p2 - p1) <= D ->
    Rabs (q1 - (p0 + p1) / 2) <= e -> Rabs (q2 - (p1 + p2) / 2) <= e -> Rabs (s - (q1 + q2) / 2) <= e ->
    let B := D / 2 + 3 * e in Rabs (q1 - p0) <= B /\ Rabs (s - q1) <= B /\ Rabs (q2 - s) <= B /\ Rabs (p2 - q2) <= B.
  Proof. intros H1 H2 H3 H4 H5. cbv zeta. apply Rabs_le_inv in H1, H2, H3, H4, H5. repeat split; apply Rabs_le; lra. Qed.
  Lemma gap4 D e p0 p1 p2 p3 q1 q2 q3 r1 r2 s : Rabs (p1 - p0) <= D -> Rabs (p2 - p1) <= D -> Rabs (p3 - p2) <= D ->
    Rabs (q1 - (p0 + p1) / 2) <= e -> Rabs (q2 - (p1 + p2) / 2) <= e -> Rabs (q3 - (p2 + p3) / 2) <= e ->
    Rabs (r1 - (q1 + q2) / 2) <= e -> Rabs (r2 - (q2 + q3) / 2) <= e -> Rabs (s - (r1 + r2) / 2) <= e ->
    let B := D / 2 + 3 * e in (Rabs (q1 - p0) <= B /\ Rabs (r1 - q1) <= B /\ Rabs (s - r1) <= B) /\
      Rabs (r2 - s) <= B /\ Rabs (q3 - r2) <= B /\ Rabs (p3 - q3) <= B.
  Proof. intros H1 H2 H3 H4 H5 H6 H7 H8 H9. cbv zeta. apply Rabs_le_inv in H1, H2, H3, H4, H5, H6, H7, H8, H9. repeat split; apply Rabs_le; lra. Qed.
  Lemma split_flat (b : bezier b64) t M D : flat M D b -> fin t -> val t = / 2 -> 16 * M <= ProofDouble.top ->
    exists l r h, split1 b t = Ok (l, r, h) /\ flat M (D / 2 + 3 * midErr M) l /\ flat M (D / 2 + 3 * midErr M) r.
  Proof.
    intros (L & A & St) Ft Vt MT. destruct (split_okF b t L) as (l & r & E). exists l, r, (hull b t). split; [exact E|].
    destruct (split_picks b t l r _ E L) as [_ P]. specialize (P (bofZ 0, bofZ 0)). cbv zeta in P. destruct P as [Pl Pr].
    unfold flat. rewrite Pl, Pr. clear Pl Pr E. unfold order. destruct b as [p u v]; cbn [cps] in *.
    assert (Md : forall a b, sized M a -> sized M b -> isMid M a b (lerp t a b)) by (intros; apply lerp_mid; auto).
    destruct p as [|p0 [|p1 [|p2 [|p3 [|p4 p]]]]]; try (simpl in L; lia); cbn [length Nat.sub Nat.eqb];
      unfold hull; cbn [cps length hullLoop Nat.ltb Nat.leb dcLevel app nth].
    - inversion A as [|? ? S0 A1]. inversion A1 as [|? ? S1 A2]. inversion A2 as [|? ? S2 _]. subst.
      cbn [stepsLe] in St. destruct St as (D1 & D1' & D2 & D2' & _).
      destruct (Md p0 p1 S0 S1) as (Sq1 & Q1 & Q1'). set (q1 := lerp t p0 p1) in *.
      destruct (Md p1 p2 S1 S2) as (Sq2 & Q2 & Q2'). set (q2 := lerp t p1 p2) in *.
      destruct (Md q1 q2 Sq1 Sq2) as (Ss & Q & Q'). set (s := lerp t q1 q2) in *.
      destruct (gap3 D _ _ _ _ _ _ _ D1 D2 Q1 Q2 Q) as (X1 & X2 & X3 & X4). destruct (gap3 D _ _ _ _ _ _ _ D1' D2' Q1' Q2' Q') as (Y1 & Y2 & Y3 & Y4).
      cbn [stepsLe]. split; (split; [now left|]); (split; [auto|]); auto 8.
    - inversion A as [|? ? S0 A1]. inversion A1 as [|? ? S1 A2]. inversion A2 as [|? ? S2 A3]. inversion A3 as [|? ? S3 _]. subst.
      cbn [stepsLe] in St. destruct St as (D1 & D1' & D2 & D2' & D3 & D3' & _).
      destruct (Md p0 p1 S0 S1) as (Sq1 & Q1 & Q1'). set (q1 := lerp t p0 p1) in *.
      destruct (Md p1 p2 S1 S2) as (Sq2 & Q2 & Q2'). set (q2 := lerp t p1 p2) in *.
      destruct (Md p2 p3 S2 S3) as (Sq3 & Q3 & Q3'). set (q3 := lerp t p2 p3) in *.
      destruct (Md q1 q2 Sq1 Sq2) as (Sr1 & R1 & R1'). set (r1 := lerp t q1 q2) in *.
      destruct (Md q2 q3 Sq2 Sq3) as (Sr2 & R2 & R2'). set (r2 := lerp t q2 q3) in *.
      destruct (Md r1 r2 Sr1 Sr2) as (Ss & Q & Q'). set (s := lerp t r1 r2) in *.
      destruct (gap4 D _ _ _ _ _ _ _ _ _ _ _ D1 D2 D3 Q1 Q2 Q3 R1 R2 Q) as ((X1 & X2 & X3) & X4 & X5 & X6).
      destruct (gap4 D _ _ _ _ _ _ _ _ _ _ _ D1' D2' D3' Q1' Q2' Q3' R1' R2' Q') as ((Y1 & Y2 & Y3) & Y4 & Y5 & Y6).
      cbn [stepsLe]. split; (split; [now right|]); (split; [auto 8|]); auto 12.
  Qed.

  (** ** Small steps, small box *)
  Lemma steps_inside M D b : flat M D b -> 0 <= D -> exists xlo xhi ylo yhi, inside xlo xhi ylo yhi b /\ - M <= xlo /\ xhi <= M /\ - M <= ylo /\ yhi <= M /\
    xhi - xlo <= 3 * D /\ yhi - ylo <= 3 * D.
  Proof.
    intros (L & A & St) D0.
    assert (K : forall (f : point b64 -> R), (forall p, In p (cps b) -> - M <= f p <= M) ->
      (forall p q, In p (cps b) -> In q (cps b) -> f p - f q <= 3 * D) -> exists lo hi, (forall p, In p (cps b) -> lo <= f p <= hi) /\ - M <= lo /\ hi <= M /\ hi - lo <= 3 * D).
    { intros f Bf Df.
      assert (Ex : forall (l : list (point b64)), l <> [] -> exists p q, In p l /\ In q l /\ forall x, In x l -> f p <= f x <= f q).
      { induction l as [|x l IH]; [congruence|]. intros _. destruct l as [|y l].
        - exists x, x. split; [now left|]. split; [now left|]. intros z [<-|[]]. lra.
        - destruct IH as (p & q & Hp & Hq & H); [discriminate|].
          exists (if Rle_dec (f x) (f p) then x else p), (if Rle_dec (f q) (f x) then x else q).
          split; [destruct (Rle_dec _ _); [now left | now right]|]. split; [destruct (Rle_dec _ _); [now left | now right]|].
          pose proof (H p Hp). intros z [<-|Hz]; [destruct (Rle_dec _ _), (Rle_dec _ _); lra|]. specialize (H z Hz).
          destruct (Rle_dec _ _), (Rle_dec _ _); lra. }
      destruct (Ex (cps b)) as (p & q & Hp & Hq & H); [intros N; rewrite N in L; simpl in L; lia|].
      exists (f p), (f q). split; [exact H|]. destruct (Bf p Hp), (Bf q Hq). split; [lra|]. split; [lra|]. apply Df; auto. }
    assert (B : forall p, In p (cps b) -> sized M p) by (apply Forall_forall; exact A).
    destruct (K (fun p => val (fst p))) as (xlo & xhi & X & X1 & X2 & X3).
    { intros p Hp. destruct (B p Hp) as (_ & _ & H & _). now apply Rabs_le_inv. }
    { clear - St D0 L. destruct b as [p u v]; cbn [cps] in *. destruct p as [|p0 [|p1 [|p2 [|p3 [|p4 p]]]]]; try (simpl in L; lia); cbn [stepsLe] in St.
      - destruct St as (D1 & _ & D2 & _). apply Rabs_le_inv in D1, D2. intros p q [<-|[<-|[<-|[]]]] [<-|[<-|[<-|[]]]]; lra.
      - destruct St as (D1 & _ & D2 & _ & D3 & _). apply Rabs_le_inv in D1, D2, D3. intros p q [<-|[<-|[<-|[<-|[]]]]] [<-|[<-|[<-|[<-|[]]]]]; lra. }
    destruct (K (fun p => val (snd p))) as (ylo & yhi & Y & Y1 & Y2 & Y3).
    { intros p Hp. destruct (B p Hp) as (_ & _ & _ & H). now apply Rabs_le_inv. }
    { clear - St D0 L. destruct b as [p u v]; cbn [cps] in *. destruct p as [|p0 [|p1 [|p2 [|p3 [|p4 p]]]]]; try (simpl in L; lia); cbn [stepsLe] in St.
      - destruct St as (_ & D1 & _ & D2 & _). apply Rabs_le_inv in D1, D2. intros p q [<-|[<-|[<-|[]]]] [<-|[<-|[<-|[]]]]; lra.
      - destruct St as (_ & D1 & _ & D2 & _ & D3 & _). apply Rabs_le_inv in D1, D2, D3. intros p q [<-|[<-|[<-|[<-|[]]]]] [<-|[<-|[<-|[<-|[]]]]]; lra. }
    exists xlo, xhi, ylo, yhi. split; [intros p Hp; split; auto|]. auto 8.
  Qed.
  Lemma box_total M D b : flat M D b -> 0 <= D -> M <= 32768 -> exists r, boundsRectangle b = Ok r /\
    (forall thr, fin thr -> 6 * D + 4 * evalErr M + / 1000 * (6 * D + 4 * evalErr M) + 10 * tiny < val thr -> nltb (nadd (height r) (width r)) thr = true).
  Proof.
    intros F D0 LM. destruct (steps_inside M D b F D0) as (xlo & xhi & ylo & yhi & I & X1 & X2 & Y1 & Y2 & WX & WY). destruct F as (L & A & _).
    destruct (box_in b M xlo xhi ylo yhi L A LM I X1 X2 Y1 Y2) as (r & E & [Fl Bl] & [Fr Br] & [Ft Bt] & [Fb Bb]).
    exists r. split; [exact E|]. intros thr Fth H. pose proof ulp1_pos as Pu. pose proof tiny_pos as Pt. pose proof ulp1_small as Su. pose proof tiny_small as St.
    assert (M0 : 0 <= M).
    { destruct (cps b) as [|p ?]; [simpl in L; lia|]. inversion A as [|? ? (_ & _ & K & _)]. pose proof (Rabs_pos (val (fst p))). lra. }
    assert (EM : 0 <= evalErr M <= 1).
    { unfold evalErr. assert (0 <= ulp1 * M) by (apply Rmult_le_pos; lra). assert (ulp1 * M <= / 1000000 * 32768) by (apply Rmult_le_compat; lra). lra. }
    set (W := 3 * D + 2 * evalErr M) in *.
    assert (TB : 1000000 <= ProofDouble.top).
    { unfold ProofDouble.top. apply Rle_trans with (bpow radix2 20); [change (bpow radix2 20) with (IZR (2 ^ 20)); apply IZR_le; lia | apply bpow_le; unfold emax; lia]. }
    assert (Sb : forall x y : b64, fin x -> fin y -> Rabs (val x) <= 40000 -> Rabs (val y) <= 40000 -> val x - val y <= W -> 0 <= W ->
      fin (nsub x y) /\ val (nsub x y) <= W + / 1000000 * W + tiny /\ Rabs (val (nsub x y)) <= 100000).
    { intros x y Fx Fy Bx By Dw W0. pose proof (fl_err (val x - val y)) as Ef. apply Rabs_le_inv in Bx, By.
      assert (Q : Rabs (val x - val y) <= 80000) by (apply Rabs_le; lra).
      assert (ulp1 * Rabs (val x - val y) <= / 1000000 * Rabs (val x - val y)) by (apply Rmult_le_compat_r; [apply Rabs_pos | lra]).
      pose proof (Rabs_triang (fl (val x - val y) - (val x - val y)) (val x - val y)) as T.
      replace (fl (val x - val y) - (val x - val y) + (val x - val y)) with (fl (val x - val y)) in T by ring.
      destruct (minus_fl x y Fx Fy) as [F V]; [lra|]. split; [exact F|]. rewrite V. split; [|lra].
      assert (K : fl (val x - val y) <= fl W) by (apply fl_mono; exact Dw).
      pose proof (fl_err W) as EW. rewrite (Rabs_pos_eq W W0) in EW. apply Rabs_le_inv in EW.
      assert (ulp1 * W <= / 1000000 * W) by (apply Rmult_le_compat_r; lra). lra. }
    assert (W0 : 0 <= W) by (unfold W; lra).
    assert (GB : forall x : b64, - M - 1 <= val x <= M + 1 -> Rabs (val x) <= 40000) by (intros x Hx; apply Rabs_le; lra).
    destruct (Sb (MBounds.top r) (bottom r) Ft Fb) as (FH & VH & AH); [apply GB; lra | apply GB; lra | unfold W; lra | exact W0|].
    destruct (Sb (right r) (left r) Fr Fl) as (FW & VW & AW); [apply GB; lra | apply GB; lra | unfold W; lra | exact W0|].
    change (nsub (MBounds.top r) (bottom r)) with (height r) in *. change (nsub (right r) (left r)) with (width r) in *.
    pose proof (fl_err (val (height r) + val (width r))) as Ef. pose proof (Rabs_triang (val (height r)) (val (width r))) as T1.
    assert (ulp1 * Rabs (val (height r) + val (width r)) <= / 1000000 * Rabs (val (height r) + val (width r))) by (apply Rmult_le_compat_r; [apply Rabs_pos | lra]).
    pose proof (Rabs_triang (fl (val (height r) + val (width r)) - (val (height r) + val (width r))) (val (height r) + val (width r))) as T.
    replace (fl (val (height r) + val (width r)) - (val (height r) + val (width r)) + (val (height r) + val (width r))) with (fl (val (height r) + val (width r))) in T by ring.
    destruct (plus_fl (height r) (width r) FH FW) as [FS VS]; [lra|].
    apply ltb_val; auto. rewrite VS.
    set (V := 2 * (W + / 1000000 * W + tiny)). assert (K : fl (val (height r) + val (width r)) <= fl V) by (apply fl_mono; unfold V; lra).
    pose proof (fl_err V) as EV. rewrite (Rabs_pos_eq V) in EV by (unfold V; lra). apply Rabs_le_inv in EV.
    assert (ulp1 * V <= / 1000000 * V) by (apply Rmult_le_compat_r; unfold V; lra). unfold V, W in *. lra.
  Qed.

  (** ** Termination *)
  Lemma mapM_app_total {A B} (f : A -> res B) (l : list A) : (forall x, In x l -> exists c, f x = Ok c) -> exists l', mapM f l = Ok l'.
  Proof.
    induction l as [|x l IH]; intros H; simpl; eauto. destruct (H x (or_introl eq_refl)) as (c & ->). cbn [bind].
    destruct IH as (l' & ->); [intros; apply H; now right|]. cbn [bind]. eauto.
  Qed.
  Lemma overlapsF M D1 D2 a b : flat M D1 a -> flat M D2 b -> 0 <= D1 -> 0 <= D2 -> M <= 32768 -> exists c, overlaps a b = Ok c.
  Proof.
    intros Fa Fb P1 P2 LM. destruct (box_total M D1 a Fa P1 LM) as (ra & Ea & _). destruct (box_total M D2 b Fb P2 LM) as (rb & Eb & _).
    unfold overlaps. rewrite Ea, Eb. cbn [bind]. eauto.
  Qed.
  Theorem pair_terminatesF (thr : b64) (M : R) : fin thr -> M <= 32768 -> 1024 * ulp1 * M <= val thr -> / 2 ^ 1000 <= val thr ->
    forall k fuel D c1 c2, flat M D c1 -> flat M D c2 -> 0 <= D -> 0 <= M -> D <= 2 ^ k * (val thr / 12) + 6 * midErr M -> (k < fuel)%nat ->
    exists res, pairiteration fuel thr c1 c2 = Ok res.
  Proof.
    intros Fth LM T1 T2. pose proof ulp1_pos as Pu. pose proof tiny_pos as Pt. pose proof ulp1_small as Su. pose proof tiny_small as St.
    assert (TT : 1000000 * tiny <= val thr).
    { eapply Rle_trans; [|exact T2]. unfold tiny. replace 1075%nat with (1000 + 75)%nat by reflexivity. rewrite pow_add, Rinv_mult.
      rewrite <- (Rmult_1_r (/ 2 ^ 1000)) at 2. rewrite Rmult_comm, Rmult_assoc. apply Rmult_le_compat_l; [left; apply Rinv_0_lt_compat, pow_lt; lra|].
      assert (0 < / 2 ^ 75) by (apply Rinv_0_lt_compat, pow_lt; lra). apply Rmult_le_reg_l with (2 ^ 75); [apply pow_lt; lra|].
      rewrite <- Rmult_assoc, Rinv_r by (apply pow_nonzero; lra). rewrite Rmult_1_l, Rmult_1_r.
      apply Rle_trans with (2 ^ 20); [lra | apply Rle_pow; [lra | lia]]. }
    destruct half_val as [Fh Vh].
    induction k as [|k IH]; intros fuel D c1 c2 H1 H2 D0 M0 DB KF; (destruct fuel as [|f]; [lia|]); cbn [pairiteration];
      destruct (box_total M D c1 H1 D0 LM) as (r1 & E1 & S1); destruct (box_total M D c2 H2 D0 LM) as (r2 & E2 & S2); rewrite E1, E2; cbn [bind].
    - assert (UM : 0 <= ulp1 * M) by (apply Rmult_le_pos; lra).
      rewrite S1, S2; [cbn [andb]; eauto| auto | | auto |]; unfold midErr, evalErr in *; cbn [pow] in DB; lra.
    - destruct (_ && _)%bool; [eauto|].
      assert (MT : 16 * M <= ProofDouble.top).
      { apply top_2_1020. apply (Rle_trans _ (2 ^ 15)); [lra | apply Rle_pow; [lra | lia]]. }
      assert (ME : 0 <= midErr M) by (unfold midErr; assert (0 <= ulp1 * M) by (apply Rmult_le_pos; lra); lra).
      change (nlit 1 2) with (nquot (bofZ 1) (bofZ 2)).
      destruct (split_flat c1 _ M D H1 Fh Vh MT) as (l1 & q1 & h1 & -> & L1 & Q1). cbn [bind].
      destruct (split_flat c2 _ M D H2 Fh Vh MT) as (l2 & q2 & h2 & -> & L2 & Q2). cbn [bind].
      set (D' := D / 2 + 3 * midErr M) in *. assert (D'0 : 0 <= D') by (unfold D'; lra).
      destruct (filterM_total (fun pr : bezier b64 * bezier b64 => overlaps (fst pr) (snd pr)) [(l1, l2); (l1, q2); (q1, q2); (q1, l2)]) as (pairs & F).
      { intros pr Hp. destruct Hp as [<-|[<-|[<-|[<-|[]]]]]; cbn [fst snd]; eapply overlapsF; eauto. }
      rewrite F. cbn [bind]. destruct (Nat.eqb (length pairs) 0); [eauto|].
      destruct (mapM_app_total (fun pr : bezier b64 * bezier b64 => pairiteration f thr (fst pr) (snd pr)) pairs) as (rs & ->); [|cbn [bind]; eauto].
      intros pr Hp. apply (filterM_Ok _ _ _ F) in Hp. destruct Hp as [Hp _].
      assert (DB' : D' <= 2 ^ k * (val thr / 12) + 6 * midErr M) by (unfold D'; cbn [pow] in DB; lra).
      destruct Hp as [<-|[<-|[<-|[<-|[]]]]]; cbn [fst snd]; apply (IH f D'); auto; lia.
  Qed.
End Boxes.

Section Ends.
  Context {TO : TrigOps b64}.
  Lemma sized_flat M b : (length (cps b) = 3 \/ length (cps b) = 4)%nat -> Forall (sized M) (cps b) -> flat M (2 * M) b.
  Proof.
    intros L A. split; [exact L|]. split; [exact A|]. clear L. induction A as [|p l Hp A IH]; [exact I|]. destruct A as [|q l Hq A]; [exact I|].
    cbn [stepsLe] in *. destruct Hp as (_ & _ & X & Y), Hq as (_ & _ & X' & Y'). apply Rabs_le_inv in X, Y, X', Y'.
    split; [apply Rabs_le; lra|]. split; [apply Rabs_le; lra | exact IH].
  Qed.
  Lemma sized_pos M b : (length (cps b) = 3 \/ length (cps b) = 4)%nat -> Forall (sized M) (cps b) -> 0 <= M.
  Proof. intros L A. destruct (cps b) as [|p ?]; [simpl in L; lia|]. inversion A as [|? ? (_ & _ & K & _)]. pose proof (Rabs_pos (val (fst p))). lra. Qed.
  Theorem pair_endsF (thr : b64) (M : R) (c1 c2 : bezier b64) (k fuel : nat) :
    (length (cps c1) = 3 \/ length (cps c1) = 4)%nat -> (length (cps c2) = 3 \/ length (cps c2) = 4)%nat ->
    Forall (sized M) (cps c1) -> Forall (sized M) (cps c2) -> M <= 32768 ->
    fin thr -> M / 2 ^ 43 <= val thr -> / 2 ^ 1000 <= val thr -> 24 * M <= 2 ^ k * val thr -> (k < fuel)%nat ->
    exists res, pairiteration fuel thr c1 c2 = Ok res.
  Proof.
    intros L1 L2 A1 A2 LM Ft T1 T2 K F. pose proof (sized_pos M c1 L1 A1) as M0. pose proof ulp1_pos as Pu. pose proof tiny_pos as Pt.
    apply (pair_terminatesF thr M Ft LM) with (k := k) (D := 2 * M); auto.
    - eapply Rle_trans; [|exact T1]. unfold ulp1. replace 53%nat with (43 + 10)%nat by reflexivity. rewrite pow_add, Rinv_mult.
      apply Req_le. replace (2 ^ 10) with 1024 by ring. field.
    - apply sized_flat; auto.
    - apply sized_flat; auto.
    - lra.
    - unfold midErr. assert (0 <= ulp1 * M) by (apply Rmult_le_pos; lra). lra.
  Qed.
  Theorem curves_endF (thr : b64) (M : R) (c1 c2 : list (bezier b64)) (k fuel : nat) :
    Forall (fun c => (length (cps c) = 3 \/ length (cps c) = 4)%nat /\ Forall (sized M) (cps c)) c1 ->
    Forall (fun c => (length (cps c) = 3 \/ length (cps c) = 4)%nat /\ Forall (sized M) (cps c)) c2 -> M <= 32768 ->
    fin thr -> M / 2 ^ 43 <= val thr -> / 2 ^ 1000 <= val thr -> 24 * M <= 2 ^ k * val thr -> (k < fuel)%nat ->
    exists res, curveIntersects fuel thr c1 c2 = Ok res.
  Proof.
    intros A1 A2 LM Ft T1 T2 K F. rewrite Forall_forall in A1, A2. unfold curveIntersects.
    destruct (filterM_total (fun pr : bezier b64 * bezier b64 => overlaps (fst pr) (snd pr)) (list_prod c1 c2)) as (pairs & E).
    { intros [a b] Hp. apply in_prod_iff in Hp. destruct Hp as [Ha Hb]. destruct (A1 a Ha) as [La Sa], (A2 b Hb) as [Lb Sb]. cbn [fst snd].
      pose proof (sized_pos M a La Sa). apply (overlapsF M (2 * M) (2 * M)); try apply sized_flat; auto; lra. }
    rewrite E. cbn [bind].
    destruct (mapM_app_total (fun pr : bezier b64 * bezier b64 => pairiteration fuel thr (fst pr) (snd pr)) pairs) as (rs & ->); [|cbn [bind]; eauto].
    intros [a b] Hp. apply (filterM_Ok _ _ _ E) in Hp. destruct Hp as [Hp _]. apply in_prod_iff in Hp. destruct Hp as [Ha Hb].
    destruct (A1 a Ha) as [La Sa], (A2 b Hb) as [Lb Sb]. cbn [fst snd]. eapply pair_endsF; eauto.
  Qed.

  (** ** A threshold below the rounding level: the recursion reproduces its own curve *)
  Definition lowF : b64 := bofZ 16384.
  Definition highF : b64 := nadd (bofZ 16384) (nquot (bofZ 1) (bofZ (2 ^ 38))).
  Definition stuck (u v : b64) : bezier b64 := mkBez [(lowF, lowF); (lowF, lowF); (highF, highF)] u v.
  Definition spot (u v : b64) : bezier b64 := mkBez [(lowF, lowF); (lowF, lowF); (lowF, lowF)] u v.
  Lemma bsf (x y : b64) : B2SF x = B2SF y -> x = y.
  Proof. apply B2SF_inj. Qed.
  Lemma mid_low : lerp (nlit 1 2) (lowF, lowF) (lowF, lowF) = (lowF, lowF) /\ lerp (nlit 1 2) (lowF, lowF) (highF, highF) = (lowF, lowF).
  Proof. unfold lerp. split; apply f_equal2; apply bsf; vm_compute; reflexivity. Qed.
  Lemma split_stuck u v : exists x y x' y' h, split1 (stuck u v) (nlit 1 2) = Ok (spot x y, stuck x' y', h).
  Proof.
    destruct mid_low as [E1 E2]. destruct (split_okF (stuck u v) (nlit 1 2)) as (l & r & E); [now left|].
    destruct (split_picks _ _ _ _ _ E) as [_ P]; [now left|]. specialize (P (lowF, lowF)). cbv zeta in P. destruct P as [Pl Pr].
    destruct l as [l x y], r as [r x' y']. cbn [cps] in Pl, Pr. exists x, y, x', y', (hull (stuck u v) (nlit 1 2)). rewrite E.
    unfold order, stuck, hull in Pl, Pr. cbn [cps length Nat.sub Nat.eqb hullLoop Nat.ltb Nat.leb dcLevel app] in Pl, Pr.
    rewrite E1, E2, E1 in Pl, Pr. cbn [nth] in Pl, Pr. now rewrite Pl, Pr.
  Qed.
  Lemma split_spot u v : exists x y x' y' h, split1 (spot u v) (nlit 1 2) = Ok (spot x y, spot x' y', h).
  Proof.
    destruct mid_low as [E1 E2]. destruct (split_okF (spot u v) (nlit 1 2)) as (l & r & E); [now left|].
    destruct (split_picks _ _ _ _ _ E) as [_ P]; [now left|]. specialize (P (lowF, lowF)). cbv zeta in P. destruct P as [Pl Pr].
    destruct l as [l x y], r as [r x' y']. cbn [cps] in Pl, Pr. exists x, y, x', y', (hull (spot u v) (nlit 1 2)). rewrite E.
    unfold order, spot, hull in Pl, Pr. cbn [cps length Nat.sub Nat.eqb hullLoop Nat.ltb Nat.leb dcLevel app] in Pl, Pr.
    rewrite E1, E1 in Pl, Pr. cbn [nth] in Pl, Pr. now rewrite Pl, Pr.
  Qed.
  Definition sizeIs (b : bezier b64) (z : SpecFloat.spec_float) : Prop :=
    match boundsRectangle b with Ok r => B2SF (nadd (height r) (width r)) = z | Err _ => False end.
  Lemma stuck_size u v : sizeIs (stuck u v) (SpecFloat.S754_finite false 4503599627370496 (-89)).
  Proof. vm_compute. reflexivity. Qed.
  Lemma spot_size u v : sizeIs (spot u v) (SpecFloat.S754_zero false).
  Proof. vm_compute. reflexivity. Qed.
  Lemma over_all u v u' v' : overlaps (spot u v) (spot u' v') = Ok true /\ overlaps (spot u v) (stuck u' v') = Ok true /\
    overlaps (stuck u v) (spot u' v') = Ok true /\ overlaps (stuck u v) (stuck u' v') = Ok true.
  Proof. repeat split; vm_compute; reflexivity. Qed.
  Theorem stuck_forever (thr : b64) : fin thr -> val thr <= / 2 ^ 37 -> forall fuel u v u' v',
    pairiteration fuel thr (spot u v) (stuck u' v') = Err RecursionError /\ pairiteration fuel thr (stuck u v) (stuck u' v') = Err RecursionError.
  Proof.
    intros Ft T.
    assert (Sp : forall u v, exists r, boundsRectangle (spot u v) = Ok r).
    { intros u v. pose proof (spot_size u v) as K. unfold sizeIs in K. destruct (boundsRectangle (spot u v)); [eauto | destruct K]. }
    assert (Sk : forall u v, exists r, boundsRectangle (stuck u v) = Ok r /\ nltb (nadd (height r) (width r)) thr = false).
    { intros u v. pose proof (stuck_size u v) as K. unfold sizeIs in K. destruct (boundsRectangle (stuck u v)) as [r|]; [|destruct K].
      exists r. split; [reflexivity|]. set (x := nadd (height r) (width r)) in *.
      apply ltb_val_false; [|exact Ft|].
      - unfold fin. destruct x; try discriminate K; reflexivity.
      - unfold val at 2. rewrite <- SF2R_B2SF, K. cbn [SF2R cond_Zopp]. unfold F2R; cbn [Fnum Fexp].
        eapply Rle_trans; [exact T|]. apply Req_le. rewrite two_pow, <- bpow_opp. cbn [Z.of_nat Z.opp].
        change 4503599627370496%Z with (radix2 ^ 52)%Z. rewrite IZR_Zpower by lia. rewrite <- bpow_plus. reflexivity. }
    induction fuel as [|f IH]; intros u v u' v'; [split; reflexivity|].
    assert (Any : forall a b a' b', pairiteration f thr (spot a b) (spot a' b') = Err RecursionError \/ exists z, pairiteration f thr (spot a b) (spot a' b') = Ok z).
    { clear - Sp. induction f as [|f IH]; intros a b a' b'; [now left|]. cbn [pairiteration].
      destruct (Sp a b) as [r ->], (Sp a' b') as [r' ->]. cbn [bind]. destruct (_ && _)%bool; [right; eauto|].
      destruct (split_spot a b) as (x & y & x' & y' & h & ->). cbn [bind]. destruct (split_spot a' b') as (x2 & y2 & x2' & y2' & h2 & ->). cbn [bind].
      cbn [filterM fst snd]. repeat match goal with |- context [overlaps (spot ?a ?b) (spot ?c ?d)] => rewrite (proj1 (over_all a b c d)) end. cbn [bind length Nat.eqb mapM fst snd].
      repeat match goal with |- context [pairiteration f thr (spot ?a ?b) (spot ?c ?d)] => destruct (IH a b c d) as [-> | [? ->]]; cbn [bind]; [now left|] end.
      right; eauto. }
    split; cbn [pairiteration].
    - destruct (Sp u v) as [r ->], (Sk u' v') as (r' & -> & N). cbn [bind]. rewrite N, andb_false_r.
      destruct (split_spot u v) as (x & y & x' & y' & h & ->). cbn [bind]. destruct (split_stuck u' v') as (x2 & y2 & x2' & y2' & h2 & ->). cbn [bind].
      cbn [filterM fst snd]. rewrite (proj1 (over_all x y x2 y2)). cbn [bind]. rewrite (proj1 (proj2 (over_all x y x2' y2'))). cbn [bind].
      rewrite (proj1 (proj2 (over_all x' y' x2' y2'))). cbn [bind]. rewrite (proj1 (over_all x' y' x2 y2)). cbn [bind length Nat.eqb mapM fst snd].
      destruct (Any x y x2 y2) as [-> | [z ->]]; [reflexivity|]. cbn [bind]. rewrite (proj1 (IH x y x2' y2')). reflexivity.
    - destruct (Sk u v) as (r & -> & N). destruct (Sk u' v') as (r' & -> & _). cbn [bind]. rewrite N. cbn [andb].
      destruct (split_stuck u v) as (x & y & x' & y' & h & ->). cbn [bind]. destruct (split_stuck u' v') as (x2 & y2 & x2' & y2' & h2 & ->). cbn [bind].
      cbn [filterM fst snd]. rewrite (proj1 (over_all x y x2 y2)). cbn [bind]. rewrite (proj1 (proj2 (over_all x y x2' y2'))). cbn [bind].
      rewrite (proj2 (proj2 (proj2 (over_all x' y' x2' y2')))). cbn [bind]. rewrite (proj1 (proj2 (proj2 (over_all x' y' x2 y2)))). cbn [bind length Nat.eqb mapM fst snd].
      destruct (Any x y x2 y2) as [-> | [z ->]]; [reflexivity|]. cbn [bind]. rewrite (proj1 (IH x y x2' y2')). reflexivity.
  Qed.
End Ends.
