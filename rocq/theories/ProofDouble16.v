(** findClosestPoint in double precision. *)
From Coq Require Import List ZArith Bool Reals Lra Lia Psatz.
From Flocq Require Import Core BinarySingleNaN Relative.
From Verif Require Import Py Inst InstFloat SpecGeom SpecBezier SpecCurve SpecContour SpecDouble SpecDouble3 MTransform MBounds MBezUtil MBezier MContour
  ProofBezier ProofBezier2 ProofContour ProofClosest ProofDouble ProofDouble2 ProofDouble3 ProofDouble4 ProofDouble9 ProofDouble10 ProofDouble11 ProofDouble12.
Import ListNotations.
Local Open Scope R_scope.

(** ** A new contour, over any numbers *)
Section New.
  Context {T : Type} `{NT : NumOps T} `{TT : TrigOps T}.
  Definition few (l : list (point T)) : Prop := (2 <= length l <= 4)%nat.
  Lemma few_cases (l : list (point T)) (P : list (point T) -> Prop) : (forall a b, P [a; b]) -> (forall a b c, P [a; b; c]) -> (forall a b c d, P [a; b; c; d]) -> few l -> P l.
  Proof. intros A B C F. unfold few in F. destruct l as [|a [|b [|c [|d [|e l]]]]]; simpl in F; try lia; auto. Qed.
  Lemma get_total (b : bezier T) (t : T) : few (cps b) -> exists q, get b t = Ok q.
  Proof.
    destruct b as [l u v]. cbn [cps]. apply (few_cases l (fun l => exists q, get (mkBez l u v) t = Ok q)); intros; unfold get, order; cbn [cps length Nat.sub Nat.eqb];
      destruct (neqb t (nofZ 0)); [eexists; reflexivity| |eexists; reflexivity| |eexists; reflexivity|]; (destruct (neqb t (nofZ 1)); eexists; reflexivity).
  Qed.
  Lemma minmax_total (b : bezier T) (d : nat) (l : list T) : few (cps b) -> exists r, getminmax b d l = Ok r.
  Proof.
    intros F. unfold getminmax. generalize (addEnds l), (@maxSafe T _, @minSafe T _). clear l. induction l as [|t l IH]; intros mm; [eexists; reflexivity|].
    cbn [foldM]. destruct (get_total b t F) as (q & ->). cbn [bind]. apply IH.
  Qed.
  Lemma box_total (b : bezier T) : few (cps b) -> exists r, boundsRectangle b = Ok r.
  Proof.
    intros F. assert (E : exists e, extrema b = Ok e).
    { unfold extrema, extremaDim, dcPoints, order. destruct b as [l u v]. cbn [cps] in *. revert F. unfold few. intros F. destruct l as [|a [|b [|c [|d [|e l]]]]]; simpl in F; try lia; cbn; eexists; reflexivity. }
    destruct E as (e & E). unfold boundsRectangle, bbox. rewrite E. cbn [bind].
    destruct (minmax_total b 0 (ex0 e) F) as ([x0 x1] & ->). cbn [bind]. destruct (minmax_total b 1 (ex1 e) F) as ([y0 y1] & ->). eexists; reflexivity.
  Qed.
  Lemma direction_total (l : list (point T)) : few l -> exists d, computeDirection l = Ok d.
  Proof.
    apply (few_cases l (fun l => exists d, computeDirection l = Ok d)); intros; unfold computeDirection; cbn [idx nth_error bind length Nat.sub Nat.eqb]; repeat match goal with |- context [if ?x then _ else _] => destruct x end; eexists; reflexivity.
  Qed.
  Definition made_of (c : list (list (point T))) : list (bezier T) := map (fun s => mkBez s (nofZ 0) (nofZ 1)) c.
  Lemma loop_total (c : list (list (point T))) : Forall few c -> forall bs r, exists r', foldM (fun (st : list (bezier T) * rect T) seg =>
      let* b := newBezier seg in
      let* r := boundsRectangle b in
      Ok (fst st ++ [b], union (snd st) r)) c (bs, r) = Ok (bs ++ made_of c, r').
  Proof.
    induction 1 as [|s c F A IH]; intros bs r; [exists r; cbn [foldM made_of map]; now rewrite app_nil_r|].
    cbn [foldM]. unfold newBezier at 1. destruct (direction_total s F) as (d & ->). cbn [bind]. destruct (box_total (mkBez s (nofZ 0) (nofZ 1)) F) as (x & ->). cbn [bind fst snd].
    destruct (IH (bs ++ [mkBez s (nofZ 0) (nofZ 1)]) (union r x)) as (r' & E). exists r'. rewrite E, <- app_assoc. reflexivity.
  Qed.
  Theorem new_total (c : list (list (point T))) : Forall few c -> c <> [] -> exists bc, newContour c = Ok bc /\ c_beziers bc = made_of c /\ c_lut bc = [].
  Proof.
    intros F N. unfold newContour. destruct (loop_total c F [] (BoundsRectangle [])) as (r & ->). cbn [bind app].
    assert (E : exists s e, contourEnds (made_of c) = Ok (s, e)).
    { unfold contourEnds. assert (G : forall x : bezier T, few (cps x) -> (exists s, bstart x = Ok s) /\ exists e, bend x = Ok e).
      { intros [l u v]. unfold bstart, bend. cbn [cps]. apply (few_cases l (fun l => (exists s, idx l 0 = Ok s) /\ exists e, idx_last l = Ok e)); intros; split; eexists; reflexivity. }
      assert (G1 : exists x, idx (made_of c) 0 = Ok x /\ few (cps x)) by (destruct F; [congruence|]; eexists; split; [reflexivity | assumption]).
      assert (G2 : exists x, idx_last (made_of c) = Ok x /\ few (cps x)).
      { clear - F N. induction F as [|s c F A IH]; [congruence|]. destruct c as [|s' c]; [eexists; split; [reflexivity | exact F]|]. destruct IH as (x & E & Fx); [discriminate|]. exists x. split; [exact E | exact Fx]. }
      destruct G1 as (x & -> & Fx), G2 as (y & -> & Fy). cbn [bind]. destruct (G x Fx) as ((s & ->) & _), (G y Fy) as (_ & e & Ee). cbn [bind]. rewrite Ee. eexists. eexists. reflexivity. }
    destruct E as (s & e & ->). cbn [bind]. eexists. split; [reflexivity|]. cbn [c_beziers c_lut]. auto.
  Qed.
End New.

(** Overflow is far away. *)
Lemma below_top (x : R) : Rabs x <= 2 ^ 60 -> Rabs (fl x) < ProofDouble.top.
Proof.
  intros H. apply fl_size in H. pose proof tiny_60. assert (2 ^ 64 <= ProofDouble.top) by (unfold ProofDouble.top; rewrite two_pow; apply bpow_le; unfold emax; lia).
  assert (2 * 2 ^ 60 + 1 <= 2 ^ 64) by (cbn; lra). assert (0 < 2 ^ 60) by (apply pow_lt; lra). lra.
Qed.

(** ** The three parameters sampled in a round *)
Lemma five_val : fin (nofZ 5 : b64) /\ val (nofZ 5 : b64) = 5.
Proof. change (nofZ 5 : b64) with (bofZ 5). apply val_int. reflexivity. Qed.
Lemma limit_val : fin (nlit 1 1000 : b64) /\ Rabs (val (nlit 1 1000 : b64) - 1 / 1000) <= ulp1.
Proof.
  unfold nlit. destruct (val_int 1) as [F1 V1]; [reflexivity|]. destruct (val_int 1000) as [F2 V2]; [reflexivity|]. change (nofZ 1 : b64) with (bofZ 1). change (nofZ 1000 : b64) with (bofZ 1000).
  assert (B : Rabs (1 / 1000) <= 1 / 1000) by (rewrite Rabs_pos_eq; lra).
  destruct (div_fl (bofZ 1) (bofZ 1000)) as [F V]; [exact F1 | rewrite V2; lra | rewrite V1, V2; apply below_top; cbn [pow]; lra|].
  split; [exact F|]. rewrite V, V1, V2. pose proof (fl_bound _ _ B). pose proof ulp_tiny. pose proof ulp1_pos. lra.
Qed.
Definition nt (t1 t2 : b64) (j : nat) : b64 := nadd t1 (nmul (nofZ (Z.of_nat j)) (nquot (nsub t2 t1) (nofZ 5))).
Definition inside (t : b64) : Prop := fin t /\ 0 <= val t <= 1.
Lemma step_val (t1 t2 : b64) : inside t1 -> inside t2 -> let step := nquot (nsub t2 t1) (nofZ 5) in
  fin step /\ Rabs (val step - (val t2 - val t1) / 5) <= ulp1.
Proof.
  intros [F1 I1] [F2 I2] step. destruct five_val as [F5 V5]. assert (B : Rabs (val t2 - val t1) <= 1) by (apply Rabs_le; lra).
  destruct (minus_fl t2 t1 F2 F1) as [Fd Vd]; [apply below_top; cbn [pow]; lra|].
  pose proof (fl_bound _ _ B) as E. pose proof (fl_size _ _ B) as S. rewrite <- Vd in E, S. pose proof ulp1_pos. pose proof ulp1_small. pose proof ulp_tiny. pose proof tiny_pos.
  assert (Bq : Rabs (val (nsub t2 t1) / 5) <= 3 / 10). { unfold Rdiv. rewrite Rabs_mult, (Rabs_pos_eq (/ 5)) by lra. lra. }
  destruct (div_fl (nsub t2 t1) (nofZ 5) Fd) as [Fs Vs]; [rewrite V5; lra | rewrite V5; apply below_top; cbn [pow]; lra|].
  fold step in Fs, Vs. split; [exact Fs|]. rewrite Vs, V5. pose proof (fl_bound _ _ Bq) as E2.
  apply Rabs_le. apply Rabs_le_inv in E, E2. lra.
Qed.
Lemma nt_inside (t1 t2 : b64) (j : nat) : inside t1 -> inside t2 -> nltb (nquot (nsub t2 t1) (nofZ 5)) (nlit 1 1000) = false -> (1 <= j <= 3)%nat ->
  inside (nt t1 t2 j) /\ Rabs (val (nt t1 t2 j) - (val t1 + INR j * ((val t2 - val t1) / 5))) <= 6 * ulp1.
Proof.
  intros I1 I2 L J. destruct (step_val t1 t2 I1 I2) as [Fs Es]. destruct limit_val as [Fl El]. apply ltb_val_false in L; auto.
  destruct I1 as [F1 I1], I2 as [F2 I2]. unfold nt. set (step := nquot (nsub t2 t1) (nofZ 5)) in *. clearbody step.
  pose proof ulp1_pos. pose proof ulp1_small. pose proof ulp_tiny. pose proof tiny_pos. apply Rabs_le_inv in Es, El.
  destruct (val_int (Z.of_nat j)) as [Fj Vj]; [lia|]. change (nofZ (Z.of_nat j) : b64) with (bofZ (Z.of_nat j)).
  rewrite <- INR_IZR_INZ in Vj. assert (Hj : 1 <= INR j <= 3) by (split; [change 1 with (INR 1) | replace 3 with (INR 3) by (simpl; lra)]; apply le_INR; lia).
  assert (Bm : Rabs (INR j * val step) <= 3 * val step) by (rewrite Rabs_mult, (Rabs_pos_eq (INR j)), (Rabs_pos_eq (val step)) by lra; nra).
  destruct (mult_fl (bofZ (Z.of_nat j)) step Fj Fs) as [Fm Vm]; [rewrite Vj; apply below_top; cbn [pow]; lra|]. rewrite Vj in Vm.
  pose proof (fl_bound _ _ Bm) as Em. rewrite <- Vm in Em. apply Rabs_le_inv in Em. assert (ulp1 * (3 * val step) <= ulp1) by nra.
  assert (Pm : 0 <= val (nmul (bofZ (Z.of_nat j)) step)) by (rewrite Vm, <- fl0; apply fl_mono; nra).
  set (m := nmul (bofZ (Z.of_nat j)) step) in *. clearbody m.
  assert (Bs : val t1 + val m <= val t2) by nra.
  assert (Ba : Rabs (val t1 + val m) <= 1) by (apply Rabs_le; lra).
  destruct (plus_fl t1 m F1 Fm) as [Fn Vn]; [apply below_top; cbn [pow]; lra|].
  pose proof (fl_bound _ _ Ba) as En. apply Rabs_le_inv in En. split.
  - split; [exact Fn|]. rewrite Vn. split; [rewrite <- fl0; apply fl_mono; lra|]. apply Rle_trans with (val t2); [|lra]. rewrite <- (fl_val t2). now apply fl_mono.
  - rewrite Vn. apply Rabs_le. nra.
Qed.

Section Near.
  Context {TO : TrigOps b64} (e : R) (He : 0 <= e <= / 100) (HH : hypot_within e thypot) (M : R) (HM : M <= 2 ^ 50).
  Definition fd (q p : point b64) : b64 := thypot (nsub (fst q) (fst p)) (nsub (snd q) (snd p)).
  (** Errors: of a distance, of a point of a curve, of the distance of a point of a curve. *)
  Definition err_d : R := 5 * (e + ulp1) * M + 8 * tiny.
  Definition err_p : R := 10 * ulp1 * M + 32 * tiny.
  Definition err_c : R := err_d + 2 * err_p.
  Definition wide : R := M + / 1000000 * M + 40 * tiny.
  Lemma M_pos (p : point b64) : sized M p -> 0 <= M.
  Proof. intros (_ & _ & B & _). pose proof (Rabs_pos (val (fst p))). lra. Qed.
  Lemma diff_val (x y : b64) : fin x -> fin y -> Rabs (val x) <= wide -> Rabs (val y) <= M -> 0 <= M ->
    fin (nsub x y) /\ Rabs (val (nsub x y) - (val x - val y)) <= 21 / 10 * ulp1 * M + 11 / 10 * tiny /\ Rabs (val (nsub x y)) <= 201 / 100 * M + 43 * tiny.
  Proof.
    intros Fx Fy Bx By P. pose proof ulp1_pos. pose proof ulp1_small. pose proof tiny_pos. pose proof tiny_60. unfold wide in Bx.
    assert (B : Rabs (val x - val y) <= 2 * M + / 1000000 * M + 40 * tiny).
    { unfold Rminus. eapply Rle_trans; [apply Rabs_triang|]. rewrite Rabs_Ropp. lra. }
    destruct (minus_fl x y Fx Fy) as [F V]; [apply below_top; cbn [pow] in HM |- *; lra|].
    pose proof (fl_bound _ _ B) as E. pose proof (fl_size _ _ B) as S. rewrite V. split; [exact F|]. split; [|lra].
    assert (ulp1 * (40 * tiny) <= / 10 * tiny) by nra. assert (0 <= ulp1 * M) by nra. nra.
  Qed.
  Lemma sqrt_sq_dist (x y : R) (p : pt) : sqrt (x ^ 2 + y ^ 2) = vdist (fst p + x, snd p + y) p.
  Proof. unfold vdist, dist2. cbn [fst snd]. f_equal. ring. Qed.
  Lemma fd_near (q p : point b64) : sized wide q -> sized M p ->
    fin (fd q p) /\ Rabs (val (fd q p) - vdist (vpt q) (vpt p)) <= err_d /\ val (fd q p) < 9007199254740991.
  Proof.
    intros (Fqx & Fqy & Bqx & Bqy) Sp. pose proof (M_pos p Sp) as P. destruct Sp as (Fpx & Fpy & Bpx & Bpy).
    destruct (diff_val (fst q) (fst p) Fqx Fpx Bqx Bpx P) as (Fx & Ex & Sx). destruct (diff_val (snd q) (snd p) Fqy Fpy Bqy Bpy P) as (Fy & Ey & Sy).
    pose proof ulp1_pos. pose proof ulp1_small. pose proof tiny_pos. pose proof tiny_60. unfold fd.
    assert (Big : 2 ^ 60 <= 2 ^ 1000) by (apply Rle_pow; [lra | lia]). assert (Small : 201 / 100 * M + 43 * tiny <= 2 ^ 60) by (cbn [pow] in HM |- *; lra).
    set (x := nsub (fst q) (fst p)) in *. set (y := nsub (snd q) (snd p)) in *. clearbody x y.
    destruct (HH x y Fx Fy) as [F E]; [lra | lra|]. cbv zeta in E. rewrite (sqrt_sq_dist _ _ (vpt p)) in E. set (z := (fst (vpt p) + val x, snd (vpt p) + val y)) in *.
    assert (Hz1 : vdist z (vpt p) <= 402 / 100 * M + 86 * tiny).
    { eapply Rle_trans; [apply dist_taxi|]. unfold z. cbn [fst snd]. replace (fst (vpt p) + val x - fst (vpt p)) with (val x) by ring. replace (snd (vpt p) + val y - snd (vpt p)) with (val y) by ring. lra. }
    assert (Hz2 : vdist z (vpt q) <= 42 / 10 * ulp1 * M + 22 / 10 * tiny).
    { eapply Rle_trans; [apply dist_taxi|]. unfold z, vpt. cbn [fst snd].
      replace (val (fst p) + val x - val (fst q)) with (val x - (val (fst q) - val (fst p))) by ring. replace (val (snd p) + val y - val (snd q)) with (val y - (val (snd q) - val (snd p))) by ring. lra. }
    pose proof (dist_tri z (vpt q) (vpt p)) as T1. pose proof (dist_tri (vpt q) z (vpt p)) as T2. rewrite (dist_sym (vpt q) z) in T2.
    assert (Hh : 0 <= vdist z (vpt p)) by apply sqrt_pos. assert (Eh : e * vdist z (vpt p) <= 402 / 100 * (e * M) + 86 / 100 * tiny) by nra.
    split; [exact F|]. apply Rabs_le_inv in E. split.
    - apply Rabs_le. unfold err_d. assert (0 <= e * M) by nra. assert (0 <= ulp1 * M) by nra. lra.
    - assert (e * M <= / 100 * M) by nra. cbn [pow] in HM. lra.
  Qed.
  Lemma max_val : fin (maxSafe : b64) /\ val (maxSafe : b64) = 9007199254740991.
  Proof. unfold maxSafe. change (nofZ 9007199254740991 : b64) with (bofZ 9007199254740991). apply val_int. reflexivity. Qed.

  (** ** _findClosest *)
  Definition reachable (p q : point b64) : Prop := fin (fd q p) /\ val (fd q p) < 9007199254740991.
  Lemma closest_fold (p : point b64) (d : point b64) : forall lut n c i, fin c -> Forall (reachable p) lut ->
    exists c' i', fold_left (closestStep p) lut (n, c, i) = ((n + Z.of_nat (length lut))%Z, c', i') /\ fin c' /\ val c' <= val c /\ (forall q, In q lut -> val c' <= val (fd q p)) /\
      ((c' = c /\ i' = i) \/ exists k, (k < length lut)%nat /\ i' = (n + Z.of_nat k)%Z /\ c' = fd (nth k lut d) p).
  Proof.
    induction lut as [|q lut IH]; intros n c i Fc A.
    - exists c, i. cbn [fold_left length Z.of_nat]. rewrite Z.add_0_r. split; [reflexivity|]. split; [exact Fc|]. split; [lra|]. split; [contradiction|]. now left.
    - apply Forall_cons_iff in A as [[Fq Lq] A]. cbn [fold_left closestStep]. fold (fd q p). destruct (nltb (fd q p) c) eqn:L.
      + apply ltb_val in L; auto. destruct (IH (n + 1)%Z (fd q p) n Fq A) as (c' & i' & E & Fc' & Lc & B & O). exists c', i'. rewrite E. split; [f_equal; f_equal; cbn [length]; lia|].
        split; [exact Fc'|]. split; [lra|]. split; [intros x [<-|X]; [lra | now apply B]|]. right. destruct O as [(-> & ->)|(k & K & -> & ->)].
        * exists 0%nat. split; [cbn [length]; lia|]. split; [lia | reflexivity].
        * exists (S k). split; [cbn [length]; lia|]. split; [lia | reflexivity].
      + apply ltb_val_false in L; auto. destruct (IH (n + 1)%Z c i Fc A) as (c' & i' & E & Fc' & Lc & B & O). exists c', i'. rewrite E. split; [f_equal; f_equal; cbn [length]; lia|].
        split; [exact Fc'|]. split; [lra|]. split; [intros x [<-|X]; [lra | now apply B]|]. destruct O as [O|(k & K & -> & ->)]; [now left|]. right.
        exists (S k). split; [cbn [length]; lia|]. split; [lia | reflexivity].
  Qed.
  Lemma findClosest_double (p d : point b64) (lut : list (point b64)) : lut <> [] -> Forall (reachable p) lut ->
    exists k, findClosest p lut = Z.of_nat k /\ (k < length lut)%nat /\ forall q, In q lut -> val (fd (nth k lut d) p) <= val (fd q p).
  Proof.
    intros N A. unfold findClosest. destruct max_val as [Fm Vm]. destruct (closest_fold p d lut 0%Z maxSafe (-1)%Z Fm A) as (c & i & E & Fc & _ & B & O). rewrite E. cbn [snd].
    destruct O as [(-> & ->)|(k & K & -> & ->)].
    - exfalso. destruct lut as [|q lut]; [congruence|]. specialize (B q (or_introl eq_refl)). apply Forall_inv in A as [_ L]. lra.
    - exists k. split; [reflexivity|]. auto.
  Qed.

  (** ** _refineBinary *)
  Section Refine.
    Context (b : bezier b64) (Ho : (1 <= order b <= 3)%nat) (Hb : Forall (sized M) (cps b)) (p : point b64) (Hp : sized M p).
    Let C := curve (map vpt (cps b)).
    Lemma curve_small (t : R) : 0 <= t <= 1 -> Rabs (fst (C t)) <= M /\ Rabs (snd (C t)) <= M.
    Proof.
      intros T. destruct (curve_in_box (map vpt (cps b)) t (- M) M (- M) M) as [X Y]; [|exact T| |split; apply Rabs_le; assumption].
      - unfold order in Ho. destruct (cps b); [simpl in Ho; lia | discriminate].
      - intros q Q. apply in_map_iff in Q as (x & <- & I). rewrite Forall_forall in Hb. destruct (Hb x I) as (_ & _ & B1 & B2). apply Rabs_le_inv in B1, B2. unfold vpt. cbn [fst snd]. lra.
    Qed.
    Lemma off_wide (q : point b64) (t : R) : 0 <= t <= 1 -> off err_p q (C t) -> sized wide q.
    Proof.
      intros T (Fx & Fy & Ex & Ey). destruct (curve_small t T) as [Bx By]. pose proof (M_pos p Hp). pose proof ulp1_pos. pose proof tiny_pos.
      assert (U : 10 * ulp1 * M <= / 1000000 * M) by (apply Rmult_le_compat_r; [assumption | rewrite ulp_num; lra]).
      assert (K : forall x y, Rabs (x - y) <= err_p -> Rabs y <= M -> Rabs x <= wide).
      { intros x y X Y. replace x with ((x - y) + y) by ring. eapply Rle_trans; [apply Rabs_triang|]. unfold wide, err_p in *. lra. }
      repeat split; auto; eapply K; eassumption.
    Qed.
    Lemma off_near (q : point b64) (t : R) : 0 <= t <= 1 -> off err_p q (C t) ->
      reachable p q /\ Rabs (val (fd q p) - vdist (vpt q) (vpt p)) <= err_d /\ Rabs (val (fd q p) - vdist (C t) (vpt p)) <= err_c.
    Proof.
      intros T O. destruct (fd_near q p (off_wide q t T O) Hp) as (F & E & L). destruct O as (_ & _ & Ex & Ey).
      split; [split; assumption|]. split; [exact E|].
      assert (D : vdist (vpt q) (C t) <= 2 * err_p) by (eapply Rle_trans; [apply dist_taxi|]; unfold vpt; cbn [fst snd]; lra).
      pose proof (dist_tri (vpt q) (C t) (vpt p)) as T1. pose proof (dist_tri (C t) (vpt q) (vpt p)) as T2. rewrite (dist_sym (C t) (vpt q)) in T2.
      apply Rabs_le_inv in E. apply Rabs_le. unfold err_c. lra.
    Qed.
    Lemma get_sample (t : b64) : inside t -> exists q, get b t = Ok q /\ off err_p q (C (val t)).
    Proof. intros [F I]. apply get_accuracy; auto. eapply Rle_trans; [exact HM|]. apply Rle_pow; [lra | lia]. Qed.
    (** A point the search has looked at. *)
    Definition hit (q : point b64) (d : b64) : Prop := exists t, inside t /\ get b t = Ok q /\ d = fd q p.
    Lemma sampled_double (t1 t2 closest : b64) (q : point b64) (i : Z) (l1 : point b64) : inside t1 -> inside t2 -> nltb (nquot (nsub t2 t1) (nofZ 5)) (nlit 1 1000) = false -> fin closest ->
      exists c' q' i' nl, foldM (refineSample p b t1 (nquot (nsub t2 t1) (nofZ 5))) (seq 1 3) ((closest, q, i), ([l1], [t1])) = Ok ((c', q', i'), (nl, [t1; nt t1 t2 1; nt t1 t2 2; nt t1 t2 3])) /\
        length nl = 4%nat /\ fin c' /\ val c' <= val closest /\ (forall j x, (1 <= j <= 3)%nat -> get b (nt t1 t2 j) = Ok x -> val c' <= val (fd x p)) /\
        ((c' = closest /\ q' = q /\ i' = i) \/ ((1 <= i' <= 3)%Z /\ hit q' c')).
    Proof.
      intros I1 I2 L Fc. destruct (nt_inside t1 t2 1 I1 I2 L ltac:(lia)) as [J1 _]. destruct (nt_inside t1 t2 2 I1 I2 L ltac:(lia)) as [J2 _]. destruct (nt_inside t1 t2 3 I1 I2 L ltac:(lia)) as [J3 _].
      destruct (get_sample _ J1) as (x1 & G1 & O1). destruct (get_sample _ J2) as (x2 & G2 & O2). destruct (get_sample _ J3) as (x3 & G3 & O3).
      destruct (off_near x1 _ (proj2 J1) O1) as ((F1 & _) & _). destruct (off_near x2 _ (proj2 J2) O2) as ((F2 & _) & _). destruct (off_near x3 _ (proj2 J3) O3) as ((F3 & _) & _).
      assert (H1 : hit x1 (fd x1 p)) by (eexists; eauto). assert (H2 : hit x2 (fd x2 p)) by (eexists; eauto). assert (H3 : hit x3 (fd x3 p)) by (eexists; eauto).
      assert (S : forall c r k ls ts j x, get b (nt t1 t2 j) = Ok x -> refineSample p b t1 (nquot (nsub t2 t1) (nofZ 5)) ((c, r, k), (ls, ts)) j =
        Ok (if nltb (fd x p) c then (fd x p, x, Z.of_nat j) else (c, r, k), (ls ++ [x], ts ++ [nt t1 t2 j]))).
      { intros c r k ls ts j x G. unfold refineSample. fold (nt t1 t2 j). rewrite G. reflexivity. }
      cbn [seq foldM]. rewrite (S _ _ _ _ _ 1%nat x1 G1). cbn [bind].
      destruct (nltb (fd x1 p) closest) eqn:L1; [apply ltb_val in L1 | apply ltb_val_false in L1]; auto; rewrite (S _ _ _ _ _ 2%nat x2 G2); cbn [bind].
      - destruct (nltb (fd x2 p) (fd x1 p)) eqn:L2; [apply ltb_val in L2 | apply ltb_val_false in L2]; auto; rewrite (S _ _ _ _ _ 3%nat x3 G3); cbn [bind app].
        + destruct (nltb (fd x3 p) (fd x2 p)) eqn:L3; [apply ltb_val in L3 | apply ltb_val_false in L3]; auto; do 4 eexists; (split; [reflexivity|]); (split; [reflexivity|]); (split; [assumption|]); (split; [lra|]);
            (split; [|right; split; [cbn; lia | assumption]]); intros j x J G; destruct j as [|[|[|[|j]]]]; try lia; rewrite ?G1, ?G2, ?G3 in G; apply Ok_inj in G; subst x; lra.
        + destruct (nltb (fd x3 p) (fd x1 p)) eqn:L3; [apply ltb_val in L3 | apply ltb_val_false in L3]; auto; do 4 eexists; (split; [reflexivity|]); (split; [reflexivity|]); (split; [assumption|]); (split; [lra|]);
            (split; [|right; split; [cbn; lia | assumption]]); intros j x J G; destruct j as [|[|[|[|j]]]]; try lia; rewrite ?G1, ?G2, ?G3 in G; apply Ok_inj in G; subst x; lra.
      - destruct (nltb (fd x2 p) closest) eqn:L2; [apply ltb_val in L2 | apply ltb_val_false in L2]; auto; rewrite (S _ _ _ _ _ 3%nat x3 G3); cbn [bind app].
        + destruct (nltb (fd x3 p) (fd x2 p)) eqn:L3; [apply ltb_val in L3 | apply ltb_val_false in L3]; auto; do 4 eexists; (split; [reflexivity|]); (split; [reflexivity|]); (split; [assumption|]); (split; [lra|]);
            (split; [|right; split; [cbn; lia | assumption]]); intros j x J G; destruct j as [|[|[|[|j]]]]; try lia; rewrite ?G1, ?G2, ?G3 in G; apply Ok_inj in G; subst x; lra.
        + destruct (nltb (fd x3 p) closest) eqn:L3; [apply ltb_val in L3 | apply ltb_val_false in L3]; auto; do 4 eexists; (split; [reflexivity|]); (split; [reflexivity|]); (split; [assumption|]); (split; [lra|]);
            (split; [|first [right; split; [cbn; lia | assumption] | left; auto]]); intros j x J G; destruct j as [|[|[|[|j]]]]; try lia; rewrite ?G1, ?G2, ?G3 in G; apply Ok_inj in G; subst x; lra.
    Qed.
    Definition found (closest : b64) (q : point b64) (r : point b64 * b64) : Prop := fin (snd r) /\ val (snd r) <= val closest /\ (r = (q, closest) \/ hit (fst r) (snd r)).
    Lemma later_double : forall rounds lut tts closest q i, length lut = 5%nat -> length tts = 5%nat -> (1 <= i <= 3)%Z -> Forall inside tts -> fin closest ->
      exists r, refineLoop rounds p b lut tts closest q i = Ok r /\ found closest q r.
    Proof.
      induction rounds as [|k IH]; intros lut tts closest q i Ll Lt I U Fc; [eexists; split; [reflexivity|]; unfold found; cbn [fst snd]; split; [exact Fc|]; split; [lra | now left]|].
      cbn [refineLoop]. rewrite Ll. change (Z.of_nat 5) with 5%Z. destruct (Z.eqb_spec i 0); [lia|]. destruct (Z.eqb_spec i (5 - 1)); [lia|].
      rewrite (idxZ_nth tts (i - 1) (bofZ 0)), (idxZ_nth tts (i + 1) (bofZ 0)) by lia. cbn [bind].
      set (t1 := nth (Z.to_nat (i - 1)) tts (bofZ 0)). set (t2 := nth (Z.to_nat (i + 1)) tts (bofZ 0)).
      assert (U1 : inside t1) by (rewrite Forall_forall in U; apply U, nth_In; lia). assert (U2 : inside t2) by (rewrite Forall_forall in U; apply U, nth_In; lia).
      destruct (nltb (nquot (nsub t2 t1) (nofZ 5)) (nlit 1 1000)) eqn:L; [eexists; split; [reflexivity|]; unfold found; cbn [fst snd]; split; [exact Fc|]; split; [lra | now left]|].
      rewrite (idxZ_nth lut (i - 1) (bofZ 0, bofZ 0)) by lia. cbn [bind].
      destruct (sampled_double t1 t2 closest q i (nth (Z.to_nat (i - 1)) lut (bofZ 0, bofZ 0)) U1 U2 L Fc) as (c' & q' & i' & nl & E & Ln & Fc' & Lc & _ & O). rewrite E. cbn [bind].
      rewrite (idxZ_nth lut (i + 1) (bofZ 0, bofZ 0)) by lia. cbn [bind].
      assert (I' : (1 <= i' <= 3)%Z) by (destruct O as [(_ & _ & ->)|(O & _)]; assumption).
      destruct (IH (nl ++ [nth (Z.to_nat (i + 1)) lut (bofZ 0, bofZ 0)]) ([t1; nt t1 t2 1; nt t1 t2 2; nt t1 t2 3] ++ [t2]) c' q' i') as (r & Er & Fr & Lr & Or); [rewrite app_length, Ln; reflexivity | reflexivity | exact I' | | exact Fc'|].
      { cbn [app]. repeat (apply Forall_cons; [first [exact U1 | exact U2 | apply nt_inside; auto; lia]|]). apply Forall_nil. }
      exists r. split; [exact Er|]. split; [exact Fr|]. split; [lra|]. destruct Or as [->|Or]; [|now right]. cbn [fst snd]. destruct O as [(-> & -> & _)|(_ & O)]; [now left | now right].
    Qed.
    Lemma first_double rounds lut tts (i : Z) : length lut = length tts -> (2 <= length lut)%nat -> (0 <= i < Z.of_nat (length lut))%Z -> Forall inside tts ->
      let t1 := nth (Z.to_nat (low i)) tts (bofZ 0) in let t2 := nth (Z.to_nat (high (Z.of_nat (length lut)) i)) tts (bofZ 0) in
      nltb (nquot (nsub t2 t1) (nofZ 5)) (nlit 1 1000) = false ->
      exists q d, refineLoop (S rounds) p b lut tts maxSafe (nofZ 0, nofZ 0) i = Ok (q, d) /\ hit q d /\ fin d /\
        forall j x, (1 <= j <= 3)%nat -> get b (nt t1 t2 j) = Ok x -> val d <= val (fd x p).
    Proof.
      intros Ll L2 I U t1 t2 L. cbn [refineLoop]. fold (low i). fold (high (Z.of_nat (length lut)) i).
      assert (Hl : (0 <= low i < Z.of_nat (length lut))%Z) by (unfold low; destruct (Z.eqb_spec i 0); lia).
      assert (Hh : (0 <= high (Z.of_nat (length lut)) i < Z.of_nat (length lut))%Z) by (unfold high; destruct (Z.eqb_spec i (Z.of_nat (length lut) - 1)); lia).
      rewrite (idxZ_nth tts (low i) (bofZ 0)), (idxZ_nth tts (high (Z.of_nat (length lut)) i) (bofZ 0)) by lia. cbn [bind]. fold t1 t2.
      assert (U1 : inside t1) by (rewrite Forall_forall in U; apply U, nth_In; lia). assert (U2 : inside t2) by (rewrite Forall_forall in U; apply U, nth_In; lia).
      rewrite L. rewrite (idxZ_nth lut (low i) (bofZ 0, bofZ 0)) by lia. cbn [bind]. destruct max_val as [Fm Vm].
      destruct (sampled_double t1 t2 maxSafe (nofZ 0, nofZ 0) i (nth (Z.to_nat (low i)) lut (bofZ 0, bofZ 0)) U1 U2 L Fm) as (c' & q' & i' & nl & E & Ln & Fc' & Lc & Lj & O). rewrite E. cbn [bind].
      rewrite (idxZ_nth lut (high (Z.of_nat (length lut)) i) (bofZ 0, bofZ 0)) by lia. cbn [bind].
      destruct O as [(Ec & _)|(I' & Hq)].
      { exfalso. destruct (nt_inside t1 t2 1 U1 U2 L ltac:(lia)) as [J1 _]. destruct (get_sample _ J1) as (x & G & Ox). destruct (off_near x _ (proj2 J1) Ox) as ((_ & Lx) & _). specialize (Lj 1%nat x ltac:(lia) G). rewrite Ec in Lj. lra. }
      destruct (later_double rounds (nl ++ [nth (Z.to_nat (high (Z.of_nat (length lut)) i)) lut (bofZ 0, bofZ 0)]) ([t1; nt t1 t2 1; nt t1 t2 2; nt t1 t2 3] ++ [t2]) c' q' i') as ([q d] & Er & Fr & Lr & Or); [rewrite app_length, Ln; reflexivity | reflexivity | exact I' | | exact Fc'|].
      { cbn [app]. repeat (apply Forall_cons; [first [exact U1 | exact U2 | apply nt_inside; auto; lia]|]). apply Forall_nil. }
      cbn [fst snd] in *. exists q, d. split; [exact Er|]. split; [|split; [exact Fr|]].
      - destruct Or as [X|X]; [|exact X]. apply pair_equal_spec in X as [-> ->]. exact Hq.
      - intros j x J G. specialize (Lj j x J G). lra.
    Qed.
  End Refine.
  (** ** The table of samples *)
  Lemma quot_inside (i : nat) (n : Z) : (2 <= n <= 1000)%Z -> (i < Z.to_nat n)%nat ->
    exists q, ndiv (nofZ (Z.of_nat i) : b64) (nofZ (n - 1)) = Ok q /\ inside q /\ Rabs (val q - INR i / IZR (n - 1)) <= 2 * ulp1.
  Proof.
    intros Hn Hi. pose proof ulp1_pos. pose proof ulp_tiny. destruct (val_int 0) as [F0 V0]; [reflexivity|]. destruct (val_int 1) as [F1 V1]; [reflexivity|].
    destruct (val_int (n - 1)) as [Fn Vn]; [lia|]. destruct (val_int (Z.of_nat i)) as [Fi Vi]; [lia|]. rewrite <- INR_IZR_INZ in Vi.
    change (nofZ (Z.of_nat i) : b64) with (bofZ (Z.of_nat i)). change (nofZ (n - 1) : b64) with (bofZ (n - 1)).
    assert (P : 0 < IZR (n - 1)) by (apply IZR_lt; lia). unfold ndiv. change (nofZ 0 : b64) with (bofZ 0). rewrite (neqb_val _ (bofZ 0)) by (auto; rewrite Vn, V0; lra).
    pose proof (row_in n i ltac:(lia) Hi) as U. unfold unit in U. set (x := INR i / IZR (n - 1)) in *.
    assert (B : Rabs x <= 1) by (apply Rabs_le; lra).
    destruct (div_fl (bofZ (Z.of_nat i)) (bofZ (n - 1)) Fi) as [F V]; [rewrite Vn; lra | rewrite Vi, Vn; apply below_top; fold x; cbn [pow]; lra|]. rewrite Vi, Vn in V. fold x in V.
    eexists. split; [reflexivity|]. split; [split; [exact F|]|].
    - rewrite V. split; [rewrite <- fl0; apply fl_mono; lra|]. replace 1 with (fl 1) by (rewrite <- V1; apply fl_val). apply fl_mono. lra.
    - rewrite V. pose proof (fl_bound _ _ B). pose proof tiny_pos. lra.
  Qed.
  Lemma params_double (n : Z) : (2 <= n <= 1000)%Z ->
    exists l, mapM (fun t => ndiv (nofZ (Z.of_nat t) : b64) (nofZ (n - 1))) (seq 0 (Z.to_nat n)) = Ok l /\ length l = Z.to_nat n /\ Forall inside l /\
      forall i, (i < Z.to_nat n)%nat -> Rabs (val (nth i l (bofZ 0)) - INR i / IZR (n - 1)) <= 2 * ulp1.
  Proof.
    intros Hn. destruct (mapM_spec (fun t => ndiv (nofZ (Z.of_nat t) : b64) (nofZ (n - 1))) (fun i q => inside q /\ Rabs (val q - INR i / IZR (n - 1)) <= 2 * ulp1) (seq 0 (Z.to_nat n))) as (l & E & F).
    { intros i I. apply in_seq in I. apply quot_inside; lia. }
    exists l. pose proof (Forall2_len _ _ _ F) as L. rewrite seq_length in L. split; [exact E|]. split; [auto|]. split.
    - apply Forall_forall. intros q Q. apply (In_nth _ _ (bofZ 0)) in Q as (k & K & <-). rewrite <- L in K. apply (F2_nth _ _ _ k 0%nat (bofZ 0) F). now rewrite seq_length.
    - intros i I. pose proof (F2_nth _ _ _ i 0%nat (bofZ 0) F ltac:(now rewrite seq_length)) as [_ X]. rewrite seq_nth in X by exact I. exact X.
  Qed.
  Definition good (b : bezier b64) : Prop := (1 <= order b <= 3)%nat /\ Forall (sized M) (cps b).
  Definition shape (b : bezier b64) : list pt := map vpt (cps b).
  Section Table.
    Context (p : point b64) (Hp : sized M p) (s : Z) (Hs : (2 <= s <= 200)%Z) (bs : list (bezier b64)) (Hbs : Forall good bs).
    (** A computed sample and the exact one. *)
    Definition sampled_at (q : point b64) (x : pt) : Prop := reachable p q /\ exists b u w, In b bs /\ unit u /\ unit w /\ Rabs (u - w) <= 2 * ulp1 /\ x = curve (shape b) w /\
      Rabs (val (fd q p) - vdist (curve (shape b) u) (vpt p)) <= err_c.
    Lemma row_double (b : bezier b64) : In b bs -> exists l, getLUT b s = Ok l /\ Forall2 sampled_at l (row_of s (shape b)).
    Proof.
      intros I. pose proof Hbs as A. rewrite Forall_forall in A. destruct (A b I) as [Ho Hb]. destruct (table_accuracy b M s Ho Hb) as (l & E & L & T); [eapply Rle_trans; [exact HM|]; apply Rle_pow; [lra | lia] | lia|].
      exists l. split; [exact E|].
      assert (G : forall l x, length l = length x -> (forall i, (i < length l)%nat -> sampled_at (nth i l (bofZ 0, bofZ 0)) (nth i x (0, 0))) -> Forall2 sampled_at l x).
      { clear. induction l as [|q l IH]; intros [|x r] L H; try discriminate; constructor; [apply (H 0%nat); cbn [length]; lia|]. apply IH; [now injection L|]. intros i Hi. apply (H (S i)). cbn [length]. lia. }
      apply G; [now rewrite row_length|]. intros i Hi. rewrite L in Hi. destruct (T i Hi) as (q & u & Eq & U & Du & O & _). rewrite (nth_error_nth _ _ (bofZ 0, bofZ 0) Eq).
      destruct (off_near b Ho Hb p Hp q u U O) as (R & _ & Er). split; [exact R|]. exists b, u, (INR i / IZR (s - 1)). rewrite minus_IZR at 2.
      split; [exact I|]. split; [exact U|]. split; [apply row_in; lia|]. split; [exact Du|]. split; [now apply row_nth | exact Er].
    Qed.
    Lemma tails_double : forall r, incl r bs -> exists l, concatLUT 1 r s = Ok l /\ Forall2 sampled_at l (tails s (map shape r)).
    Proof.
      assert (K : forall l x, Forall2 sampled_at l x -> Forall2 sampled_at (skipn 1 l) (skipn 1 x)) by (intros ? ? []; [constructor | assumption]).
      induction r as [|b r IH]; intros I; [exists []; split; [reflexivity | constructor]|].
      destruct (row_double b) as (l & E & F); [apply I; now left|]. destruct IH as (l' & E' & F'); [intros x X; apply I; now right|].
      exists (skipn 1 l ++ l'). cbn [concatLUT]. rewrite E. cbn [bind]. rewrite E'. split; [reflexivity|]. apply Forall2_app; [now apply K | exact F'].
    Qed.
    Lemma table_double : bs <> [] -> exists l, concatLUT 0 bs s = Ok l /\ Forall2 sampled_at l (table s (map shape bs)).
    Proof.
      intros N. destruct bs as [|b r] eqn:Eb; [congruence|]. rewrite <- Eb in *.
      destruct (row_double b) as (l & E & F); [rewrite Eb; now left|]. destruct (tails_double r) as (l' & E' & F'); [rewrite Eb; intros x X; now right|].
      exists (l ++ l'). rewrite Eb at 1. cbn [concatLUT]. rewrite E. cbn [bind]. rewrite E'. split; [reflexivity|]. rewrite Eb. cbn [map table]. now apply Forall2_app.
    Qed.
    Lemma locate_double (d : bezier b64) (k : nat) : (k < length bs * (Z.to_nat s - 1) + 1)%nat -> bs <> [] ->
      exists m c2 i, locate bs (Z.of_nat k) s = Ok (nth m bs d, c2, i) /\ (m < length bs)%nat /\ (0 <= i < s)%Z /\
        (c2 = None \/ exists m', (m' < length bs)%nat /\ c2 = Some (nth m' bs d)) /\
        ((m = 0%nat /\ i = Z.of_nat k) \/ (1 <= m)%nat /\ (i < s - 1)%Z /\ Z.of_nat k = (Z.of_nat m * (s - 1) + i + 1)%Z).
    Proof.
      intros K N. assert (Lc : (0 < length bs)%nat) by (destruct bs; [congruence|simpl; lia]). unfold locate.
      assert (X : forall m, (m < length bs)%nat -> idx bs m = Ok (nth m bs d)) by (intros; now apply idx_nth).
      destruct (Z.ltb_spec (Z.of_nat k) s) as [Lt|Ge].
      - rewrite X by exact Lc. cbn [bind].
        destruct (Z.eqb (Z.of_nat k) (s - 1) && Z.leb 2 (Z.of_nat (length bs)))%bool eqn:E.
        + apply andb_prop in E as [_ E]. apply Z.leb_le in E. rewrite X by lia. cbn [bind].
          exists 0%nat, (Some (nth 1 bs d)), (Z.of_nat k). split; [reflexivity|]. split; [lia|]. split; [lia|]. split; [right; exists 1%nat; split; [lia|reflexivity]|left; auto].
        + cbn [bind]. exists 0%nat, None, (Z.of_nat k). split; [reflexivity|]. split; [lia|]. split; [lia|]. split; [now left|left; auto].
      - destruct (Z.eqb_spec (s - 1) 0); [lia|]. set (i := (Z.of_nat k - s)%Z) in *.
        pose proof (Z.div_mod i (s - 1)) as DM. pose proof (Z.mod_pos_bound i (s - 1)) as MB. pose proof (Z.div_pos i (s - 1)) as DP.
        set (q := (i / (s - 1))%Z) in *. set (r := (i mod (s - 1))%Z) in *.
        assert (D : (q + 1 < Z.of_nat (length bs))%Z) by (clear - DM MB K Hs n Ge i; unfold i in *; nia).
        assert (P : (0 <= q)%Z) by (apply DP; unfold i; lia).
        unfold idxZ. destruct (Z.leb_spec 0 (q + 1)); [|lia]. rewrite X by lia. cbn [bind].
        assert (T : (0 <= r < s)%Z) by lia.
        assert (W : (1 <= Z.to_nat (q + 1))%nat /\ (r < s - 1)%Z /\ Z.of_nat k = (Z.of_nat (Z.to_nat (q + 1)) * (s - 1) + r + 1)%Z).
        { split; [lia|]. split; [lia|]. rewrite Z2Nat.id by lia. unfold i in *. nia. }
        destruct (Z.ltb_spec (q + 1) (Z.of_nat (length bs) - 1)).
        + destruct (Z.leb_spec 0 (q + 1 + 1)); [|lia]. rewrite X by lia. cbn [bind].
          exists (Z.to_nat (q + 1)), (Some (nth (Z.to_nat (q + 1 + 1)) bs d)), r. split; [reflexivity|]. split; [lia|]. split; [exact T|].
          split; [right; exists (Z.to_nat (q + 1 + 1)); split; [lia|reflexivity]|right; exact W].
        + cbn [bind]. exists (Z.to_nat (q + 1)), None, r. split; [reflexivity|]. split; [lia|]. split; [exact T|]. split; [now left|right; exact W].
    Qed.
    (** ** One refinement *)
    Lemma refine_double (b : bezier b64) (l : list (point b64)) (i : Z) : good b -> length l = Z.to_nat s -> (0 <= i < s)%Z ->
      exists q d, refineBinary p b l i = Ok (q, d) /\ hit b p q d /\ fin d /\
        forall w, (1 <= w <= 3)%nat -> exists u, unit u /\ val d <= vdist (curve (shape b) u) (vpt p) + err_c /\
          Rabs (u - (IZR (low i) / IZR (s - 1) + INR w * ((IZR (high s i) / IZR (s - 1) - IZR (low i) / IZR (s - 1)) / 5))) <= 8 * ulp1.
    Proof.
      intros [Ho Hb] L I. unfold refineBinary. rewrite L, Z2Nat.id by lia. destruct (params_double s ltac:(lia)) as (tts & E & Lt & Ut & N). rewrite E. cbn [bind].
      assert (Hl : (0 <= low i < s)%Z) by (unfold low; destruct (Z.eqb_spec i 0); lia).
      assert (Hh : (0 <= high s i < s)%Z) by (unfold high; destruct (Z.eqb_spec i (s - 1)); lia).
      assert (Hg : (low i + 1 <= high s i)%Z) by (unfold low, high; destruct (Z.eqb_spec i 0); destruct (Z.eqb_spec i (s - 1)); lia).
      set (t1 := nth (Z.to_nat (low i)) tts (bofZ 0)). set (t2 := nth (Z.to_nat (high s i)) tts (bofZ 0)).
      assert (U1 : inside t1) by (rewrite Forall_forall in Ut; apply Ut, nth_In; lia). assert (U2 : inside t2) by (rewrite Forall_forall in Ut; apply Ut, nth_In; lia).
      pose proof (N (Z.to_nat (low i)) ltac:(lia)) as N1. pose proof (N (Z.to_nat (high s i)) ltac:(lia)) as N2. fold t1 in N1. fold t2 in N2. rewrite INR_IZR_INZ, Z2Nat.id in N1, N2 by lia.
      set (lo := IZR (low i) / IZR (s - 1)) in *. set (hi := IZR (high s i) / IZR (s - 1)) in *. apply Rabs_le_inv in N1, N2. pose proof ulp_num as Un. pose proof ulp1_pos as Up.
      assert (G : / 199 <= hi - lo).
      { assert (P : 0 < IZR (s - 1)) by (apply IZR_lt; lia). assert (Q : IZR (s - 1) <= 199) by (apply IZR_le; lia). unfold hi, lo. replace (IZR (high s i) / IZR (s - 1) - IZR (low i) / IZR (s - 1)) with ((IZR (high s i) - IZR (low i)) * / IZR (s - 1)) by (field; lra).
        assert (1 <= IZR (high s i) - IZR (low i)) by (rewrite <- minus_IZR; apply IZR_le; lia). assert (/ 199 <= / IZR (s - 1)) by (apply Rinv_le; lra). nra. }
      assert (B : nltb (nquot (nsub t2 t1) (nofZ 5)) (nlit 1 1000) = false).
      { destruct (step_val t1 t2 U1 U2) as [Fs Es]. destruct limit_val as [Fl El]. destruct (nltb _ _) eqn:X; [|reflexivity]. apply ltb_val in X; auto. apply Rabs_le_inv in Es, El. rewrite Un in *. lra. }
      destruct (first_double b Ho Hb p Hp 24 l tts i) as (q & d & Er & Hq & Fd & J); [lia | lia | lia | exact Ut | rewrite L, Z2Nat.id by lia; exact B|].
      rewrite L, Z2Nat.id in J by lia. fold t1 t2 in J. exists q, d. split; [exact Er|]. split; [exact Hq|]. split; [exact Fd|].
      intros w W. destruct (nt_inside t1 t2 w U1 U2 B W) as [In Dn]. destruct (get_sample b Ho Hb _ In) as (x & Gx & Ox). destruct (off_near b Ho Hb p Hp x _ (proj2 In) Ox) as (_ & _ & Ex).
      exists (val (nt t1 t2 w)). split; [apply In|]. specialize (J w x W Gx). apply Rabs_le_inv in Ex. split; [unfold shape; lra|].
      assert (Hw : 1 <= INR w <= 3) by (split; [change 1 with (INR 1) | replace 3 with (INR 3) by (simpl; lra)]; apply le_INR; lia).
      apply Rabs_le_inv in Dn. apply Rabs_le. clear - Dn N1 N2 Hw Up. nra.
    Qed.
    Lemma hit_on (b : bezier b64) (q : point b64) (d : b64) : good b -> hit b p q d -> exists t, unit t /\ off err_p q (curve (shape b) t) /\ Rabs (val d - vdist (vpt q) (vpt p)) <= err_d.
    Proof.
      intros [Ho Hb] (t & I & G & ->). destruct (get_sample b Ho Hb t I) as (x & Gx & Ox). rewrite G in Gx. apply Ok_inj in Gx. subst x. destruct (off_near b Ho Hb p Hp q _ (proj2 I) Ox) as (_ & E & _).
      exists (val t). split; [apply I|]. auto.
    Qed.
    Theorem closest_double (bc : bcontour b64) : c_beziers bc = bs -> c_lut bc = [] -> bs <> [] ->
      exists d q b t, snd (findClosestPoint bc p s) = Ok (d, q) /\ In b bs /\ unit t /\ off err_p q (curve (shape b) t) /\ fin d /\ Rabs (val d - vdist (vpt q) (vpt p)) <= err_d /\
        forall V x, (forall b, In b bs -> speed (shape b) <= V) -> In x (table s (map shape bs)) -> val d <= vdist x (vpt p) + 4 / 5 * V / IZR (s - 1) + 12 * ulp1 * V + 3 * err_c.
    Proof.
      intros B L N. assert (Hg : forall b, In b bs -> good b) by (now apply Forall_forall).
      assert (Dr : forall b, In b bs -> drawable (shape b)) by (intros b I; destruct (Hg b I) as [O _]; unfold drawable, shape, order in *; rewrite map_length; lia).
      destruct (table_double N) as (l & El & F). unfold findClosestPoint, contourLUT. rewrite L. cbn [length Z.of_nat]. destruct (Z.eqb_spec 0 s); [lia|]. rewrite B, El. cbn [snd setCLut c_beziers]. rewrite B.
      assert (Lb : length (map shape bs) = length bs) by apply map_length. assert (Nb : map shape bs <> []) by (destruct bs; [congruence | discriminate]).
      assert (Ll : length l = (length bs * (Z.to_nat s - 1) + 1)%nat) by (rewrite (Forall2_len _ _ _ F), table_length by (assumption || lia); rewrite Lb; reflexivity).
      assert (Re : Forall (reachable p) l).
      { apply Forall_forall. intros q Q. apply (In_nth _ _ (bofZ 0, bofZ 0)) in Q as (k & K & <-). apply (F2_nth _ _ _ k (bofZ 0, bofZ 0) (0, 0) F K). }
      destruct (findClosest_double p (bofZ 0, bofZ 0) l) as (k & Ek & K & Best); [intros X; rewrite X in Ll; rewrite Nat.add_1_r in Ll; discriminate | exact Re|]. rewrite Ek.
      destruct bs as [|d0 r0] eqn:E0; [congruence|]. rewrite <- E0 in *. rewrite Ll in K. destruct (locate_double d0 k K N) as (m & c2 & i & Eo & Hm & I & C2 & O). rewrite Eo. cbn [bind].
      set (b := nth m bs d0) in *. assert (Ib : In b bs) by (now apply nth_In).
      destruct (row_double b Ib) as (lb & Elb & Fb). rewrite Elb. cbn [bind]. pose proof (Forall2_len _ _ _ Fb) as Llb. rewrite row_length in Llb.
      destruct (refine_double b lb i (Hg b Ib) Llb I) as (q & d & Er & Hq & Fd & J). rewrite Er. cbn [bind]. destruct (hit_on b q d (Hg b Ib) Hq) as (t & T & Oq & Dq).
      assert (Good : forall V x, (forall b, In b bs -> speed (shape b) <= V) -> In x (table s (map shape bs)) -> val d <= vdist x (vpt p) + 4 / 5 * V / IZR (s - 1) + 12 * ulp1 * V + 3 * err_c).
      { intros V x HV X. assert (P : 0 < IZR (s - 1)) by (apply IZR_lt; lia). pose proof ulp1_pos as Up.
        assert (Lip : forall b u w e, In b bs -> unit u -> unit w -> Rabs (u - w) <= e -> vdist (curve (shape b) u) (curve (shape b) w) <= V * e).
        { intros b' u w e' Ib' Uu Uw De. eapply Rle_trans; [apply dist_lip; auto|]. specialize (HV b' Ib').
          assert (0 <= speed (shape b')).
          { pose proof (dist_lip (shape b') 0 1 (Dr b' Ib') ltac:(lra) ltac:(lra)) as Z0. pose proof (sqrt_pos (dist2 (curve (shape b') 0) (curve (shape b') 1))) as Z1. fold (vdist (curve (shape b') 0) (curve (shape b') 1)) in Z1.
            replace (Rabs (0 - 1)) with 1 in Z0 by (rewrite Rabs_left; lra). lra. }
          apply Rmult_le_compat; [assumption | apply Rabs_pos | assumption | assumption]. }
        assert (Smp : forall j, (j < length l)%nat -> Rabs (val (fd (nth j l (bofZ 0, bofZ 0)) p) - vdist (nth j (table s (map shape bs)) (0, 0)) (vpt p)) <= err_c + V * (2 * ulp1)).
        { intros j Hj. destruct (F2_nth _ _ _ j (bofZ 0, bofZ 0) (0, 0) F Hj) as (_ & b' & u & w & Ib' & Uu & Uw & De & -> & Er').
          pose proof (Lip b' u w _ Ib' Uu Uw De) as D1. pose proof (dist_tri (curve (shape b') u) (curve (shape b') w) (vpt p)) as T1. pose proof (dist_tri (curve (shape b') w) (curve (shape b') u) (vpt p)) as T2.
          rewrite (dist_sym (curve (shape b') w) (curve (shape b') u)) in T2. apply Rabs_le_inv in Er'. apply Rabs_le. lra. }
        apply (In_nth _ _ (0, 0)) in X as (kx & Kx & <-). rewrite <- (Forall2_len _ _ _ F) in Kx.
        pose proof (Smp kx Kx) as Sx. pose proof (Smp k ltac:(rewrite Ll; exact K)) as Sk. specialize (Best _ (nth_In l (bofZ 0, bofZ 0) Kx)). apply Rabs_le_inv in Sx, Sk.
        assert (Es : nth m (map shape bs) [] = shape b) by (rewrite (nth_indep _ [] (shape d0)) by (rewrite Lb; exact Hm); apply map_nth).
        assert (Node : exists j, (j = i \/ (j = i + 1 /\ i < s - 1))%Z /\ unit (IZR j / IZR (s - 1)) /\ nth k (table s (map shape bs)) (0, 0) = curve (shape b) (IZR j / IZR (s - 1))).
        { rewrite <- Es. destruct O as [(-> & ->)|(M1 & I1 & Ekk)].
          - exists (Z.of_nat k). split; [now left|]. rewrite <- INR_IZR_INZ. split; [apply row_in; lia|]. rewrite <- (table_nth1 s (map shape bs) 0 k) by lia. now rewrite Nat.mul_0_l.
          - exists (i + 1)%Z. split; [right; auto|]. replace (IZR (i + 1)) with (INR (Z.to_nat (i + 1))) by (rewrite INR_IZR_INZ, Z2Nat.id by lia; reflexivity). split; [apply row_in; lia|]. rewrite <- table_nth1 by lia. f_equal. nia. }
        destruct Node as (j & Hj & Uj & En). rewrite En in Sk. destruct (sample_near s i j ltac:(lia) I Hj) as (w & W & _ & Bw).
        assert (Hw : exists w', (1 <= w' <= 3)%nat /\ w = INR w') by (destruct W as [<-|[<-|[<-|[]]]]; [exists 1%nat | exists 2%nat | exists 3%nat]; split; (lia || simpl; lra)).
        destruct Hw as (w' & W' & ->). destruct (J w' W') as (u & Uu & Du & Bu). apply Rabs_le_inv in Bw, Bu.
        pose proof (Lip b u _ (8 * ulp1 + 4 / 5 / IZR (s - 1)) Ib Uu Uj ltac:(apply Rabs_le; lra)) as D1.
        pose proof (dist_tri (curve (shape b) u) (curve (shape b) (IZR j / IZR (s - 1))) (vpt p)) as T1.
        replace (4 / 5 * V / IZR (s - 1)) with (V * (4 / 5 / IZR (s - 1))) by (field; lra). lra. }
      destruct C2 as [->|(m' & Hm' & ->)].
      - exists d, q, b, t. auto 10.
      - set (b2 := nth m' bs d0) in *. assert (Ib2 : In b2 bs) by (now apply nth_In). destruct (row_double b2 Ib2) as (lb2 & Elb2 & Fb2). rewrite Elb2. cbn [bind]. pose proof (Forall2_len _ _ _ Fb2) as Llb2. rewrite row_length in Llb2.
        destruct (refine_double b2 lb2 0 (Hg b2 Ib2) Llb2 ltac:(lia)) as (q2 & d2 & Er2 & Hq2 & Fd2 & _). rewrite Er2. cbn [bind]. destruct (hit_on b2 q2 d2 (Hg b2 Ib2) Hq2) as (t2 & T2 & Oq2 & Dq2).
        destruct (nltb d2 d) eqn:Lt.
        + apply ltb_val in Lt; auto. exists d2, q2, b2, t2. split; [reflexivity|]. split; [exact Ib2|]. split; [exact T2|]. split; [exact Oq2|]. split; [exact Fd2|]. split; [exact Dq2|]. intros V x HV X. specialize (Good V x HV X). lra.
        + exists d, q, b, t. auto 10.
    Qed.
  End Table.
End Near.

(** ** The statements of the property file *)
Theorem closest_in_doubles {TO : TrigOps b64} (e : R) (M : R) (c : list (list (point b64))) (p : point b64) (s : Z) :
  0 <= e <= / 100 -> hypot_within e thypot -> M <= 2 ^ 50 ->
  c <> [] -> Forall (fun seg => (2 <= length seg <= 4)%nat /\ Forall (sized M) seg) c -> sized M p -> (2 <= s <= 200)%Z ->
  exists bc d q seg t, newContour c = Ok bc /\ snd (findClosestPoint bc p s) = Ok (d, q) /\ In seg c /\ 0 <= t <= 1 /\
    off (10 * ulp1 * M + 32 * tiny) q (curve (map vpt seg) t) /\ fin d /\ Rabs (val d - vdist (vpt q) (vpt p)) <= 5 * (e + ulp1) * M + 8 * tiny /\
    forall V x, (forall seg, In seg c -> speed (map vpt seg) <= V) -> In x (table s (map (map vpt) c)) ->
      val d <= vdist x (vpt p) + 4 / 5 * V / IZR (s - 1) + 12 * ulp1 * V + (15 * e + 75 * ulp1) * M + 216 * tiny.
Proof.
  intros He HH HM N F Hp Hs. assert (F2 : Forall few c) by (eapply Forall_impl; [|exact F]; intros ? [A _]; exact A).
  destruct (new_total c F2 N) as (bc & E & B & L). assert (Es : map shape (made_of c) = map (map vpt) c) by (unfold made_of; rewrite map_map; reflexivity).
  destruct (closest_double e He HH M HM p Hp s Hs (made_of c)) with (bc := bc) as (d & q & b & t & Ef & Ib & T & O & Fd & D & K); [| exact B | exact L | destruct c; [congruence | discriminate] |].
  - unfold made_of. apply Forall_forall. intros b Ib. apply in_map_iff in Ib as (seg & <- & I). rewrite Forall_forall in F. destruct (F seg I) as [A A']. split; [unfold order; cbn [cps]; lia | exact A'].
  - apply in_map_iff in Ib as (seg & <- & I). exists bc, d, q, seg, t. split; [exact E|]. split; [exact Ef|]. split; [exact I|]. split; [exact T|]. split; [exact O|]. split; [exact Fd|]. split; [exact D|].
    intros V x HV X. rewrite Es in K. specialize (K V x). unfold err_c, err_d, err_p in K.
    assert (val d <= vdist x (vpt p) + 4 / 5 * V / IZR (s - 1) + 12 * ulp1 * V + 3 * (5 * (e + ulp1) * M + 8 * tiny + 2 * (10 * ulp1 * M + 32 * tiny))).
    { apply K; [|exact X]. intros b Ib. apply in_map_iff in Ib as (seg' & <- & I'). now apply HV. }
    lra.
Qed.
Lemma hypot_exists : hypot_within ulp1 (fun x y => to_double (sqrt (val x ^ 2 + val y ^ 2))).
Proof.
  intros x y _ _ X Y. cbv zeta. set (h := sqrt (val x ^ 2 + val y ^ 2)). assert (P : 0 <= h) by apply sqrt_pos.
  assert (B : h <= 2 * 2 ^ 1000).
  { pose proof (dist_taxi (val x, val y) (0, 0)) as D. unfold vdist, dist2 in D. cbn [fst snd] in D. rewrite !Rminus_0_r in D. fold h in D. lra. }
  assert (Bh : Rabs h <= 2 * 2 ^ 1000) by (rewrite Rabs_pos_eq; assumption).
  destruct (to_double_val h) as [F V].
  { apply fl_size in Bh. pose proof tiny_60. apply Rle_lt_trans with (1 := Bh). unfold ProofDouble.top. rewrite two_pow.
    assert (bpow radix2 (Z.of_nat 1000) * 16 <= bpow radix2 emax) by (change 16 with (bpow radix2 4); rewrite <- bpow_plus; apply bpow_le; unfold emax; lia).
    assert (1 <= bpow radix2 (Z.of_nat 1000)) by (change 1 with (bpow radix2 0); apply bpow_le; lia). lra. }
  split; [exact F|]. rewrite V. pose proof (fl_err h) as E. rewrite (Rabs_pos_eq h P) in E. pose proof tiny_pos. lra.
Qed.
