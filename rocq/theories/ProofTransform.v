(** Proofs about Transform.py. *)
From Coq Require Import List ZArith Bool Reals Lra Lia Psatz.
From Verif Require Import Py Inst SpecGeom SpecTransform MTransform.
Import ListNotations.
Local Open Scope R_scope.

Ltac utr := cbn; unfold _scaleMatrix, _shearMatrix, _mirrorMatrix, _rotationMatrix, _perspectiveMatrix,
  _identityMatrix, _translateMatrix, _matrix; cbn; numR.


Lemma unpack3_Ok {A} (l : list A) v : unpack3 l = Ok v -> let '(a, b, c) := v in l = [a; b; c].
Proof. destruct l as [|a [|b [|c [|d l]]]]; simpl; try discriminate. intros H; injection H as <-; auto. Qed.

Ltac len3 H :=
  match type of H with
  | length ?l = 3%nat =>
      let a := fresh "a" in let b := fresh "b" in let c := fresh "c" in
      destruct l as [|a [|b [|c [|? ?]]]]; try discriminate H; clear H
  end.
Lemma wf3_inv {T} (m : matrix T) : wf3 m ->
  exists a b c d e f g h i, m = [[a; b; c]; [d; e; f]; [g; h; i]].
Proof.
  intros [H F]. destruct m as [|r1 [|r2 [|r3 [|? ?]]]]; try discriminate H.
  repeat match goal with H : Forall _ (_ :: _) |- _ => inversion H; clear H; subst end.
  repeat match goal with H : length ?l = 3%nat |- _ => is_var l; len3 H end. repeat eexists.
Qed.
Lemma wf3_mk {T} (a b c d e f g h i : T) : wf3 [[a; b; c]; [d; e; f]; [g; h; i]].
Proof. split; auto; repeat constructor. Qed.

Lemma mulRow_inv {T} `{NumOps T} (r : row T) m v :
  multiplyRowByMatrix r m = Ok v -> length r = 3%nat /\ wf3 m.
Proof.
  unfold multiplyRowByMatrix. intros E.
  destruct r as [|r1 [|r2 [|r3 [|? ?]]]]; try (simpl in E; discriminate E).
  destruct m as [|m1 [|m2 [|m3 [|? ?]]]]; try (simpl in E; discriminate E).
  destruct m1 as [|? [|? [|? [|? ?]]]]; try (simpl in E; discriminate E).
  destruct m2 as [|? [|? [|? [|? ?]]]]; try (simpl in E; discriminate E).
  destruct m3 as [|? [|? [|? [|? ?]]]]; try (simpl in E; discriminate E).
  split; [reflexivity | apply wf3_mk].
Qed.

(** Product of 3x3 matrices: always defined and 3x3. *)
Lemma mul_wf (m1 m2 : mat) : wf3 m1 -> wf3 m2 ->
  exists m, multiplyMatrixByMatrix m1 m2 = Ok m /\ wf3 m.
Proof.
  intros H1 H2. destruct (wf3_inv _ H1) as (?&?&?&?&?&?&?&?&?&->).
  destruct (wf3_inv _ H2) as (?&?&?&?&?&?&?&?&?&->).
  eexists; split; [reflexivity | apply wf3_mk].
Qed.
Lemma mul_assoc (m1 m2 m3 : mat) : wf3 m1 -> wf3 m2 -> wf3 m3 ->
  (let* a := multiplyMatrixByMatrix m1 m2 in multiplyMatrixByMatrix a m3) =
  (let* b := multiplyMatrixByMatrix m2 m3 in multiplyMatrixByMatrix m1 b).
Proof.
  intros H1 H2 H3. destruct (wf3_inv _ H1) as (?&?&?&?&?&?&?&?&?&->).
  destruct (wf3_inv _ H2) as (?&?&?&?&?&?&?&?&?&->).
  destruct (wf3_inv _ H3) as (?&?&?&?&?&?&?&?&?&->).
  cbn. numR. repeat (f_equal; try ring).
Qed.

Lemma fold_wf (ms : list mat) (m : mat) : wf3 m -> Forall wf3 ms ->
  exists t, foldM multiplyMatrixByMatrix ms m = Ok t /\ wf3 t.
Proof.
  intros Hm H; revert m Hm; induction H as [|x ms Hx H IH]; intros m Hm; simpl; eauto.
  destruct (mul_wf m x Hm Hx) as (t & -> & Ht). simpl; auto.
Qed.
Lemma fold_mul (ms : list mat) (m x : mat) : wf3 m -> wf3 x -> Forall wf3 ms ->
  exists t, foldM multiplyMatrixByMatrix ms x = Ok t /\
    (let* y := multiplyMatrixByMatrix m x in foldM multiplyMatrixByMatrix ms y) =
    multiplyMatrixByMatrix m t.
Proof.
  intros Hm Hx H; revert x Hx; induction H as [|z ms Hz H IH]; intros x Hx; simpl.
  - exists x; split; auto. destruct (multiplyMatrixByMatrix m x); auto.
  - destruct (mul_wf x z Hx Hz) as (t & Et & Ht). rewrite Et; simpl.
    destruct (IH t Ht) as (u & Eu & E). exists u; split; auto. rewrite <- E.
    pose proof (mul_assoc m x z Hm Hx Hz) as A. rewrite Et in A; simpl in A. rewrite <- A.
    destruct (multiplyMatrixByMatrix m x); simpl; auto.
Qed.

Theorem concat_regroup (ms1 ms2 : list mat) :
  ms1 <> [] -> ms2 <> [] -> Forall wf3 ms1 -> Forall wf3 ms2 ->
  exists a b c, mkTransform ms1 = Ok a /\ mkTransform ms2 = Ok b /\
    mkTransform (ms1 ++ ms2) = Ok c /\ mkTransform [a; b] = Ok c.
Proof.
  intros N1 N2 F1 F2. destruct ms1 as [|m ms1]; [congruence|]. destruct ms2 as [|x ms2]; [congruence|].
  inversion F1; inversion F2; subst. simpl.
  destruct (fold_wf ms1 m) as (a & Ea & Ha); auto.
  destruct (fold_mul ms2 a x) as (b & Eb & E); auto.
  destruct (fold_wf ms2 x) as (b' & Eb' & Hb); auto.
  rewrite Eb in Eb'; injection Eb' as <-.
  destruct (mul_wf a b Ha Hb) as (c & Ec & _).
  exists a, b, c; repeat split; auto.
  - rewrite foldM_app, Ea; simpl. now rewrite E.
  - now rewrite Ec.
Qed.

(** ** Application to a point *)
Lemma apply_wf (m : mat) (x y : R) a b p c d q mm n s :
  m = [[a; b; p]; [c; d; q]; [mm; n; s]] ->
  applyToPoint m (x, y) =
    (let w := x * p + y * q + 1 * s in
     let* u := ndiv (x * a + y * c + 1 * mm) w in
     let* v := ndiv (x * b + y * d + 1 * n) w in Ok (u, v)).
Proof. intros ->. reflexivity. Qed.

Lemma apply_Ok_inv (m : mat) (p q : point R) : applyToPoint m p = Ok q ->
  exists a b c d e f g h i, m = [[a; b; c]; [d; e; f]; [g; h; i]] /\
    let w := fst p * c + snd p * f + i in w <> 0 /\
    q = ((fst p * a + snd p * d + g) / w, (fst p * b + snd p * e + h) / w).
Proof.
  destruct p as [x y]. intros H.
  assert (W : wf3 m).
  { unfold applyToPoint in H. apply bind_Ok in H as (v & H & _). apply mulRow_inv in H; tauto. }
  destruct (wf3_inv m W) as (a&b&c&d&e&f&g&h&i&->). repeat eexists; cbn in H; numR.
  - simpl in *. apply bind_Ok in H as (u & H1 & _). apply ndivR_inv in H1 as [H1 _].
    rewrite Rmult_1_l in H1; exact H1.
  - simpl in *. apply bind_Ok in H as (u & H1 & H). apply bind_Ok in H as (v & H2 & H).
    apply ndivR_inv in H1 as [_ ->]. apply ndivR_inv in H2 as [_ ->]. injection H as <-.
    now rewrite !Rmult_1_l.
Qed.
Lemma apply_Ok (a b c d e f g h i x y : R) : x * c + y * f + i <> 0 ->
  applyToPoint [[a; b; c]; [d; e; f]; [g; h; i]] (x, y) =
  Ok ((x * a + y * d + g) / (x * c + y * f + i), (x * b + y * e + h) / (x * c + y * f + i)).
Proof.
  intros H. cbn. numR. rewrite !Rmult_1_l. rewrite ndivR by auto; simpl. rewrite ndivR by auto; auto.
Qed.
Lemma apply_affine (a b d e g h x y : R) :
  applyToPoint [[a; b; 0]; [d; e; 0]; [g; h; 1]] (x, y) = Ok (x * a + y * d + g, x * b + y * e + h).
Proof.
  rewrite apply_Ok by lra. apply Ok_pair; field.
Qed.

Lemma apply_mul (m1 m2 : mat) (p q r : point R) :
  applyToPoint m1 p = Ok q -> applyToPoint m2 q = Ok r ->
  exists m, multiplyMatrixByMatrix m1 m2 = Ok m /\ applyToPoint m p = Ok r.
Proof.
  intros H1 H2. apply apply_Ok_inv in H1 as (a&b&c&d&e&f&g&h&i&->&W1&->).
  apply apply_Ok_inv in H2 as (a'&b'&c'&d'&e'&f'&g'&h'&i'&->&W2&->). destruct p as [x y].
  cbn [fst snd] in *. eexists; split; [reflexivity|]. numR.
  set (w := x * c + y * f + i) in *.
  set (u := (x * a + y * d + g) / w) in *. set (v := (x * b + y * e + h) / w) in *.
  assert (Eu : x * a + y * d + g = w * u) by (unfold u; field; auto).
  assert (Ev : x * b + y * e + h = w * v) by (unfold v; field; auto).
  assert (L : forall k l o, x * (a * k + b * l + c * o) + y * (d * k + e * l + f * o) + (g * k + h * l + i * o)
              = w * (u * k + v * l + o)).
  { intros. transitivity ((x * a + y * d + g) * k + (x * b + y * e + h) * l + w * o); [unfold w; ring|].
    rewrite Eu, Ev; ring. }
  rewrite apply_Ok; rewrite !L.
  - apply Ok_pair; field; auto.
  - apply Rmult_integral_contrapositive; auto.
Qed.


Lemma apply_each_step (a b c d e f g h i x y : R) ms : x * c + y * f + i <> 0 ->
  apply_each ([[a; b; c]; [d; e; f]; [g; h; i]] :: ms) (x, y) =
  apply_each ms ((x * a + y * d + g) / (x * c + y * f + i), (x * b + y * e + h) / (x * c + y * f + i)).
Proof. intros W. unfold apply_each at 1. cbn [mkTransform concatenateMatrices foldM bind]. now rewrite apply_Ok. Qed.
Lemma apply_each_fold (ms : list mat) (m : mat) (p q r : point R) :
  applyToPoint m p = Ok q -> apply_each ms q = Ok r ->
  exists t, foldM multiplyMatrixByMatrix ms m = Ok t /\ applyToPoint t p = Ok r.
Proof.
  revert m q; induction ms as [|x ms IH]; intros m q H1 H2; simpl in *.
  - injection H2 as <-; eauto.
  - apply bind_Ok in H2 as (q' & H3 & H2).
    destruct (apply_mul m x p q q' H1 H3) as (m' & Em & H4).
    rewrite Em; simpl. eapply IH; eauto.
Qed.
Theorem concat_apply (ms : list mat) (p q : point R) :
  ms <> [] -> apply_each ms p = Ok q ->
  exists t, mkTransform ms = Ok t /\ applyToPoint t p = Ok q.
Proof.
  destruct ms as [|m ms]; [congruence|]. intros _ H. simpl in H.
  apply bind_Ok in H as (q' & H1 & H2). simpl. eapply apply_each_fold; eauto.
Qed.

(** ** The named transforms *)
Section Trig.
Variable rnd : R -> R.
Local Instance tr : TrigOps R := RTrig rnd.

Theorem translate_spec (a b p : point R) :
  exists t, translate a b = Ok t /\ applyToPoint t p = Ok (vadd p (vsub b a)).
Proof.
  destruct a, b, p. eexists; split; [utr; reflexivity|]. rewrite apply_affine.
  unfold vadd, vsub; simpl. apply Ok_pair; ring.
Qed.
Theorem scale_spec (sx sy : R) (p : point R) :
  exists t, scale sx sy = Ok t /\ applyToPoint t p = Ok (sx * fst p, sy * snd p).
Proof. destruct p. eexists; split; [utr; reflexivity|]. rewrite apply_affine. simpl. apply Ok_pair; ring. Qed.
Theorem shear_spec (sx sy : R) (p : point R) :
  exists t, shear sx sy = Ok t /\ applyToPoint t p = Ok (fst p + sx * snd p, snd p + sy * fst p).
Proof. destruct p. eexists; split; [utr; reflexivity|]. rewrite apply_affine. simpl. apply Ok_pair; ring. Qed.
Theorem mirror_spec (xAxis yAxis : bool) (p : point R) :
  exists t, mirror xAxis yAxis = Ok t /\
    applyToPoint t p = Ok ((if yAxis then - fst p else fst p), (if xAxis then - snd p else snd p)).
Proof.
  destruct p. destruct xAxis, yAxis; eexists; (split; [utr; reflexivity|]); rewrite apply_affine; simpl;
    apply Ok_pair; ring.
Qed.
Theorem mirrorAround_spec (c : point R) (xAxis yAxis : bool) (p : point R) :
  exists t, mirrorAround c xAxis yAxis = Ok t /\
    applyToPoint t p = Ok ((if yAxis then 2 * fst c - fst p else fst p),
                           (if xAxis then 2 * snd c - snd p else snd p)).
Proof.
  destruct c as [cx cy], p as [x y].
  destruct xAxis, yAxis; eexists; (split; [utr; reflexivity|]); rewrite apply_Ok by lra; simpl;
    apply Ok_pair; field.
Qed.

Theorem translate_full (a b p : point R) :
  exists t t', translate a b = Ok t /\ translate b a = Ok t' /\
    applyToPoint t p = Ok (vadd p (vsub b a)) /\ applyToPoint t a = Ok b /\
    applyToPoint t' (vadd p (vsub b a)) = Ok p.
Proof.
  destruct (translate_spec a b p) as (t & E & H1). destruct (translate_spec a b a) as (t1 & E1 & H2).
  destruct (translate_spec b a (vadd p (vsub b a))) as (t2 & E2 & H3).
  rewrite E in E1; injection E1 as <-. exists t, t2. repeat split; auto.
  - rewrite H2. destruct a, b; unfold vadd, vsub; simpl. apply Ok_pair; ring.
  - rewrite H3. destruct a, b, p; unfold vadd, vsub; simpl. apply Ok_pair; ring.
Qed.
Theorem mirror_full (xAxis yAxis : bool) (p : point R) :
  exists t, mirror xAxis yAxis = Ok t /\
    let q := (if yAxis then - fst p else fst p, if xAxis then - snd p else snd p) in
    applyToPoint t p = Ok q /\ applyToPoint t q = Ok p.
Proof.
  destruct (mirror_spec xAxis yAxis p) as (t & E & H1).
  destruct (mirror_spec xAxis yAxis (if yAxis then - fst p else fst p, if xAxis then - snd p else snd p)) as (t1 & E1 & H2).
  rewrite E in E1; injection E1 as <-. exists t. split; auto. split; auto.
  rewrite H2. destruct p, xAxis, yAxis; simpl; apply Ok_pair; ring.
Qed.
Theorem mirrorAround_full (c : point R) (xAxis yAxis : bool) (p : point R) :
  exists t, mirrorAround c xAxis yAxis = Ok t /\
    let q := (if yAxis then 2 * fst c - fst p else fst p, if xAxis then 2 * snd c - snd p else snd p) in
    applyToPoint t p = Ok q /\ applyToPoint t q = Ok p /\ applyToPoint t c = Ok c.
Proof.
  destruct (mirrorAround_spec c xAxis yAxis p) as (t & E & H1).
  destruct (mirrorAround_spec c xAxis yAxis
    (if yAxis then 2 * fst c - fst p else fst p, if xAxis then 2 * snd c - snd p else snd p)) as (t1 & E1 & H2).
  rewrite E in E1; injection E1 as <-.
  destruct (mirrorAround_spec c xAxis yAxis c) as (t1 & E1 & H3).
  rewrite E in E1; injection E1 as <-. exists t. split; auto. split; auto. split.
  - rewrite H2. destruct p, xAxis, yAxis; simpl; apply Ok_pair; ring.
  - rewrite H3. destruct c, xAxis, yAxis; simpl; apply Ok_pair; ring.
Qed.

(** ** Rotation *)
Lemma rad_assoc (d : R) : d * (PI / 180) = d * PI / 180.
Proof. field. Qed.
Lemma rotationAbout_raw (c : point R) (deg : R) (ccw : bool) (p : point R) :
  exists t, rotationAbout c deg ccw = Ok t /\
   let s := rnd (sin (deg * PI / 180)) in let k := rnd (cos (deg * PI / 180)) in
   let v := vsub p c in
   applyToPoint t p = Ok (vadd c (if ccw then (k * fst v - s * snd v, s * fst v + k * snd v)
                                  else (k * fst v + s * snd v, - s * fst v + k * snd v))).
Proof.
  destruct c as [cx cy], p as [x y]. destruct ccw; eexists; (split; [utr; reflexivity|]);
    unfold vadd, vsub; cbv zeta; rewrite apply_Ok by lra; simpl; apply Ok_pair;
    unfold tf_sin, tf_cos, radians; numR; rewrite ?rad_assoc; field.
Qed.
End Trig.

Theorem rotation_exact (c : point R) (deg : R) (ccw : bool) (p : point R) :
  let tr := RExact in
  exists t t' q, rotationAbout c deg ccw = Ok t /\ rotationAbout c deg (negb ccw) = Ok t' /\
    applyToPoint t p = Ok q /\ applyToPoint t' q = Ok p /\
    q = vadd c (rot (if ccw then deg * PI / 180 else - (deg * PI / 180)) (vsub p c)).
Proof.
  destruct (rotationAbout_raw (fun x => x) c deg ccw p) as (t & E & H).
  edestruct (rotationAbout_raw (fun x => x) c deg (negb ccw)) as (t' & E' & H').
  cbv zeta. do 3 eexists. split; [exact E|]. split; [exact E'|]. split; [exact H|]. split.
  - rewrite H'. destruct c as [cx cy], p as [px py]. cbv zeta. pose proof (sin2_cos2 (deg * PI / 180)) as N.
    unfold Rsqr in N. set (s := sin _) in *. set (k := cos _) in *.
    destruct ccw; unfold vadd, vsub; simpl; apply Ok_pair.
    + replace px with (cx + (s * s + k * k) * (px - cx)) at 3 by (rewrite N; ring). ring.
    + replace py with (cy + (s * s + k * k) * (py - cy)) at 3 by (rewrite N; ring). ring.
    + replace px with (cx + (s * s + k * k) * (px - cx)) at 3 by (rewrite N; ring). ring.
    + replace py with (cy + (s * s + k * k) * (py - cy)) at 3 by (rewrite N; ring). ring.
  - destruct c as [cx cy], p as [px py]. unfold rot, vadd, vsub; destruct ccw; cbn [fst snd].
    + f_equal; ring.
    + rewrite sin_neg, cos_neg. f_equal; ring.
Qed.

(** The squared norm of the rounded (cos, sin) pair. *)
Lemma rounded_norm (a e1 e2 : R) (d : R) : 0 <= d -> d <= / 2 * / 10 ^ 15 ->
  Rabs e1 <= d -> Rabs e2 <= d ->
  Rabs ((cos a + e1) ^ 2 + (sin a + e2) ^ 2 - 1) <= 4 * / 10 ^ 15.
Proof.
  intros D0 D H1 H2. pose proof (sin2_cos2 a) as E. unfold Rsqr in E.
  pose proof (COS_bound a) as [C1 C2]. pose proof (SIN_bound a) as [S1 S2].
  replace ((cos a + e1) ^ 2 + (sin a + e2) ^ 2 - 1) with (2 * (cos a * e1) + 2 * (sin a * e2) + (e1 * e1 + e2 * e2))
    by (replace 1 with (sin a * sin a + cos a * cos a); ring).
  assert (A1 : Rabs (cos a * e1) <= d).
  { rewrite Rabs_mult. replace d with (1 * d) by ring. apply Rmult_le_compat; auto using Rabs_pos.
    apply Rabs_le; lra. }
  assert (A2 : Rabs (sin a * e2) <= d).
  { rewrite Rabs_mult. replace d with (1 * d) by ring. apply Rmult_le_compat; auto using Rabs_pos.
    apply Rabs_le; lra. }
  assert (D1 : d <= 1). { eapply Rle_trans; [exact D|]. simpl; lra. }
  assert (A3 : Rabs (e1 * e1) <= d).
  { rewrite Rabs_mult. replace d with (1 * d) by ring. apply Rmult_le_compat; auto using Rabs_pos; lra. }
  assert (A4 : Rabs (e2 * e2) <= d).
  { rewrite Rabs_mult. replace d with (1 * d) by ring. apply Rmult_le_compat; auto using Rabs_pos; lra. }
  assert (B : forall u w, Rabs u <= w -> - w <= u <= w).
  { intros u w Hu. split; [pose proof (Rle_abs (- u)); rewrite Rabs_Ropp in *; lra | pose proof (Rle_abs u); lra]. }
  apply B in A1; apply B in A2; apply B in A3; apply B in A4. apply Rabs_le.
  assert (8 * d <= 4 * / 10 ^ 15) by lra. split; try lra.
Qed.

Lemma err_eq x y d : Rabs (x - y) <= d -> exists e, x = y + e /\ Rabs e <= d.
Proof. intros H; exists (x - y); split; auto; ring. Qed.

Section RotationPy.
Local Instance trpy : TrigOps R := RPy.

Definition rad (deg : R) : R := deg * PI / 180.

Lemma rounded_pair (deg : R) :
  Rabs (round15 (cos (rad deg)) ^ 2 + round15 (sin (rad deg)) ^ 2 - 1) <= 4 * / 10 ^ 15.
Proof.
  destruct (err_eq _ _ _ (round15_err (cos (rad deg)))) as (e1 & -> & H1).
  destruct (err_eq _ _ _ (round15_err (sin (rad deg)))) as (e2 & -> & H2).
  apply (rounded_norm _ _ _ (/ 2 * / 10 ^ 15)); auto; try lra.
Qed.

Theorem rotation_fixes_centre (c : point R) (deg : R) (ccw : bool) :
  exists t, rotationAbout c deg ccw = Ok t /\ applyToPoint t c = Ok c.
Proof.
  destruct (rotationAbout_raw round15 c deg ccw c) as (t & Et & H).
  exists t; split; auto. rewrite H. destruct c as [cx cy]. unfold vadd, vsub.
  destruct ccw; simpl; apply Ok_pair; ring.
Qed.

Theorem rotation_distance (c : point R) (deg : R) (ccw : bool) (p1 p2 : point R) :
  exists t q1 q2, rotationAbout c deg ccw = Ok t /\ applyToPoint t p1 = Ok q1 /\
    applyToPoint t p2 = Ok q2 /\
    Rabs (dist2 q1 q2 - dist2 p1 p2) <= 4 * / 10 ^ 15 * dist2 p1 p2.
Proof.
  destruct (rotationAbout_raw round15 c deg ccw p1) as (t & Et & H1).
  destruct (rotationAbout_raw round15 c deg ccw p2) as (t' & Et' & H2).
  change (rotationAbout c deg ccw = Ok t) in Et. change (rotationAbout c deg ccw = Ok t') in Et'.
  rewrite Et in Et'; injection Et' as <-.
  do 3 eexists; split; [exact Et|]; split; [exact H1|]; split; [exact H2|].
  pose proof (rounded_pair deg) as N. unfold rad in N.
  set (k := round15 (cos _)) in *. set (s := round15 (sin _)) in *.
  destruct c as [cx cy], p1 as [x1 y1], p2 as [x2 y2].
  assert (E : forall q1 q2 : pt,
    q1 = vadd (cx, cy) (if ccw then (k * (x1 - cx) - s * (y1 - cy), s * (x1 - cx) + k * (y1 - cy))
                        else (k * (x1 - cx) + s * (y1 - cy), - s * (x1 - cx) + k * (y1 - cy))) ->
    q2 = vadd (cx, cy) (if ccw then (k * (x2 - cx) - s * (y2 - cy), s * (x2 - cx) + k * (y2 - cy))
                        else (k * (x2 - cx) + s * (y2 - cy), - s * (x2 - cx) + k * (y2 - cy))) ->
    dist2 q1 q2 - dist2 (x1, y1) (x2, y2) = (k ^ 2 + s ^ 2 - 1) * dist2 (x1, y1) (x2, y2)).
  { intros q1 q2 -> ->. unfold dist2, vadd; destruct ccw; simpl; ring. }
  erewrite E; [|destruct ccw; reflexivity|destruct ccw; reflexivity].
  rewrite Rabs_mult. assert (0 <= dist2 (x1, y1) (x2, y2)).
  { unfold dist2; apply Rplus_le_le_0_compat; apply pow2_ge_0. }
  rewrite (Rabs_pos_eq (dist2 _ _)) by auto. apply Rmult_le_compat_r; auto.
Qed.

(** The image is the true rotation up to the rounding of sine and cosine. *)
Theorem rotation_direction (c : point R) (deg : R) (ccw : bool) (p : point R) :
  exists t q, rotationAbout c deg ccw = Ok t /\ applyToPoint t p = Ok q /\
    let v := vsub p c in
    let w := vadd c (rot (if ccw then rad deg else - rad deg) v) in
    Rabs (fst q - fst w) <= / 2 * / 10 ^ 15 * (Rabs (fst v) + Rabs (snd v)) /\
    Rabs (snd q - snd w) <= / 2 * / 10 ^ 15 * (Rabs (fst v) + Rabs (snd v)).
Proof.
  destruct (rotationAbout_raw round15 c deg ccw p) as (t & Et & H).
  do 2 eexists; split; [exact Et|]; split; [exact H|].
  fold (rad deg). destruct (err_eq _ _ _ (round15_err (cos (rad deg)))) as (e1 & -> & H1).
  destruct (err_eq _ _ _ (round15_err (sin (rad deg)))) as (e2 & -> & H2).
  set (d := / 2 * / 10 ^ 15) in *. cbv zeta. set (v := vsub p c). destruct v as [x y].
  assert (B : forall a b e f, Rabs e <= d -> Rabs f <= d -> Rabs (e * a + f * b) <= d * (Rabs a + Rabs b)).
  { intros a b e f He Hf. eapply Rle_trans; [apply Rabs_triang|]. rewrite !Rabs_mult, Rmult_plus_distr_l.
    apply Rplus_le_compat; apply Rmult_le_compat_r; auto using Rabs_pos. }
  assert (O : forall e, Rabs e <= d -> Rabs (- e) <= d) by (intros; now rewrite Rabs_Ropp).
  unfold vadd, rot; destruct ccw; rewrite ?cos_neg, ?sin_neg; cbn [fst snd]; split.
  - replace (_ - _) with (e1 * x + (- e2) * y) by ring; auto.
  - replace (_ - _) with (e2 * x + e1 * y) by ring; auto.
  - replace (_ - _) with (e1 * x + e2 * y) by ring; auto.
  - replace (_ - _) with ((- e2) * x + e1 * y) by ring; auto.
Qed.

(** Turning back: the result is the starting point up to a factor near 1 about the centre. *)
Theorem rotation_back (c : point R) (deg : R) (ccw : bool) (p : point R) :
  exists t t' q r, rotationAbout c deg ccw = Ok t /\ rotationAbout c deg (negb ccw) = Ok t' /\
    applyToPoint t p = Ok q /\ applyToPoint t' q = Ok r /\
    exists k, Rabs (k - 1) <= 4 * / 10 ^ 15 /\ vsub r c = vscale k (vsub p c).
Proof.
  destruct (rotationAbout_raw round15 c deg ccw p) as (t & Et & H).
  edestruct (rotationAbout_raw round15 c deg (negb ccw)) as (t' & Et' & H').
  do 4 eexists; split; [exact Et|]; split; [exact Et'|]; split; [exact H|]; split; [exact H'|].
  exists (round15 (cos (rad deg)) ^ 2 + round15 (sin (rad deg)) ^ 2); split; [apply rounded_pair|].
  fold (rad deg). set (k := round15 (cos _)). set (s := round15 (sin _)).
  destruct c, p. unfold vsub, vadd, vscale. destruct ccw; cbn [fst snd negb]; f_equal; ring.
Qed.

(** Quarter turns are exact. *)
Lemma sincos_quarter (k : Z) :
  (sin (IZR k * PI / 2), cos (IZR k * PI / 2)) =
  match (k mod 4)%Z with 0%Z => (0, 1) | 1%Z => (1, 0) | 2%Z => (0, -1) | _ => (-1, 0) end.
Proof.
  pose proof (Z.div_mod k 4 ltac:(lia)) as E. pose proof (Z.mod_pos_bound k 4 ltac:(lia)) as B.
  set (q := (k / 4)%Z) in *. set (r := (k mod 4)%Z) in *. rewrite E.
  assert (P : forall x, sin (x + 2 * IZR q * PI) = sin x /\ cos (x + 2 * IZR q * PI) = cos x).
  { intros x. destruct (Z_le_gt_dec 0 q) as [Q|Q].
    - replace q with (Z.of_nat (Z.to_nat q)) by lia. rewrite <- INR_IZR_INZ. split; [apply sin_period | apply cos_period].
    - pose proof (sin_period (x + 2 * IZR q * PI) (Z.to_nat (- q))) as S.
      pose proof (cos_period (x + 2 * IZR q * PI) (Z.to_nat (- q))) as C.
      rewrite INR_IZR_INZ, Z2Nat.id, opp_IZR in S, C by lia.
      replace (x + 2 * IZR q * PI + 2 * - IZR q * PI) with x in S, C by ring. auto. }
  replace (IZR (4 * q + r) * PI / 2) with (IZR r * PI / 2 + 2 * IZR q * PI)
    by (rewrite plus_IZR, mult_IZR; field).
  destruct (P (IZR r * PI / 2)) as [-> ->].
  assert (C : (r = 0 \/ r = 1 \/ r = 2 \/ r = 3)%Z) by lia.
  destruct C as [-> | [-> | [-> | ->]]].
  - replace (0 * PI / 2) with 0 by field. now rewrite sin_0, cos_0.
  - replace (1 * PI / 2) with (PI / 2) by field. now rewrite sin_PI2, cos_PI2.
  - replace (2 * PI / 2) with PI by field. now rewrite sin_PI, cos_PI.
  - replace (3 * PI / 2) with (3 * (PI / 2)) by field. rewrite sin_3PI2, cos_3PI2; auto.
Qed.
Theorem rotation_quarter (c : point R) (k : Z) (ccw : bool) (p : point R) :
  exists t, rotationAbout c (90 * IZR k) ccw = Ok t /\
    applyToPoint t p = Ok (vadd c (quarter_turns (if ccw then k else - k) (vsub p c))).
Proof.
  destruct (rotationAbout_raw round15 c (90 * IZR k) ccw p) as (t & Et & H).
  exists t; split; auto. rewrite H. clear H Et.
  replace (90 * IZR k * PI / 180) with (IZR k * PI / 2) by field.
  pose proof (sincos_quarter k) as Q.
  set (v := vsub p c). destruct v as [x y]. unfold vadd, quarter_turns. destruct c as [cx cy].
  pose proof (Z.mod_pos_bound k 4 ltac:(lia)) as B.
  assert (N : ((- k) mod 4 = (4 - k mod 4) mod 4)%Z).
  { rewrite Zminus_mod_idemp_r. replace (4 - k)%Z with (- k + 1 * 4)%Z by ring. now rewrite Z_mod_plus_full. }
  assert (C : (k mod 4 = 0 \/ k mod 4 = 1 \/ k mod 4 = 2 \/ k mod 4 = 3)%Z) by lia.
  destruct ccw; [|rewrite N];
  (destruct C as [C | [C | [C | C]]]; rewrite C in *; injection Q as -> ->;
   rewrite ?round15_IZR; cbn [fst snd]; simpl; apply Ok_pair; ring).
Qed.
End RotationPy.

(** ** Nested application is pointwise (any number type) *)
Section Pointwise.
  Context {T : Type} `{NumOps T}.
  Variable t : matrix T.

  Theorem applyToSegment_iff s s' :
    applyToSegment t s = Ok s' <-> Forall2 (fun p q => applyToPoint t p = Ok q) s s'.
  Proof. apply mapM_Ok. Qed.
  Theorem applyToContour_iff c c' :
    applyToContour t c = Ok c' <-> Forall2 (Forall2 (fun p q => applyToPoint t p = Ok q)) c c'.
  Proof.
    etransitivity; [apply mapM_Ok|].
    split; intros F; induction F; constructor; auto; apply applyToSegment_iff; auto.
  Qed.
  Theorem applyToContours_iff cs cs' :
    applyToContours t cs = Ok cs' <->
    Forall2 (Forall2 (Forall2 (fun p q => applyToPoint t p = Ok q))) cs cs'.
  Proof.
    etransitivity; [apply mapM_Ok|].
    split; intros F; induction F; constructor; auto; apply applyToContour_iff; auto.
  Qed.

  Lemma mapM_Err_in {A B} (f : A -> res B) l e : mapM f l = Err e -> exists a, In a l /\ f a = Err e.
  Proof. rewrite mapM_Err. intros (l1 & a & l2 & bs & -> & _ & E). exists a; split; auto. apply in_elt. Qed.
  Lemma mapM_in_Err {A B} (f : A -> res B) l a e :
    In a l -> f a = Err e -> exists e', mapM f l = Err e'.
  Proof.
    intros Hin Ha. destruct (mapM f l) eqn:E; eauto.
    apply mapM_Ok in E. apply (In_nth_error) in Hin as [i Hi].
    assert (X : exists b, f a = Ok b).
    { clear Ha. revert i Hi; induction E; intros [|i] Hi; try discriminate; simpl in Hi; eauto.
      injection Hi as ->; eauto. }
    destruct X; congruence.
  Qed.

  Theorem applyToContours_raises cs :
    (forall e, applyToContours t cs = Err e ->
       exists p, In p (concat (concat cs)) /\ applyToPoint t p = Err e) /\
    (forall p e, In p (concat (concat cs)) -> applyToPoint t p = Err e ->
       exists e', applyToContours t cs = Err e').
  Proof.
    split.
    - intros e E. apply mapM_Err_in in E as (c & Hc & E). apply mapM_Err_in in E as (s & Hs & E).
      apply mapM_Err_in in E as (p & Hp & E). exists p; split; auto.
      apply in_concat. exists s; split; auto. apply in_concat; eauto.
    - intros p e Hp E. apply in_concat in Hp as (s & Hs & Hp). apply in_concat in Hs as (c & Hc & Hs).
      destruct (mapM_in_Err (applyToPoint t) s p e Hp E) as (e1 & E1).
      destruct (mapM_in_Err (applyToSegment t) c s e1 Hs E1) as (e2 & E2).
      apply (mapM_in_Err (applyToContour t) cs c e2 Hc E2).
  Qed.

  Lemma f2_first {A B} (R : A -> B -> Prop) s s' p :
    Forall2 R s s' -> seg_first s = Some p -> exists q, seg_first s' = Some q /\ R p q.
  Proof. destruct 1; simpl; [discriminate|]. intros E; injection E as ->; eauto. Qed.
  Lemma f2_last {A B} (R : A -> B -> Prop) s s' p :
    Forall2 R s s' -> seg_last s = Some p -> exists q, seg_last s' = Some q /\ R p q.
  Proof.
    induction 1 as [|x y s s' Hxy F IH]; simpl; [discriminate|].
    destruct F as [|x2 y2 s s' H2 F]; intros E; [injection E as ->; eauto|]. auto.
  Qed.
  Theorem applyToContour_connected c c' :
    connected c -> applyToContour t c = Ok c' -> connected c'.
  Proof.
    rewrite applyToContour_iff. intros Hc F; revert Hc.
    induction F as [|s s' c c' Hs F IH]; simpl; auto.
    destruct F as [|s2 s2' c c' Hs2 F]; auto. intros [(p & Hl & Hf) Hc]. split; [|apply IH; auto].
    destruct (f2_last _ _ _ _ Hs Hl) as (q & Eq & Hq).
    destruct (f2_first _ _ _ _ Hs2 Hf) as (q' & Eq' & Hq').
    exists q; split; auto. rewrite Hq in Hq'; injection Hq' as <-; auto.
  Qed.
  Lemma f2_clast {A B} (R : A -> B -> Prop) c c' p :
    Forall2 (Forall2 R) c c' -> contour_last c = Some p -> exists q, contour_last c' = Some q /\ R p q.
  Proof.
    induction 1 as [|x y s s' Hxy F IH]; simpl; [discriminate|].
    destruct F as [|x2 y2 s s' H2 F]; intros E; [eapply f2_last; eauto|]. auto.
  Qed.
  Theorem applyToContour_closed c c' :
    closed_contour c -> applyToContour t c = Ok c' -> closed_contour c'.
  Proof.
    intros (N & C & p & Hf & Hl) E. split; [|split].
    - apply mapM_length in E. destruct c; [congruence|]. destruct c'; [discriminate | congruence].
    - eapply applyToContour_connected; eauto.
    - apply applyToContour_iff in E. destruct (f2_clast _ _ _ _ E Hl) as (q & Eq & Hq).
      exists q; split; auto. destruct E as [|s s' c c' Hs E]; [congruence|]. simpl in Hf |- *.
      destruct (f2_first _ _ _ _ Hs Hf) as (q' & Eq' & Hq'). congruence.
  Qed.
End Pointwise.

(** ** Projective behaviour *)

Theorem apply_failure (m : mat) (p : pt) : wf3 m ->
  (third_coordinate m p = 0 -> applyToPoint m p = Err ZeroDivisionError) /\
  (third_coordinate m p <> 0 -> exists q, applyToPoint m p = Ok q).
Proof.
  intros W. destruct (wf3_inv m W) as (a&b&c&d&e&f&g&h&i&->). destruct p as [x y].
  unfold third_coordinate; cbn [nth fst snd]. split; intros Z.
  - cbn; numR. rewrite !Rmult_1_l, Z. now rewrite ndivR0.
  - rewrite apply_Ok by auto; eauto.
Qed.

Lemma cross_div (u1 v1 w1 u2 v2 w2 u3 v3 w3 : R) : w1 <> 0 -> w2 <> 0 -> w3 <> 0 ->
  vcross (vsub (u2 / w2, v2 / w2) (u1 / w1, v1 / w1)) (vsub (u3 / w3, v3 / w3) (u1 / w1, v1 / w1)) =
  (u1 * (v2 * w3 - w2 * v3) - v1 * (u2 * w3 - w2 * u3) + w1 * (u2 * v3 - v2 * u3)) / (w1 * w2 * w3).
Proof. intros. unfold vcross, vsub; simpl. field; auto. Qed.

Theorem apply_collinear (m : mat) (p1 p2 p3 q1 q2 q3 : pt) :
  applyToPoint m p1 = Ok q1 -> applyToPoint m p2 = Ok q2 -> applyToPoint m p3 = Ok q3 ->
  collinear p1 p2 p3 -> collinear q1 q2 q3.
Proof.
  intros H1 H2 H3 C. apply apply_Ok_inv in H1 as (a&b&c&d&e&f&g&h&i&->&W1&->).
  apply apply_Ok_inv in H2 as (a'&b'&c'&d'&e'&f'&g'&h'&i'&E&W2&->).
  injection E; intros; subst; clear E.
  apply apply_Ok_inv in H3 as (a&b&c&d&e&f&g&h&i&E&W3&->).
  injection E; intros; subst; clear E.
  destruct p1 as [x1 y1], p2 as [x2 y2], p3 as [x3 y3].
  unfold collinear in *. rewrite cross_div by auto. cbn [fst snd].
  assert (C' : x1 * (y2 - y3) - y1 * (x2 - x3) + (x2 * y3 - y2 * x3) = 0).
  { rewrite <- C. unfold vcross, vsub; simpl; ring. }
  match goal with |- ?n / _ = 0 => replace n with
    ((x1 * (y2 - y3) - y1 * (x2 - x3) + (x2 * y3 - y2 * x3)) *
     (a * (e * i - f * h) - b * (d * i - f * g) + c * (d * h - e * g))) by ring end.
  rewrite C'. unfold Rdiv; ring.
Qed.

Theorem perspectiveFrom_fixes (c : pt) (p q : R) :
  exists t, perspectiveFrom c p q = Ok t /\ applyToPoint t c = Ok c.
Proof.
  destruct c as [x y]. eexists; split; [utr; reflexivity|].
  rewrite apply_Ok.
  - apply Ok_pair; field_simplify_eq; try ring; try lra.
  - replace (_ + _) with 1; [lra | ring].
Qed.
