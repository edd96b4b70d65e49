(** The Gauss-Legendre length over the reals. *)
From Coq Require Import List ZArith Bool Reals Lra Lia Psatz.
From Verif Require Import Py Inst SpecGeom SpecBezier SpecCurve MTransform MBezUtil MBezier MTables MBezierObj ProofBezier ProofInter.
From Coquelicot Require Rcomplements.
Import Rcomplements.
Import ListNotations.
Local Open Scope R_scope.

(** ** The norm of a vector *)
Definition norm (v : pt) : R := sqrt (vdot v v).
Lemma dot_pos (v : pt) : 0 <= vdot v v.
Proof. unfold vdot. nra. Qed.
Lemma norm_pos v : 0 <= norm v.
Proof. apply sqrt_pos. Qed.
Lemma norm_sq v : norm v * norm v = vdot v v.
Proof. apply sqrt_sqrt, dot_pos. Qed.
Lemma dot_le v w : vdot v w <= norm v * norm w.
Proof.
  destruct (Rle_or_lt (vdot v w) 0) as [N|P]; [pose proof (norm_pos v); pose proof (norm_pos w); nra|].
  apply Rsqr_incr_0_var; [|apply Rmult_le_pos; apply norm_pos]. unfold Rsqr.
  replace (norm v * norm w * (norm v * norm w)) with ((norm v * norm v) * (norm w * norm w)) by ring. rewrite !norm_sq.
  pose proof (Rle_0_sqr (fst v * snd w - snd v * fst w)) as Q. unfold Rsqr in Q. unfold vdot. lra.
Qed.
Lemma norm_add v w : norm (vadd v w) <= norm v + norm w.
Proof.
  apply Rsqr_incr_0_var; [|pose proof (norm_pos v); pose proof (norm_pos w); lra]. unfold Rsqr. rewrite norm_sq.
  pose proof (dot_le v w). pose proof (norm_sq v). pose proof (norm_sq w). unfold vdot, vadd in *. cbn [fst snd] in *. nra.
Qed.
Lemma norm_scale k v : norm (vscale k v) = Rabs k * norm v.
Proof.
  unfold norm, vdot, vscale. cbn [fst snd]. replace (k * fst v * (k * fst v) + k * snd v * (k * snd v)) with (Rsqr k * (fst v * fst v + snd v * snd v)) by (unfold Rsqr; ring).
  rewrite sqrt_mult_alt by apply Rle_0_sqr. now rewrite sqrt_Rsqr_abs.
Qed.
Lemma norm_vdist a b : norm (vsub b a) = vdist a b.
Proof. unfold norm, vdist, vdot, dist2, vsub. cbn [fst snd]. f_equal. ring. Qed.
Lemma norm_rot a v : norm (rot a v) = norm v.
Proof.
  unfold norm, vdot, rot. cbn [fst snd]. f_equal. pose proof (sin2_cos2 a) as E. unfold Rsqr in E.
  transitivity ((sin a * sin a + cos a * cos a) * (fst v * fst v + snd v * snd v)); [ring|rewrite E; ring].
Qed.

(** ** The quadrature rule *)
Fixpoint gsum (f : R -> R) (l : list (Z * Z)) : R :=
  match l with
  | [] => 0
  | (t, c) :: r => IZR c / IZR tableScale * f (IZR t / IZR tableScale * (1 / 2) + 1 / 2) + gsum f r
  end.
Definition nodes : list (Z * Z) := combine tValuesZ cValuesZ.
Definition gl (f : R -> R) : R := 1 / 2 * gsum f nodes.
Lemma scale_pos : 0 < IZR tableScale.
Proof. apply IZR_lt. reflexivity. Qed.
Definition node_ok (tc : Z * Z) : bool := (Z.leb (- tableScale) (fst tc) && Z.leb (fst tc) tableScale && Z.leb 0 (snd tc))%bool.
Lemma nodes_ok : Forall (fun tc => node_ok tc = true) nodes.
Proof. apply Forall_forall. apply forallb_forall. vm_compute. reflexivity. Qed.
Lemma gsum_le f g l : Forall (fun tc => node_ok tc = true) l -> (forall t, 0 <= t <= 1 -> f t <= g t) -> gsum f l <= gsum g l.
Proof.
  intros A K. induction A as [|[t c] l N _ IH]; cbn [gsum]; [lra|].
  unfold node_ok in N. apply andb_true_iff in N as [N C]. apply andb_true_iff in N as [N1 N2]. apply Z.leb_le in C, N1, N2. cbn [fst snd] in *.
  apply IZR_le in C, N1, N2. rewrite opp_IZR in N1. pose proof scale_pos as P. pose proof (Rinv_0_lt_compat _ P) as P'.
  apply Rplus_le_compat; [|exact IH]. apply Rmult_le_compat_l; [unfold Rdiv; nra|]. apply K.
  assert (-1 <= IZR t / IZR tableScale <= 1); [|lra]. split.
  - apply Rmult_le_reg_r with (IZR tableScale); [lra|]. unfold Rdiv. rewrite Rmult_assoc, Rinv_l by lra. lra.

  - apply Rmult_le_reg_r with (IZR tableScale); [lra|]. unfold Rdiv. rewrite Rmult_assoc, Rinv_l by lra. lra.
Qed.
Lemma gsum_ext f g l : (forall t, f t = g t) -> gsum f l = gsum g l.
Proof. intros K. induction l as [|[t c] l IH]; cbn [gsum]; [reflexivity|]. now rewrite K, IH. Qed.
Lemma gsum_lin a b f g l : gsum (fun t => a * f t + b * g t) l = a * gsum f l + b * gsum g l.
Proof. induction l as [|[t c] l IH]; cbn [gsum]; [ring|]. rewrite IH. ring. Qed.
Lemma gl_le f g : (forall t, 0 <= t <= 1 -> f t <= g t) -> gl f <= gl g.
Proof. intros K. unfold gl. pose proof (gsum_le f g nodes nodes_ok K). lra. Qed.
Lemma gl_ext f g : (forall t, f t = g t) -> gl f = gl g.
Proof. intros K. unfold gl. now rewrite (gsum_ext f g). Qed.
Lemma gl_lin a b f g : gl (fun t => a * f t + b * g t) = a * gl f + b * gl g.
Proof. unfold gl. rewrite gsum_lin. ring. Qed.
Lemma gl_scale a f : gl (fun t => a * f t) = a * gl f.
Proof. rewrite (gl_ext _ (fun t => a * f t + 0 * f t)) by (intros; ring). rewrite gl_lin. ring. Qed.

(** Integer moments of the tables. *)
Definition mom (k : Z * Z -> Z) : Z := fold_right (fun tc s => (k tc + s)%Z) 0%Z nodes.
Lemma gl_poly (q : Z -> Z) (d : nat) (f : R -> R) :
  (forall t, f (IZR t / IZR tableScale * (1 / 2) + 1 / 2) = IZR (q t) / (4 * IZR tableScale ^ d)) ->
  gl f = IZR (mom (fun tc => snd tc * q (fst tc))%Z) / (8 * IZR tableScale ^ (S d)).
Proof.
  intros K. pose proof scale_pos as P. assert (P' : IZR tableScale <> 0) by lra.
  assert (G : forall l, gsum f l = IZR (fold_right (fun tc s => (snd tc * q (fst tc) + s)%Z) 0%Z l) / (4 * IZR tableScale ^ (S d))).
  { induction l as [|[t c] l IH]; cbn [gsum fold_right fst snd]; [unfold Rdiv; ring|].
    rewrite K, IH, plus_IZR, mult_IZR. cbn [pow]. field. split; [apply pow_nonzero|]; assumption. }
  unfold gl, mom. rewrite G. cbn [pow]. field. split; [apply pow_nonzero|]; assumption.
Qed.
(** 10^-36, as the reciprocal of an integer. *)
Definition tiny : R := / IZR (10 ^ 36).
Definition near (x y : R) : Prop := Rabs (x - y) <= tiny * y.
Lemma near_of (m k n : Z) (d : nat) : (0 < n)%Z -> (0 < k)%Z ->
  (Z.abs (n * m - k * (8 * tableScale ^ Z.of_nat (S d))) * 10 ^ 36 <= k * (8 * tableScale ^ Z.of_nat (S d)))%Z ->
  near (IZR m / (8 * IZR tableScale ^ (S d))) (IZR k / IZR n).
Proof.
  intros N K I. unfold near, tiny. pose proof scale_pos as P. set (W := 8 * IZR tableScale ^ S d).
  assert (PW : 0 < W) by (unfold W; apply Rmult_lt_0_compat; [lra|now apply pow_lt]).
  assert (EW : W = IZR (8 * tableScale ^ Z.of_nat (S d))). { rewrite mult_IZR, <- pow_IZR. reflexivity. }
  apply IZR_le in I. rewrite !mult_IZR, abs_IZR, minus_IZR, !mult_IZR in I.
  replace (8 * IZR (tableScale ^ Z.of_nat (S d))) with W in I by (rewrite EW, mult_IZR; reflexivity).
  apply IZR_lt in N, K. assert (T : 0 < IZR (10 ^ 36)) by (apply IZR_lt; reflexivity).
  replace (IZR m / W - IZR k / IZR n) with ((IZR n * IZR m - IZR k * W) * / (IZR n * W)) by (field; lra).
  rewrite Rabs_mult. assert (IP : 0 < / (IZR n * W)) by (apply Rinv_0_lt_compat; nra). rewrite (Rabs_right (/ (IZR n * W))) by lra.
  apply Rmult_le_reg_r with (IZR (10 ^ 36) * (IZR n * W)); [apply Rmult_lt_0_compat; nra|].
  replace (Rabs (IZR n * IZR m - IZR k * W) * / (IZR n * W) * (IZR (10 ^ 36) * (IZR n * W))) with (Rabs (IZR n * IZR m - IZR k * W) * IZR (10 ^ 36)) by (field; split; nra).
  replace (/ IZR (10 ^ 36) * (IZR k / IZR n) * (IZR (10 ^ 36) * (IZR n * W))) with (IZR k * W) by (field; split; lra). exact I.
Qed.
Ltac moment q d k n := match goal with |- near (gl ?f) _ =>
  rewrite (gl_poly q d f); [|intros t; pose proof scale_pos; rewrite ?mult_IZR, ?plus_IZR, ?minus_IZR, ?mult_IZR; cbn [pow]; field; lra];
  apply (near_of _ k n); [reflexivity|reflexivity|vm_compute; discriminate] end.
Lemma gl_one : near (gl (fun _ => 1)) (1 / 1).
Proof. moment (fun _ : Z => 4%Z) 0%nat 1%Z 1%Z. Qed.
Lemma gl_q0 : near (gl (fun t => 1 - t)) (1 / 2).
Proof. moment (fun t : Z => (2 * tableScale - 2 * t)%Z) 1%nat 1%Z 2%Z. Qed.
Lemma gl_q1 : near (gl (fun t => t)) (1 / 2).
Proof. moment (fun t : Z => (2 * tableScale + 2 * t)%Z) 1%nat 1%Z 2%Z. Qed.
Lemma gl_c0 : near (gl (fun t => (1 - t) * (1 - t))) (1 / 3).
Proof. moment (fun t : Z => ((tableScale - t) * (tableScale - t))%Z) 2%nat 1%Z 3%Z. Qed.
Lemma gl_c1 : near (gl (fun t => (1 - t) * t * 2)) (1 / 3).
Proof. moment (fun t : Z => (2 * ((tableScale - t) * (tableScale + t)))%Z) 2%nat 1%Z 3%Z. Qed.
Lemma gl_c2 : near (gl (fun t => t * t)) (1 / 3).
Proof. moment (fun t : Z => ((tableScale + t) * (tableScale + t))%Z) 2%nat 1%Z 3%Z. Qed.

Section Length.
  Context (rnd : R -> R).
  #[local] Hint Extern 0 (TrigOps R) => exact (RTrig rnd) : typeclass_instances.

  Definition speed_at (p : list pt) (t : R) : pt :=
    match p with
    | [p0; p1; p2] => vadd (vscale (1 - t) (vscale 2 (vsub p1 p0))) (vscale t (vscale 2 (vsub p2 p1)))
    | [p0; p1; p2; p3] => vadd (vadd (vscale ((1 - t) * (1 - t)) (vscale 3 (vsub p1 p0))) (vscale ((1 - t) * t * 2) (vscale 3 (vsub p2 p1)))) (vscale (t * t) (vscale 3 (vsub p3 p2)))
    | _ => (0, 0)
    end.
  Lemma derivative_formula (b : bezier R) t : (length (cps b) = 3 \/ length (cps b) = 4)%nat -> derivative b t = Ok (speed_at (cps b) t).
  Proof.
    destruct b as [p u v]; cbn [cps]. intros L. unfold derivative, dcPoints, order. cbn [cps].
    destruct p as [|p0 [|p1 [|p2 [|p3 [|p4 r]]]]]; try (simpl in L; lia); cbn [length dcPointsFrom dcLevel Nat.sub Nat.eqb]; unfold idx; cbn [nth_error bind]; unfold diffStep, speed_at, vadd, vscale, vsub;
      cbn [fst snd Z.of_nat Pos.of_succ_nat Pos.succ]; numRg; f_equal; f_equal; ring.
  Qed.
  Lemma arcfun_norm (b : bezier R) t : (length (cps b) = 3 \/ length (cps b) = 4)%nat -> arcfun b t = Ok (norm (speed_at (cps b) t)).
  Proof. intros L. unfold arcfun. rewrite derivative_formula by assumption. cbn [bind]. destruct (speed_at (cps b) t) as [x y]. reflexivity. Qed.
  Theorem quadrature_gl (b : bezier R) : (length (cps b) = 3 \/ length (cps b) = 4)%nat ->
    quadrature b = Ok (gl (fun t => norm (speed_at (cps b) t))).
  Proof.
    intros L. unfold quadrature.
    rewrite (foldM_pure _ (fun s (tc : R * R) => snd tc * norm (speed_at (cps b) (fst tc * (1 / 2) + 1 / 2)) + s)).
    2:{ intros s [t c] _. cbn [fst snd]. rewrite arcfun_norm by assumption. cbn [bind]. numRg. reflexivity. }
    cbn [bind]. f_equal. unfold gl. numRg. f_equal.
    assert (C : combine (tValues (T := R)) cValues = map (fun tc => (IZR (fst tc) / IZR tableScale, IZR (snd tc) / IZR tableScale)) nodes).
    { unfold tValues, cValues, nodes. generalize tValuesZ cValuesZ. induction l as [|t l IH]; intros [|c l']; cbn [map combine]; try reflexivity. now rewrite IH. }
    rewrite C. clear C.
    assert (G : forall l s, fold_left (fun s (tc : R * R) => snd tc * norm (speed_at (cps b) (fst tc * (1 / 2) + 1 / 2)) + s)
       (map (fun tc => (IZR (fst tc) / IZR tableScale, IZR (snd tc) / IZR tableScale)) l) s = gsum (fun t => norm (speed_at (cps b) t)) l + s).
    { induction l as [|[t c] l IH]; intros s; cbn [map fold_left gsum fst snd]; [ring|]. rewrite IH. ring. }
    rewrite G. ring.
  Qed.
  Theorem quadrature_line (b : bezier R) : length (cps b) = 2%nat -> quadrature b = Err IndexError.
  Proof.
    intros L. unfold quadrature, tValues, cValues. cbn [tValuesZ cValuesZ map combine foldM]. unfold arcfun at 1.
    destruct b as [[|a [|c [|d r]]] u v]; try (simpl in L; lia). reflexivity.
  Qed.

  (** ** Consequences *)
  Theorem length_nonneg (b : bezier R) : (length (cps b) = 3 \/ length (cps b) = 4)%nat -> exists l, quadrature b = Ok l /\ 0 <= l.
  Proof.
    intros L. eexists. split; [now apply quadrature_gl|].
    replace 0 with (gl (fun _ => 0 * 0)) by (rewrite (gl_scale 0 (fun _ => 0)); ring). apply gl_le. intros t _. pose proof (norm_pos (speed_at (cps b) t)). lra.
  Qed.
  (** Similarities: rotation by [a], scaling by [k], translation by [v]. *)
  Definition simil (a k : R) (v q : pt) : pt := vadd v (vscale k (rot a q)).
  Lemma speed_simil a k v p t : speed_at (map (simil a k v) p) t = vscale k (rot a (speed_at p t)).
  Proof.
    destruct p as [|p0 [|p1 [|p2 [|p3 [|p4 r]]]]]; cbn [map speed_at]; unfold simil, rot, vadd, vscale, vsub; cbn [fst snd]; f_equal; ring.
  Qed.
  Theorem length_similar (b c : bezier R) a k v : (length (cps b) = 3 \/ length (cps b) = 4)%nat -> cps c = map (simil a k v) (cps b) ->
    exists l, quadrature b = Ok l /\ quadrature c = Ok (Rabs k * l).
  Proof.
    intros L E. eexists. split; [now apply quadrature_gl|]. rewrite quadrature_gl by (rewrite E, map_length; exact L). f_equal. rewrite <- gl_scale. apply gl_ext. intros t.
    rewrite E, speed_simil, norm_scale, norm_rot. reflexivity.
  Qed.
  Lemma near_le x y : near x y -> x <= y + tiny * y.
  Proof. unfold near. intros K. pose proof (Rle_abs (x - y)). lra. Qed.
  Lemma near_mul x y d : near x y -> 0 <= d -> d * x <= d * y + tiny * (d * y).
  Proof. intros K N. apply near_le in K. apply Rmult_le_compat_l with (r := d) in K; [|assumption]. lra. Qed.
  Theorem length_polygon (b : bezier R) l : (length (cps b) = 3 \/ length (cps b) = 4)%nat -> quadrature b = Ok l ->
    l <= polygon_length (cps b) * (1 + tiny).
  Proof.
    intros L E. rewrite quadrature_gl in E by assumption. apply Ok_inv in E. subst l. destruct b as [p u v]; cbn [cps] in *.
    destruct p as [|p0 [|p1 [|p2 [|p3 [|p4 r]]]]]; try (simpl in L; lia); cbn [polygon_length].
    - set (d0 := vdist p0 p1). set (d1 := vdist p1 p2).
      apply Rle_trans with (gl (fun t => (2 * d0) * (1 - t) + (2 * d1) * t)).
      + apply gl_le. intros t T. eapply Rle_trans; [apply norm_add|]. rewrite !norm_scale, !norm_vdist. fold d0 d1. rewrite !Rabs_right by lra. lra.
      + rewrite gl_lin. assert (0 <= d0) by apply sqrt_pos. assert (0 <= d1) by apply sqrt_pos. pose proof (near_mul _ _ (2 * d0) gl_q0 ltac:(lra)). pose proof (near_mul _ _ (2 * d1) gl_q1 ltac:(lra)). 
        change (gl (Rminus 1)) with (gl (fun t => 1 - t)). lra.
    - set (d0 := vdist p0 p1). set (d1 := vdist p1 p2). set (d2 := vdist p2 p3).
      apply Rle_trans with (gl (fun t => 1 * ((3 * d0) * ((1 - t) * (1 - t)) + (3 * d1) * ((1 - t) * t * 2)) + (3 * d2) * (t * t))).
      + apply gl_le. intros t T. eapply Rle_trans; [apply norm_add|]. eapply Rle_trans; [apply Rplus_le_compat_r, norm_add|].
        rewrite !norm_scale, !norm_vdist. fold d0 d1 d2. rewrite !Rabs_right by nra. lra.
      + rewrite (gl_lin 1 (3 * d2) (fun t => (3 * d0) * ((1 - t) * (1 - t)) + (3 * d1) * ((1 - t) * t * 2))), gl_lin.
        assert (0 <= d0) by apply sqrt_pos. assert (0 <= d1) by apply sqrt_pos. assert (0 <= d2) by apply sqrt_pos.
        pose proof (near_mul _ _ (3 * d0) gl_c0 ltac:(lra)). pose proof (near_mul _ _ (3 * d1) gl_c1 ltac:(lra)). pose proof (near_mul _ _ (3 * d2) gl_c2 ltac:(lra)). lra.
  Qed.
  Lemma near_dot x y k : near x y -> 0 <= y -> Rabs (k * x - k * y) <= tiny * y * Rabs k.
  Proof. intros K Y. replace (k * x - k * y) with (k * (x - y)) by ring. rewrite Rabs_mult. unfold near in K. pose proof (Rabs_pos k). nra. Qed.
  Lemma dot_abs v w : Rabs (vdot v w) <= norm v * norm w.
  Proof.
    apply Rabs_le. split; [|apply dot_le]. pose proof (dot_le (vscale (-1) v) w) as K. rewrite norm_scale in K.
    replace (Rabs (-1)) with 1 in K by (unfold Rabs; destruct (Rcase_abs _); lra). unfold vdot, vscale in *. cbn [fst snd] in *. lra.
  Qed.
  Theorem length_chord (b : bezier R) l p0 pn : (length (cps b) = 3 \/ length (cps b) = 4)%nat -> quadrature b = Ok l ->
    hd_error (cps b) = Some p0 -> last (cps b) (0, 0) = pn ->
    vdist p0 pn - polygon_length (cps b) * tiny <= l.
  Proof.
    intros L E H0 Hn. rewrite quadrature_gl in E by assumption. apply Ok_inv in E. subst l. destruct b as [p u v]; cbn [cps] in *.
    set (w := vsub pn p0). assert (W : norm w = vdist p0 pn) by apply norm_vdist. rewrite <- W.
    assert (TP : 0 < tiny) by (apply Rinv_0_lt_compat, IZR_lt; reflexivity).
    assert (PP : 0 <= polygon_length p). { clear. induction p as [|a [|c p] IH]; cbn [polygon_length] in *; try lra. pose proof (sqrt_pos (dist2 a c)). unfold vdist in *. lra. }
    destruct (Req_dec (norm w) 0) as [Z|Z].
    { assert (0 <= gl (fun t => norm (speed_at p t))); [|nra].
      replace 0 with (gl (fun _ => 0 * 0)) by (rewrite (gl_scale 0 (fun _ => 0)); ring). apply gl_le. intros t _. pose proof (norm_pos (speed_at p t)). lra. }
    assert (N : 0 < norm w) by (pose proof (norm_pos w); lra).
    apply Rmult_le_reg_l with (norm w); [exact N|]. rewrite <- gl_scale.
    apply Rle_trans with (gl (fun t => vdot (speed_at p t) w)); [|apply gl_le; intros t _; rewrite Rmult_comm; apply dot_le].
    destruct p as [|q0 [|q1 [|q2 [|q3 [|q4 r]]]]]; try (simpl in L; lia); cbn [polygon_length hd_error last] in *; injection H0 as <-.
    - set (a0 := vdot (vsub q1 q0) w). set (a1 := vdot (vsub q2 q1) w).
      rewrite (gl_ext _ (fun t => (2 * a0) * (1 - t) + (2 * a1) * t)) by (intros t; unfold a0, a1, speed_at, vdot, vadd, vscale, vsub; cbn [fst snd]; ring).
      rewrite (gl_lin (2 * a0) (2 * a1) (fun t => 1 - t) (fun t => t)). assert (S : a0 + a1 = norm w * norm w) by (rewrite norm_sq; unfold a0, a1, w, vdot, vsub; rewrite <- Hn; cbn [fst snd]; ring).
      pose proof (near_dot _ _ (2 * a0) gl_q0) as K0. pose proof (near_dot _ _ (2 * a1) gl_q1) as K1.
      pose proof (dot_abs (vsub q1 q0) w) as D0. pose proof (dot_abs (vsub q2 q1) w) as D1. fold a0 in D0. fold a1 in D1. rewrite norm_vdist in D0, D1.
      rewrite Rabs_mult, (Rabs_right 2) in K0, K1 by lra.
      set (g0 := gl (fun t => 1 - t)) in *. set (g1 := gl (fun t => t)) in *.
      pose proof (proj1 (Rabs_le_between' _ _ _) (K0 ltac:(lra))) as [B0 _]. pose proof (proj1 (Rabs_le_between' _ _ _) (K1 ltac:(lra))) as [B1 _].
      assert (tiny * Rabs a0 <= tiny * (vdist q0 q1 * norm w)) by (apply Rmult_le_compat_l; lra).
      assert (tiny * Rabs a1 <= tiny * (vdist q1 q2 * norm w)) by (apply Rmult_le_compat_l; lra). lra.
    - set (a0 := vdot (vsub q1 q0) w). set (a1 := vdot (vsub q2 q1) w). set (a2 := vdot (vsub q3 q2) w).
      rewrite (gl_ext _ (fun t => 1 * ((3 * a0) * ((1 - t) * (1 - t)) + (3 * a1) * ((1 - t) * t * 2)) + (3 * a2) * (t * t))) by (intros t; unfold a0, a1, a2, speed_at, vdot, vadd, vscale, vsub; cbn [fst snd]; ring).
      rewrite (gl_lin 1 (3 * a2) (fun t => (3 * a0) * ((1 - t) * (1 - t)) + (3 * a1) * ((1 - t) * t * 2))), gl_lin.
      assert (S : a0 + a1 + a2 = norm w * norm w) by (rewrite norm_sq; unfold a0, a1, a2, w, vdot, vsub; rewrite <- Hn; cbn [fst snd]; ring).
      pose proof (near_dot _ _ (3 * a0) gl_c0) as K0. pose proof (near_dot _ _ (3 * a1) gl_c1) as K1. pose proof (near_dot _ _ (3 * a2) gl_c2) as K2.
      pose proof (dot_abs (vsub q1 q0) w) as D0. pose proof (dot_abs (vsub q2 q1) w) as D1. pose proof (dot_abs (vsub q3 q2) w) as D2.
      fold a0 in D0. fold a1 in D1. fold a2 in D2. rewrite norm_vdist in D0, D1, D2.
      rewrite Rabs_mult, (Rabs_right 3) in K0, K1, K2 by lra.
      set (g0 := gl (fun t => (1 - t) * (1 - t))) in *. set (g1 := gl (fun t => (1 - t) * t * 2)) in *. set (g2 := gl (fun t => t * t)) in *.
      pose proof (proj1 (Rabs_le_between' _ _ _) (K0 ltac:(lra))) as [B0 _]. pose proof (proj1 (Rabs_le_between' _ _ _) (K1 ltac:(lra))) as [B1 _]. pose proof (proj1 (Rabs_le_between' _ _ _) (K2 ltac:(lra))) as [B2 _].
      assert (tiny * Rabs a0 <= tiny * (vdist q0 q1 * norm w)) by (apply Rmult_le_compat_l; lra).
      assert (tiny * Rabs a1 <= tiny * (vdist q1 q2 * norm w)) by (apply Rmult_le_compat_l; lra).
      assert (tiny * Rabs a2 <= tiny * (vdist q2 q3 * norm w)) by (apply Rmult_le_compat_l; lra). lra.
  Qed.
  (** Uniformly parametrised straight line from [p0] to [pn]. *)
  Theorem length_straight (b : bezier R) l p0 pn : (length (cps b) = 3 \/ length (cps b) = 4)%nat -> quadrature b = Ok l ->
    (forall i, (i < length (cps b))%nat -> nth i (cps b) (0, 0) = along p0 pn (INR i / INR (length (cps b) - 1))) ->
    Rabs (l - vdist p0 pn) <= tiny * vdist p0 pn.
  Proof.
    intros L E U. rewrite quadrature_gl in E by assumption. apply Ok_inv in E. subst l. destruct b as [p u v]; cbn [cps] in *.
    assert (S : forall t, norm (speed_at p t) = vdist p0 pn * 1).
    { intros t. rewrite <- norm_vdist, Rmult_1_r. f_equal.
      destruct p as [|q0 [|q1 [|q2 [|q3 [|q4 r]]]]]; try (simpl in L; lia); cbn [length Nat.sub] in U.
      - pose proof (U 0%nat ltac:(lia)) as U0. pose proof (U 1%nat ltac:(lia)) as U1. pose proof (U 2%nat ltac:(lia)) as U2. cbn [nth] in *. subst.
        unfold speed_at, along, vadd, vscale, vsub. cbn [fst snd INR]. f_equal; field.
      - pose proof (U 0%nat ltac:(lia)) as U0. pose proof (U 1%nat ltac:(lia)) as U1. pose proof (U 2%nat ltac:(lia)) as U2. pose proof (U 3%nat ltac:(lia)) as U3. cbn [nth] in *. subst.
        unfold speed_at, along, vadd, vscale, vsub. cbn [fst snd INR]. f_equal; field. }
    rewrite (gl_ext _ (fun t => vdist p0 pn * 1)) by exact S. rewrite (gl_scale (vdist p0 pn) (fun _ => 1)).
    pose proof (near_dot _ _ (vdist p0 pn) gl_one ltac:(lra)) as K. rewrite (Rabs_right (vdist p0 pn)) in K by (apply Rle_ge, sqrt_pos).
    replace (vdist p0 pn * gl (fun _ => 1) - vdist p0 pn * (1 / 1)) with (vdist p0 pn * gl (fun _ => 1) - vdist p0 pn) in K by field. lra.
  Qed.
End Length.
