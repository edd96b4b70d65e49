(** Proofs about roots and lineIntersects. *)
From Coq Require Import List ZArith Bool Reals Lra Lia Psatz.
From Verif Require Import Py Inst SpecGeom SpecMatrix SpecFit SpecUtil SpecBezier SpecOrder SpecBounds
  MTransform MBounds MBezUtil MPathUtil MBezier SpecCurve
  ProofTransform ProofMatrix ProofFit ProofUtil ProofBounds ProofBezier ProofBezier2 ProofBezier3 ProofAlign.
Import ListNotations.
Local Open Scope R_scope.

Section Roots.
  Context (rnd : R -> R).
  #[local] Hint Extern 0 (TrigOps R) => exact (RTrig rnd) : typeclass_instances.

  Lemma approx_iff (a b : R) : approximately a b = true <-> Rabs (a - b) <= 1 / 1000000.
  Proof. unfold approximately, approximatelyP, epsilon, nlit; numRg. apply Rleb_true. Qed.
  Lemma rootOk_iff (t : R) : rootOk t = true <-> near_unit t.
  Proof.
    unfold rootOk, near_unit. numRg. rewrite !orb_true_iff, andb_true_iff, !Rleb_true, !approx_iff. rewrite Rminus_0_r. tauto.
  Qed.
  Lemma keepRoots_In (l : list (option R)) t : In t (keepRoots l) <-> In (Some t) l /\ near_unit t.
  Proof.
    unfold keepRoots. rewrite in_flat_map. split.
    - intros ([x|] & Hx & K); [|destruct K]. destruct (rootOk x) eqn:E; [|destruct K]. destruct K as [<-|[]]. split; auto. now apply rootOk_iff.
    - intros [H1 H2]. exists (Some t). split; auto. apply rootOk_iff in H2. rewrite H2. simpl; auto.
  Qed.

  Theorem quadRoots_iff (a b c t : R) : ~ (a = 0 /\ b = 0 /\ c = 0) -> In t (quadRoots a b c) <-> bern2 a b c t = 0 /\ near_unit t.
  Proof.
    intros NZ. rewrite <- (droots2 rnd a b c t NZ).
    assert (E : quadRoots a b c = keepRoots (droots [a; b; c])).
    { unfold quadRoots, droots. destruct (_ != _)%num; [destruct (bsqrt _); reflexivity|]. destruct (_ && _); [|reflexivity].
      numRg. do 4 f_equal. ring. }
    rewrite E. apply keepRoots_In.
  Qed.
  Theorem quadRoots_zero : quadRoots 0 0 0 = [].
  Proof. unfold quadRoots. numRg. rcases; try reflexivity; lra. Qed.

  (** *** The cubic *)
  Lemma depressed (a b c x : R) : let z := x + a / 3 in
    x ^ 3 + a * x ^ 2 + b * x + c = z ^ 3 + (3 * b - a * a) / 3 * z + (2 * a * a * a - 9 * a * b + 27 * c) / 27.
  Proof. intros z. unfold z. field. Qed.
  Lemma cubic_scaled (d a b c x : R) : d <> 0 -> d * x ^ 3 + a * x ^ 2 + b * x + c = 0 <-> x ^ 3 + a / d * x ^ 2 + b / d * x + c / d = 0.
  Proof.
    intros N. split; intros E.
    - apply Rmult_eq_reg_l with d; auto. rewrite Rmult_0_r, <- E. field. auto.
    - transitivity (d * (x ^ 3 + a / d * x ^ 2 + b / d * x + c / d)); [field; auto | rewrite E; ring].
  Qed.
  (** Three real roots. *)
  Lemma cos3 (x : R) : cos (3 * x) = 4 * cos x ^ 3 - 3 * cos x.
  Proof.
    replace (3 * x) with (2 * x + x) by ring. rewrite cos_plus, cos_2a_cos, sin_2a.
    transitivity (2 * cos x ^ 3 - cos x - 2 * cos x * (sin x)²); [unfold Rsqr; ring|]. rewrite sin2. unfold Rsqr. ring.
  Qed.
  Lemma cos_third (x : R) : cos (x + 2 * (PI / 3)) = - cos x / 2 - sqrt 3 / 2 * sin x.
  Proof. rewrite cos_plus, cos_2PI3, sin_2PI3. field. Qed.
  Lemma sin_third (x : R) : sin (x + 2 * (PI / 3)) = - sin x / 2 + sqrt 3 / 2 * cos x.
  Proof. rewrite sin_plus, cos_2PI3, sin_2PI3. field. Qed.
  Lemma cos_thirds (x : R) : cos (x + 2 * (PI / 3) + 2 * (PI / 3)) = - cos x / 2 + sqrt 3 / 2 * sin x.
  Proof.
    rewrite cos_third, sin_third, cos_third. pose proof (sqrt_sqrt 3 ltac:(lra)) as S.
    transitivity (cos x / 4 - (sqrt 3 * sqrt 3) / 4 * cos x + sqrt 3 / 2 * sin x); [field | rewrite S; field].
  Qed.
  Lemma trig_roots (m al z : R) : z ^ 3 - 3 * m ^ 2 * z - 2 * m ^ 3 * cos (3 * al) =
    (z - 2 * m * cos al) * (z - 2 * m * cos (al + 2 * (PI / 3))) * (z - 2 * m * cos (al + 2 * (PI / 3) + 2 * (PI / 3))).
  Proof.
    rewrite cos_third, cos_thirds, cos3. pose proof (sqrt_sqrt 3 ltac:(lra)) as S. pose proof (sin2_cos2 al) as N. unfold Rsqr in N.
    set (c := cos al) in *. set (s := sin al) in *. set (w := sqrt 3) in *.
    transitivity ((z - 2 * m * c) * ((z + m * c) ^ 2 - m ^ 2 * (w * w) * (s * s))); [|field].
    rewrite S. replace (s * s) with (1 - c * c) by lra. ring.
  Qed.
  (** One real root. *)
  Lemma one_root (u v z : R) : u + v <> 0 -> z ^ 3 + 3 * u * v * z + (v ^ 3 - u ^ 3) = 0 <-> z = u - v.
  Proof.
    intros N. split; [|intros ->; ring]. intros E.
    assert (F : (z - (u - v)) * ((2 * z + (u - v)) ^ 2 + 3 * (u + v) ^ 2) = 0) by (rewrite <- (Rmult_0_r 4), <- E; ring).
    apply Rmult_integral in F as [F|F]; [lra|]. exfalso.
    pose proof (pow2_ge_0 (2 * z + (u - v))). pose proof (Rsqr_pos_lt (u + v) N) as Q. unfold Rsqr in Q. nra.
  Qed.
  Lemma double_root (u z : R) : z ^ 3 - 3 * u ^ 2 * z - 2 * u ^ 3 = 0 <-> z = 2 * u \/ z = - u.
  Proof.
    assert (F : z ^ 3 - 3 * u ^ 2 * z - 2 * u ^ 3 = (z - 2 * u) * (z + u) * (z + u)) by ring. rewrite F. split.
    - intros E. apply Rmult_integral in E as [E|E]; [apply Rmult_integral in E as [E|E]|]; lra.
    - intros [->| ->]; ring.
  Qed.
  Lemma In_three {A} (x a b c : A) : In (Some x) [Some a; Some b; Some c] <-> x = a \/ x = b \/ x = c.
  Proof. simpl. split; [intros [E|[E|[E|[]]]]; injection E as ->; auto | intros [->|[->| ->]]; auto]. Qed.
  Lemma In_one {A} (x a : A) : In (Some x) [Some a] <-> x = a.
  Proof. simpl. split; [intros [E|[]]; congruence | intros ->; auto]. Qed.
  Lemma bsqrt_nonneg x : 0 <= x -> bsqrt x = Some (sqrt x).
  Proof. intros L. unfold bsqrt. numRg. destruct (Rltb_spec x 0); [lra|reflexivity]. Qed.
  Lemma bsqrt_neg x : x < 0 -> bsqrt x = None.
  Proof. intros L. unfold bsqrt. numRg. destruct (Rltb_spec x 0); [reflexivity|lra]. Qed.

  (** Cardano, on the depressed cubic. *)
  Definition cardanoRoots (a p q : R) : list (option R) :=
    let D := (q / 2) * (q / 2) + (p / 3) * (p / 3) * (p / 3) in
    if Rlt_dec D 0 then
      let r := sqrt (- p / 3 * (- p / 3) * (- p / 3)) in
      let phi := acos (- q / (2 * r)) in
      [Some (2 * crt r * cos (phi / 3) - a / 3); Some (2 * crt r * cos ((phi + 2 * PI) / 3) - a / 3); Some (2 * crt r * cos ((phi + 2 * (2 * PI)) / 3) - a / 3)]
    else if Req_EM_T D 0 then
      [Some (2 * crt (- (q / 2)) - a / 3); Some (- crt (- (q / 2)) - a / 3)]
    else [Some (crt (- (q / 2) + sqrt D) - crt (q / 2 + sqrt D) - a / 3)].
  Lemma cardanoRoots_iff (a p q t : R) : In (Some t) (cardanoRoots a p q) <-> (t + a / 3) ^ 3 + p * (t + a / 3) + q = 0.
  Proof.
    unfold cardanoRoots. set (D := _ + _). destruct (Rlt_dec D 0) as [LD|LD]; [|destruct (Req_EM_T D 0) as [ED|ED]].
    - assert (Pp : p < 0).
      { destruct (Rlt_dec p 0); auto. exfalso. assert (0 <= p / 3) by lra. assert (0 <= p / 3 * (p / 3)) by nra. assert (0 <= p / 3 * (p / 3) * (p / 3)) by nra.
        pose proof (Rle_0_sqr (q / 2)). unfold Rsqr, D in *. lra. }
      set (k := - p / 3). assert (Pk : 0 < k) by (unfold k; lra).
      assert (Pk2 : 0 < k * k) by nra. assert (Pk3 : 0 < k * k * k) by nra.
      set (r := sqrt (k * k * k)). assert (Pr : 0 < r) by (apply sqrt_lt_R0; auto).
      assert (Er : r * r = k * k * k) by (apply sqrt_sqrt; lra).
      set (m := crt r). assert (Em : m ^ 3 = r) by apply crt_cube.
      assert (Em2 : m ^ 2 = k). { apply cube_inj. transitivity ((m ^ 3) * (m ^ 3)); [ring | rewrite Em, Er; ring]. }
      assert (B : -1 <= - q / (2 * r) <= 1).
      { assert (q * q <= (2 * r) * (2 * r)).
        { replace (2 * r * (2 * r)) with (4 * (k * k * k)) by (rewrite <- Er; ring). unfold D in LD. unfold k. 
          replace (4 * (- p / 3 * (- p / 3) * (- p / 3))) with (- (4 * (p / 3 * (p / 3) * (p / 3)))) by field. lra. }
        assert (Aq : Rabs q <= 2 * r). { rewrite <- (Rabs_right (2 * r)) by lra. apply Rsqr_le_abs_0. exact H. }
        assert (Aq' : Rabs (- q / (2 * r)) <= 1).
        { unfold Rdiv. rewrite Rabs_mult, Rabs_Ropp, (Rabs_right (/ (2 * r))) by (apply Rle_ge; left; apply Rinv_0_lt_compat; lra).
          apply Rmult_le_reg_r with (2 * r); [lra|]. rewrite Rmult_assoc, Rinv_l by lra. lra. }
        revert Aq'. unfold Rabs. destruct (Rcase_abs _); lra. }
      set (phi := acos _). assert (Ephi : cos phi = - q / (2 * r)) by (apply cos_acos; auto).
      rewrite In_three.
      replace ((phi + 2 * PI) / 3) with (phi / 3 + 2 * (PI / 3)) by field.
      replace ((phi + 2 * (2 * PI)) / 3) with (phi / 3 + 2 * (PI / 3) + 2 * (PI / 3)) by field.
      assert (F : (t + a / 3) ^ 3 + p * (t + a / 3) + q = (t + a / 3 - 2 * m * cos (phi / 3)) * (t + a / 3 - 2 * m * cos (phi / 3 + 2 * (PI / 3))) *
         (t + a / 3 - 2 * m * cos (phi / 3 + 2 * (PI / 3) + 2 * (PI / 3)))).
      { rewrite <- trig_roots. replace (3 * (phi / 3)) with phi by field. rewrite Ephi, Em2, Em. unfold k. field. lra. }
      rewrite F. split.
      + intros [->|[->| ->]]; ring.
      + intros E. apply Rmult_integral in E as [E|E]; [apply Rmult_integral in E as [E|E]|]; [left|right; left|right; right]; lra.
    - rewrite In_two. set (u := crt (- (q / 2))). assert (Eu : u ^ 3 = - (q / 2)) by apply crt_cube.
      assert (Ep : p / 3 = - u ^ 2). { apply cube_inj. transitivity (- (u ^ 3) * u ^ 3); [|ring]. rewrite Eu. unfold D in ED. lra. }
      assert (F : (t + a / 3) ^ 3 + p * (t + a / 3) + q = (t + a / 3) ^ 3 - 3 * u ^ 2 * (t + a / 3) - 2 * u ^ 3).
      { replace p with (3 * (p / 3)) by field. rewrite Ep, Eu. field. }
      rewrite F, double_root. split; intros [K|K]; [left|right|left|right]; lra.
    - rewrite In_one. assert (PD : 0 < D) by lra. pose proof (sqrt_lt_R0 _ PD) as Ps. pose proof (sqrt_sqrt D ltac:(lra)) as Es.
      set (sd := sqrt D) in *. set (u := crt (- (q / 2) + sd)). set (v := crt (q / 2 + sd)).
      assert (Eu : u ^ 3 = - (q / 2) + sd) by apply crt_cube. assert (Ev : v ^ 3 = q / 2 + sd) by apply crt_cube.
      assert (Ep : p / 3 = u * v).
      { apply cube_inj. transitivity ((u ^ 3) * (v ^ 3)); [|ring]. rewrite Eu, Ev. replace ((- (q / 2) + sd) * (q / 2 + sd)) with (sd * sd - q / 2 * (q / 2)) by ring.
        rewrite Es. unfold D. ring. }
      assert (N : u + v <> 0).
      { intros Z. assert (u ^ 3 = (- v) ^ 3) by (f_equal; lra). replace ((- v) ^ 3) with (- v ^ 3) in H by ring. rewrite Eu, Ev in H. lra. }
      assert (F : (t + a / 3) ^ 3 + p * (t + a / 3) + q = (t + a / 3) ^ 3 + 3 * u * v * (t + a / 3) + (v ^ 3 - u ^ 3)).
      { replace p with (3 * (p / 3)) by field. rewrite Ep, Eu, Ev. field. }
      rewrite F, (one_root u v _ N). split; intros; lra.
  Qed.
  Lemma approx0 (x : R) : clear x -> (approximately x 0 = true <-> x = 0).
  Proof.
    intros C. rewrite approx_iff, Rminus_0_r. split; [|intros ->; rewrite Rabs_R0; lra]. intros L. destruct C; auto. lra.
  Qed.
  Theorem cubicRoots_iff (a b c d t : R) : ~ (a = 0 /\ b = 0 /\ c = 0 /\ d = 0) -> cubic_clear a b c d ->
    In t (cubicRoots a b c d) <-> bern3 a b c d t = 0 /\ near_unit t.
  Proof.
    intros NZ (C3 & C2 & CD).
    assert (P : bern3 a b c d t = k3 a b c d * t ^ 3 + k2 a b c d * t ^ 2 + k1 a b c d * t + a) by (unfold bern3, k3, k2, k1; ring).
    rewrite P. clear P. unfold cubicRoots. numRg.
    change (- a + 3 * b - 3 * c + d) with (k3 a b c d). change (3 * a - 6 * b + 3 * c) with (k2 a b c d). change (-3 * a + 3 * b) with (k1 a b c d).
    assert (NZ' : ~ (k3 a b c d = 0 /\ k2 a b c d = 0 /\ k1 a b c d = 0 /\ a = 0)) by (unfold k3, k2, k1; intros (? & ? & ? & ?); apply NZ; lra).
    set (A3 := k3 a b c d) in *. set (A2 := k2 a b c d) in *. set (A1 := k1 a b c d) in *.
    destruct (approximately A3 0) eqn:E3; rewrite ?(approx0 A3 C3) in E3.
    - destruct (C2 E3) as [C2' C1]. clear C2 CD. rewrite E3.
      destruct (approximately A2 0) eqn:E2; rewrite ?(approx0 A2 C2') in E2.
      + specialize (C1 E2). rewrite E2. destruct (approximately A1 0) eqn:E1; rewrite ?(approx0 A1 C1) in E1.
        * rewrite E1. split; [intros []|]. intros [K _]. exfalso. apply NZ'. repeat split; auto. lra.
        * assert (N1 : A1 <> 0) by (intros Z; apply (approx0 A1 C1) in Z; congruence).
          rewrite keepRoots_In, In_one. assert (K : t = - a / A1 <-> 0 * t ^ 3 + 0 * t ^ 2 + A1 * t + a = 0); [|tauto].
          split; [intros ->; field; auto|]. intros K. apply Rmult_eq_reg_l with A1; auto. field_simplify; auto. lra.
      + assert (N2 : A2 <> 0) by (intros Z; apply (approx0 A2 C2') in Z; congruence).
        assert (SQ : 4 * A2 * (0 * t ^ 3 + A2 * t ^ 2 + A1 * t + a) = (2 * A2 * t + A1) ^ 2 - (A1 * A1 - 4 * A2 * a)) by ring.
        destruct (Rlt_dec (A1 * A1 - 4 * A2 * a) 0) as [LD|LD].
        * rewrite bsqrt_neg by auto. rewrite keepRoots_In. split; [intros [[K|[K|[]]] _]; discriminate|].
          intros [K _]. rewrite K in SQ. pose proof (pow2_ge_0 (2 * A2 * t + A1)). lra.
        * rewrite bsqrt_nonneg by lra. pose proof (sqrt_sqrt (A1 * A1 - 4 * A2 * a) ltac:(lra)) as S. set (w := sqrt _) in *.
          rewrite keepRoots_In, In_two.
          assert (K : t = (w - A1) / (2 * A2) \/ t = (- A1 - w) / (2 * A2) <-> 0 * t ^ 3 + A2 * t ^ 2 + A1 * t + a = 0); [|tauto].
          assert (SQ' : 4 * A2 * (0 * t ^ 3 + A2 * t ^ 2 + A1 * t + a) = (2 * A2 * t + A1 - w) * (2 * A2 * t + A1 + w)).
          { rewrite SQ. rewrite <- S. ring. }
          split.
          -- intros K. apply Rmult_eq_reg_l with (4 * A2); [|lra]. rewrite SQ', Rmult_0_r.
             assert (2 * A2 * t + A1 = w \/ 2 * A2 * t + A1 = - w) as [-> | ->]; [|ring|ring].
             destruct K as [-> | ->]; [left|right]; field; auto.
          -- intros K. rewrite K, Rmult_0_r in SQ'. symmetry in SQ'. apply Rmult_integral in SQ' as [Q|Q]; [left|right];
             apply Rmult_eq_reg_r with (2 * A2); try lra; field_simplify; lra.
    - assert (N3 : A3 <> 0) by (intros Z; apply (approx0 A3 C3) in Z; congruence).
      specialize (CD N3). rewrite (cubic_scaled A3 A2 A1 a t N3).
      rewrite (depressed (A2 / A3) (A1 / A3) (a / A3) t). cbv zeta.
      set (al := A2 / A3) in *. set (be := A1 / A3) in *. set (ga := a / A3) in *.
      set (p := (3 * be - al * al) / 3). set (q := (2 * al * al * al - 9 * al * be + 27 * ga) / 27).
      rewrite <- (cardanoRoots_iff al p q t). unfold cardanoRoots.
      assert (ED : cardano al be ga = q / 2 * (q / 2) + p / 3 * (p / 3) * (p / 3)) by (unfold cardano, p, q; field).
      rewrite ED in CD. set (D := q / 2 * (q / 2) + p / 3 * (p / 3) * (p / 3)) in *.
      destruct (Rltb_spec D 0) as [LD|LD].
      + destruct (Rlt_dec D 0) as [LD'|LD']; [|lra]. set (k3' := - p / 3 * (- p / 3) * (- p / 3)).
        assert (Pp : 0 <= k3').
        { pose proof (Rle_0_sqr (q / 2)) as Q0. unfold Rsqr in Q0. unfold D in LD.
          unfold k3'. replace (- p / 3 * (- p / 3) * (- p / 3)) with (- (p / 3 * (p / 3) * (p / 3))) by field. lra. }
        rewrite bsqrt_nonneg by auto. rewrite keepRoots_In.
        set (r := sqrt k3').
        assert (Q : (if Rltb (- q / (2 * r)) (-1) then -1 else if Rltb 1 (- q / (2 * r)) then 1 else - q / (2 * r)) = - q / (2 * r)).
        { assert (Pr : 0 < r). { apply sqrt_lt_R0. pose proof (Rle_0_sqr (q / 2)) as Q0. unfold Rsqr in Q0. unfold D in LD.
          unfold k3'. replace (- p / 3 * (- p / 3) * (- p / 3)) with (- (p / 3 * (p / 3) * (p / 3))) by field. lra. }
          assert (Er : r * r = k3') by (apply sqrt_sqrt; auto).
          assert (H : q * q <= (2 * r) * (2 * r)).
          { replace (2 * r * (2 * r)) with (4 * k3') by (rewrite <- Er; ring). unfold D in LD. unfold k3'.
            replace (- p / 3 * (- p / 3) * (- p / 3)) with (- (p / 3 * (p / 3) * (p / 3))) by field. lra. }
          assert (Aq : Rabs q <= 2 * r). { rewrite <- (Rabs_right (2 * r)) by lra. apply Rsqr_le_abs_0. exact H. }
          assert (Aq' : Rabs (- q / (2 * r)) <= 1).
          { unfold Rdiv. rewrite Rabs_mult, Rabs_Ropp, (Rabs_right (/ (2 * r))) by (apply Rle_ge; left; apply Rinv_0_lt_compat; lra).
            apply Rmult_le_reg_r with (2 * r); [lra|]. rewrite Rmult_assoc, Rinv_l by lra. lra. }
          assert (B : -1 <= - q / (2 * r) <= 1) by (revert Aq'; unfold Rabs; destruct (Rcase_abs _); lra).
          destruct (Rltb_spec (- q / (2 * r)) (-1)); [lra|]. destruct (Rltb_spec 1 (- q / (2 * r))); [lra|reflexivity]. }
        rewrite Q. unfold tau. numRg. reflexivity.
      + destruct (Rlt_dec D 0) as [LD'|_]; [lra|].
        destruct (approximately D 0) eqn:A0.
        * assert (Z : D = 0). { apply approx_iff in A0. rewrite Rminus_0_r, Rabs_right in A0 by lra. lra. }
          destruct (Req_EM_T D 0) as [_|]; [|contradiction]. rewrite keepRoots_In.
          assert (U : (if Rltb (q / 2) 0 then crt (- (q / 2)) else - crt (q / 2)) = crt (- (q / 2))).
          { destruct (Rltb (q / 2) 0); auto. symmetry. apply crt_odd. }
          rewrite U. reflexivity.
        * destruct (Req_EM_T D 0) as [Z|_].
          { rewrite Z in A0. assert (approximately 0 0 = true) by (apply approx_iff; rewrite Rminus_0_r, Rabs_R0; lra). congruence. }
          rewrite bsqrt_nonneg by auto. rewrite keepRoots_In. reflexivity.
  Qed.
End Roots.

Section RootsNone.
  Context (rnd : R -> R).
  #[local] Hint Extern 0 (TrigOps R) => exact (RTrig rnd) : typeclass_instances.
  Lemma cubicRoots_zero : cubicRoots 0 0 0 0 = [].
  Proof.
    unfold cubicRoots. numRg.
    rewrite (proj2 (approx_iff _ 0)) by (rewrite Rminus_0_r; replace (- 0 + 3 * 0 - 3 * 0 + 0) with 0 by ring; rewrite Rabs_R0; lra).
    rewrite (proj2 (approx_iff _ 0)) by (rewrite Rminus_0_r; replace (3 * 0 - 6 * 0 + 3 * 0) with 0 by ring; rewrite Rabs_R0; lra).
    rewrite (proj2 (approx_iff _ 0)) by (rewrite Rminus_0_r; replace (-3 * 0 + 3 * 0) with 0 by ring; rewrite Rabs_R0; lra).
    reflexivity.
  Qed.
  (** C48, C49: crossings of the x axis. *)
  Theorem roots_quadratic (b : bezier R) (seg : option (segment R)) : length (cps b) = 3%nat -> seg = None \/ seg = Some [] ->
    (exists q, In q (cps b) /\ snd q <> 0) ->
    exists l, roots b seg = Ok l /\ forall t, In t l <-> snd (curve (cps b) t) = 0 /\ near_unit t.
  Proof.
    intros L S (q & Hq & N). destruct b as [p u v]; cbn [cps] in *.
    destruct p as [|[x0 y0] [|[x1 y1] [|[x2 y2] [|p3 r]]]]; try (simpl in L; lia).
    exists (quadRoots y0 y1 y2). split; [destruct S as [-> | ->]; reflexivity|]. intros t.
    rewrite quadRoots_iff by (simpl in Hq; intros (A & B & C); destruct Hq as [<-|[<-|[<-|[]]]]; cbn [snd] in N; auto).
    rewrite curve3. reflexivity.
  Qed.
  Theorem roots_cubic (b : bezier R) (seg : option (segment R)) : length (cps b) = 4%nat -> seg = None \/ seg = Some [] ->
    (exists q, In q (cps b) /\ snd q <> 0) -> cubic_clear (cy (cps b) 0) (cy (cps b) 1) (cy (cps b) 2) (cy (cps b) 3) ->
    exists l, roots b seg = Ok l /\ forall t, In t l <-> snd (curve (cps b) t) = 0 /\ near_unit t.
  Proof.
    intros L S (q & Hq & N) C. destruct b as [p u v]; cbn [cps] in *.
    destruct p as [|[x0 y0] [|[x1 y1] [|[x2 y2] [|[x3 y3] [|p4 r]]]]]; try (simpl in L; lia). unfold cy in C; cbn [nth snd] in C.
    exists (cubicRoots y0 y1 y2 y3). split; [destruct S as [-> | ->]; reflexivity|]. intros t.
    rewrite cubicRoots_iff; [|simpl in Hq; intros (A & B & C' & D); destruct Hq as [<-|[<-|[<-|[<-|[]]]]]; cbn [snd] in N; auto|auto].
    rewrite curve4. reflexivity.
  Qed.
  Theorem roots_flat (b : bezier R) : (length (cps b) = 3 \/ length (cps b) = 4)%nat -> (forall q, In q (cps b) -> snd q = 0) -> roots b None = Ok [].
  Proof.
    intros L Z. destruct b as [p u v]; cbn [cps] in *.
    destruct p as [|[x0 y0] [|[x1 y1] [|[x2 y2] [|[x3 y3] [|p4 r]]]]]; try (simpl in L; lia).
    - assert (y0 = 0) by exact (Z (x0, y0) (or_introl eq_refl)). assert (y1 = 0) by exact (Z (x1, y1) (or_intror (or_introl eq_refl))).
      assert (y2 = 0) by exact (Z (x2, y2) (or_intror (or_intror (or_introl eq_refl)))). subst.
      transitivity (Ok (quadRoots 0 0 0)); [reflexivity|]. f_equal. apply quadRoots_zero.
    - assert (y0 = 0) by exact (Z (x0, y0) (or_introl eq_refl)). assert (y1 = 0) by exact (Z (x1, y1) (or_intror (or_introl eq_refl))).
      assert (y2 = 0) by exact (Z (x2, y2) (or_intror (or_intror (or_introl eq_refl)))).
      assert (y3 = 0) by exact (Z (x3, y3) (or_intror (or_intror (or_intror (or_introl eq_refl))))). subst.
      transitivity (Ok (cubicRoots 0 0 0 0)); [reflexivity|]. f_equal. apply cubicRoots_zero.
  Qed.
  Theorem roots_line_raises (b : bezier R) : length (cps b) = 2%nat -> roots b None = Err IndexError.
  Proof. intros L. destruct b as [p u v]; cbn [cps] in *. destruct p as [|a [|c [|e r]]]; try (simpl in L; lia). reflexivity. Qed.
End RootsNone.

(** Relative to a line, with exact trigonometry. *)
Section RootsLine.
  #[local] Existing Instance RExact.
  Variables (a z : pt).
  Hypothesis (Naz : a <> z).
  Lemma roots_aligned (b : bezier R) : roots b (Some [a; z]) = roots (mkBez (map (laid a z) (cps b)) 0 1) None.
  Proof. unfold roots. rewrite alignPoints_ok by (simpl; lia). reflexivity. Qed.
  Lemma off_line (p : list pt) : (exists q, In q p /\ ~ on_line a z q) -> exists q, In q (map (laid a z) p) /\ snd q <> 0.
  Proof.
    intros (q & Hq & N). exists (laid a z q). split; [now apply in_map|]. intros E. apply N. now apply laid_axis.
  Qed.
  Theorem roots_line_quadratic (b : bezier R) : length (cps b) = 3%nat -> (exists q, In q (cps b) /\ ~ on_line a z q) ->
    exists l, roots b (Some [a; z]) = Ok l /\ forall t, In t l <-> on_line a z (curve (cps b) t) /\ near_unit t.
  Proof.
    intros L N. rewrite roots_aligned.
    destruct (roots_quadratic (fun x => x) (mkBez (map (laid a z) (cps b)) 0 1) None) as (l & E & H); cbn [cps]; auto.
    - now rewrite map_length.
    - now apply off_line.
    - exists l. split; [exact E|]. intros t. rewrite H. cbn [cps]. rewrite curve_laid by lia. now rewrite laid_axis.
  Qed.
  Theorem roots_line_cubic (b : bezier R) : length (cps b) = 4%nat -> (exists q, In q (cps b) /\ ~ on_line a z q) ->
    let y := fun i => vcross (vsub z a) (vsub (nth i (cps b) (0, 0)) a) / vdist a z in cubic_clear (y 0%nat) (y 1%nat) (y 2%nat) (y 3%nat) ->
    exists l, roots b (Some [a; z]) = Ok l /\ forall t, In t l <-> on_line a z (curve (cps b) t) /\ near_unit t.
  Proof.
    intros L N y C. rewrite roots_aligned.
    assert (Y : forall i, (i < 4)%nat -> cy (map (laid a z) (cps b)) i = y i).
    { intros i Hi. unfold cy. rewrite (nth_indep _ (0, 0) (laid a z (0, 0))) by (rewrite map_length; lia). rewrite map_nth.
      unfold y. destruct (laid_form a z (nth i (cps b) (0, 0))) as [_ B]. rewrite <- B. pose proof (vdist_pos a z Naz). field. lra. }
    destruct (roots_cubic (fun x => x) (mkBez (map (laid a z) (cps b)) 0 1) None) as (l & E & H); cbn [cps]; auto.
    - now rewrite map_length.
    - now apply off_line.
    - rewrite !Y by lia. exact C.
    - exists l. split; [exact E|]. intros t. rewrite H. cbn [cps]. rewrite curve_laid by lia. now rewrite laid_axis.
  Qed.
  Theorem roots_in_line (b : bezier R) : (length (cps b) = 3 \/ length (cps b) = 4)%nat -> (forall q, In q (cps b) -> on_line a z q) -> roots b (Some [a; z]) = Ok [].
  Proof.
    intros L N. rewrite roots_aligned. apply (roots_flat (fun x => x)); cbn [cps]; [now rewrite map_length|].
    intros q Hq. apply in_map_iff in Hq as (p & <- & Hp). apply laid_axis; auto.
  Qed.
  (** C50 *)
  Lemma between_iff (v m M : R) : m <= M -> between v m M = true <-> m - 1 / 1000000 <= v <= M + 1 / 1000000.
  Proof.
    intros L. unfold between. numRg. rewrite !orb_true_iff, andb_true_iff, !Rleb_true, !approx_iff.
    split.
    - intros [K|[K|K]]; [lra| |]; unfold Rabs in K; destruct (Rcase_abs _); lra.
    - intros K. destruct (Rle_dec m v) as [A|A]; [destruct (Rle_dec v M) as [B|B]|].
      + auto.
      + right; right. apply Rabs_le. lra.
      + right; left. apply Rabs_le. lra.
  Qed.
  Lemma pminR (x y : R) : pmin x y = Rmin x y.
  Proof. unfold pmin, Rmin. numRg. destruct (Rltb_spec y x), (Rle_dec x y); lra. Qed.
  Lemma pmaxR (x y : R) : pmax x y = Rmax x y.
  Proof. unfold pmax, Rmax. numRg. destruct (Rltb_spec x y), (Rle_dec x y); lra. Qed.
  Lemma lineIntersects_filter (b : bezier R) rs : (1 <= length (cps b))%nat -> roots b (Some [a; z]) = Ok rs ->
    exists l, lineIntersects b a z = Ok l /\ forall t, In t l <-> In t rs /\ near_box a z (curve (cps b) t).
  Proof.
    intros L E. unfold lineIntersects. rewrite E. cbn [bind].
    set (f := fun t => between (fst (curve (cps b) t)) (pmin (fst a) (fst z)) (pmax (fst a) (fst z)) && between (snd (curve (cps b) t)) (pmin (snd a) (snd z)) (pmax (snd a) (snd z))).
    rewrite (filterM_pure _ f) by (intros t _; rewrite get_ok by auto; reflexivity).
    eexists; split; [reflexivity|]. intros t. rewrite filter_In. unfold f, near_box.
    assert (M1 : Rmin (fst a) (fst z) <= Rmax (fst a) (fst z)) by (eapply Rle_trans; [apply Rmin_l | apply Rmax_l]).
    assert (M2 : Rmin (snd a) (snd z) <= Rmax (snd a) (snd z)) by (eapply Rle_trans; [apply Rmin_l | apply Rmax_l]).
    rewrite !pminR, !pmaxR, andb_true_iff, !between_iff by auto. reflexivity.
  Qed.
  Lemma seg_in_box p : on_segment a z p -> near_box a z p.
  Proof.
    intros (s & Hs & ->). unfold near_box, along, vadd, vscale, vsub; cbn [fst snd].
    unfold Rmin, Rmax. destruct (Rle_dec (fst a) (fst z)), (Rle_dec (snd a) (snd z)); nra.
  Qed.
  Lemma line_dec (p : list pt) : (exists q, In q p /\ ~ on_line a z q) \/ (forall q, In q p -> on_line a z q).
  Proof.
    induction p as [|q p IH]; [right; intros q []|]. destruct (Req_EM_T (snd (laid a z q)) 0) as [E|E].
    - apply laid_axis in E; [|exact Naz]. destruct IH as [(x & H & N)|A].
      + left. exists x. split; [now right|exact N].
      + right. intros x [<-|H]; auto.
    - left. exists q. split; [now left|]. intros H. apply E. now apply laid_axis.
  Qed.
  Theorem lineIntersects_quadratic (b : bezier R) : length (cps b) = 3%nat -> exists l, lineIntersects b a z = Ok l /\
    (forall t, In t l -> near_unit t /\ on_line a z (curve (cps b) t) /\ near_box a z (curve (cps b) t)) /\
    ((exists q, In q (cps b) /\ ~ on_line a z q) -> forall t, 0 <= t <= 1 -> on_segment a z (curve (cps b) t) -> In t l).
  Proof.
    intros L. destruct (line_dec (cps b)) as [N|A].
    - destruct (roots_line_quadratic b L N) as (rs & E & H). destruct (lineIntersects_filter b rs) as (l & F & G); [lia|exact E|].
      exists l. split; [exact F|]. split.
      + intros t Ht. apply G in Ht as (I & B). apply H in I as (O & U). auto.
      + intros _ t Ht S. apply G. split; [|now apply seg_in_box]. apply H. split; [|left; exact Ht].
        destruct S as (s & _ & ->). now exists s.
    - destruct (lineIntersects_filter b []) as (l & F & G); [lia|apply roots_in_line; auto|].
      exists l. split; [exact F|]. split.
      + intros t Ht. now apply G in Ht as ([] & _).
      + intros (q & Hq & N). elim N. auto.
  Qed.
  Theorem lineIntersects_cubic (b : bezier R) : length (cps b) = 4%nat -> (exists q, In q (cps b) /\ ~ on_line a z q) ->
    let y := fun i => vcross (vsub z a) (vsub (nth i (cps b) (0, 0)) a) / vdist a z in cubic_clear (y 0%nat) (y 1%nat) (y 2%nat) (y 3%nat) ->
    exists l, lineIntersects b a z = Ok l /\
    (forall t, In t l -> near_unit t /\ on_line a z (curve (cps b) t) /\ near_box a z (curve (cps b) t)) /\
    (forall t, 0 <= t <= 1 -> on_segment a z (curve (cps b) t) -> In t l).
  Proof.
    intros L N y C. destruct (roots_line_cubic b L N C) as (rs & E & H). destruct (lineIntersects_filter b rs) as (l & F & G); [lia|exact E|].
    exists l. split; [exact F|]. split.
    - intros t Ht. apply G in Ht as (I & B). apply H in I as (O & U). auto.
    - intros t Ht S. apply G. split; [|now apply seg_in_box]. apply H. split; [|left; exact Ht].
      destruct S as (s & _ & ->). now exists s.
  Qed.
  Theorem intersectWithLine_quadratic (b l : bezier R) : length (cps b) = 3%nat -> cps l = [a; z] -> (exists q, In q (cps b) /\ ~ on_line a z q) ->
    (intersectWithLine b l = Ok None /\ forall t, 0 <= t <= 1 -> ~ on_line a z (curve (cps b) t)) \/
    (exists t r, intersectWithLine b l = Ok (Some (curve (cps b) t)) /\ 0 <= t <= 1 /\ Rabs (t - r) <= 1 / 1000000 /\ on_line a z (curve (cps b) r)).
  Proof.
    intros L E N. destruct (roots_line_quadratic b L N) as (rs & F & H).
    unfold intersectWithLine. replace (Nat.eqb (order b) 1) with false by (unfold order; rewrite L; reflexivity).
    rewrite E, F. cbn [bind]. destruct rs as [|r rs].
    - left. split; [reflexivity|]. intros t Ht O. apply (proj2 (H t)). split; [exact O|left; exact Ht].
    - right. destruct (proj1 (H r) (or_introl eq_refl)) as (O & U). rewrite get_ok by lia. cbn [bind].
      eexists; exists r. split; [reflexivity|]. numRg.
      unfold near_unit in U. destruct (Rltb_spec r 0); [|destruct (Rltb_spec 1 r)]; (split; [lra|]; split; [|exact O]); apply Rabs_le;
        repeat (match goal with K : _ \/ _ |- _ => destruct K as [K|K] | K : Rabs _ <= _ |- _ => unfold Rabs in K; destruct (Rcase_abs _) end); lra.
  Qed.
End RootsLine.
