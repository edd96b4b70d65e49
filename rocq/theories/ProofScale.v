(** scale, offset, _linear and _clockwise (Bezier.py 54-63, 745-816). *)
From Coq Require Import List ZArith Bool Reals Lra Lia Psatz.
From Verif Require Import Py Inst SpecGeom SpecMatrix SpecFit SpecUtil SpecBezier SpecOrder SpecBounds
  MTransform MBounds MBezUtil MPathUtil MBezier SpecCurve
  ProofTransform ProofMatrix ProofFit ProofUtil ProofBounds ProofBezier ProofBezier2 ProofBezier3 ProofBBox ProofAlign ProofLut ProofLength ProofReduce.
Import ListNotations.
Local Open Scope R_scope.

Lemma vzero (v : pt) : v <> (0, 0) -> 0 < vdot v v.
Proof.
  destruct v as [x y]. intros N. unfold vdot; cbn [fst snd]. destruct (Req_dec x 0) as [->|X]; [destruct (Req_dec y 0) as [->|Y]; [congruence|]|]; nra.
Qed.
Definition unit_left (d : pt) : pt := vscale (/ sqrt (vdot d d)) (turned d).
Lemma unit_left_normal (d : pt) : d <> (0, 0) -> left_normal d (unit_left d).
Proof.
  intros N. pose proof (vzero d N) as P. pose proof (sqrt_lt_R0 _ P) as Q. pose proof (sqrt_sqrt (vdot d d) ltac:(lra)) as S. set (q := sqrt (vdot d d)) in *.
  destruct d as [x y]. unfold left_normal, unit_left, vdot, vcross, vscale, turned in *; cbn [fst snd] in *. fold q. split; [|split].
  - replace (/ q * - y * (/ q * - y) + / q * x * (/ q * x)) with ((x * x + y * y) / (q * q)) by (field; lra). rewrite S. field. lra.
  - field. lra.
  - replace (x * (/ q * x) - y * (/ q * - y)) with ((x * x + y * y) / q) by (field; lra). apply Rdiv_lt_0_compat; lra.
Qed.
Lemma left_normal_unique (d n n' : pt) : left_normal d n -> left_normal d n' -> n = n'.
Proof.
  destruct d as [x y], n as [a b], n' as [c e]. unfold left_normal, vdot, vcross; cbn [fst snd]. intros (A1 & A2 & A3) (B1 & B2 & B3).
  assert (P : 0 < x * x + y * y) by nra.
  assert (Comb : forall p q, p * x + q * y = 0 -> p * (x * x + y * y) = - y * (x * q - y * p) /\ q * (x * x + y * y) = x * (x * q - y * p)).
  { intros p q H. split; [replace (p * (x * x + y * y)) with (- y * (x * q - y * p) + x * (p * x + q * y)) by ring|replace (q * (x * x + y * y)) with (x * (x * q - y * p) + y * (p * x + q * y)) by ring]; rewrite H; ring. }
  destruct (Comb a b A2) as [Ea Eb]. destruct (Comb c e B2) as [Ec Ee]. clear Comb.
  set (S := x * x + y * y) in *. set (k := x * b - y * a) in *. set (l := x * e - y * c) in *.
  assert (K : k * k = S). { assert (S * S = k * k * S); [|nra]. replace (S * S) with ((a * a + b * b) * (S * S)) by (rewrite A1; ring). replace ((a * a + b * b) * (S * S)) with ((a * S) * (a * S) + (b * S) * (b * S)) by ring. rewrite Ea, Eb. unfold S. ring. }
  assert (Lq : l * l = S). { assert (S * S = l * l * S); [|nra]. replace (S * S) with ((c * c + e * e) * (S * S)) by (rewrite B1; ring). replace ((c * c + e * e) * (S * S)) with ((c * S) * (c * S) + (e * S) * (e * S)) by ring. rewrite Ec, Ee. unfold S. ring. }
  assert (k = l) by nra. f_equal; apply Rmult_eq_reg_r with S; try lra; [rewrite Ea, Ec|rewrite Eb, Ee]; nra.
Qed.

Section Scale.
  Context (rnd : R -> R).
  #[local] Hint Extern 0 (TrigOps R) => exact (RTrig rnd) : typeclass_instances.
  Lemma end_derivatives (b : bezier R) : (length (cps b) = 3 \/ length (cps b) = 4)%nat -> let k := INR (length (cps b) - 1) in
    derivative b 0 = Ok (vscale k (first_leg (cps b))) /\ derivative b 1 = Ok (vscale k (last_leg (cps b))).
  Proof.
    intros L. rewrite !derivative_formula by assumption. destruct b as [p u v]; cbn [cps] in *.
    destruct p as [|[x0 y0] [|[x1 y1] [|[x2 y2] [|[x3 y3] [|p4 r]]]]]; try (simpl in L; lia);
      unfold speed_at, first_leg, last_leg, vadd, vscale, vsub; cbn [fst snd nth length Nat.sub]; simpl INR; split; apply Ok_pair; ring.
  Qed.
  Lemma end_normal (b : bezier R) t k a : derivative b t = Ok (vscale k a) -> 0 < k ->
    (a = (0, 0) -> normal b t = Err ZeroDivisionError) /\ (a <> (0, 0) -> normal b t = Ok (unit_left a)).
  Proof.
    intros E K. split.
    - intros ->. unfold normal. rewrite E. cbn [bind]. unfold bsqrt, vscale; cbn [fst snd]. numRg.
      rewrite (proj2 (Rltb_false _ _)) by lra. change (tsqrt ?x) with (sqrt x). rewrite !Rmult_0_r, Rplus_0_r, sqrt_0. now rewrite ndivR0.
    - intros N. assert (Nk : vscale k a <> (0, 0)).
      { intros Z. apply N. destruct a as [x y]. unfold vscale in Z; cbn [fst snd] in Z. injection Z as Z1 Z2. f_equal; nra. }
      destruct (normal_of rnd b t _ E Nk) as [Q ->]. unfold unit_left.
      pose proof (vzero a N) as P. pose proof (sqrt_lt_R0 _ P) as Q'. destruct a as [x y]. unfold vscale, vdot, turned in *; cbn [fst snd] in *.
      assert (S : sqrt (k * x * (k * x) + k * y * (k * y)) = k * sqrt (x * x + y * y)).
      { replace (k * x * (k * x) + k * y * (k * y)) with ((k * k) * (x * x + y * y)) by ring. rewrite sqrt_mult by nra. now rewrite sqrt_square by lra. }
      rewrite S. apply Ok_pair; field; lra.
  Qed.
  Lemma end_offsets (b : bezier R) : (length (cps b) = 3 \/ length (cps b) = 4)%nat ->
    (first_leg (cps b) = (0, 0) -> offsetPoint b 0 10 = Err ZeroDivisionError) /\
    (first_leg (cps b) <> (0, 0) -> let p := nth 0 (cps b) (0, 0) in let n := unit_left (first_leg (cps b)) in offsetPoint b 0 10 = Ok (p, n, vadd p (vscale 10 n))) /\
    (last_leg (cps b) = (0, 0) -> offsetPoint b 1 10 = Err ZeroDivisionError) /\
    (last_leg (cps b) <> (0, 0) -> let p := nth (length (cps b) - 1) (cps b) (0, 0) in let n := unit_left (last_leg (cps b)) in offsetPoint b 1 10 = Ok (p, n, vadd p (vscale 10 n))).
  Proof.
    intros L. destruct (end_derivatives b L) as [D0 D1]. assert (K : 0 < INR (length (cps b) - 1)) by (apply lt_0_INR; lia).
    destruct (end_normal b 0 _ _ D0 K) as [A1 A2]. destruct (end_normal b 1 _ _ D1 K) as [B1 B2].
    assert (G : forall t, get b t = Ok (curve (cps b) t)) by (intros t; apply get_ok; lia).
    unfold offsetPoint. rewrite !G. cbn [bind]. rewrite curve_0, curve_1 by lia. split; [|split; [|split]]; intros Z.
    - rewrite A1 by auto. reflexivity.
    - rewrite A2 by auto. cbn [bind]. unfold vadd, vscale; cbn [fst snd]. numRg. f_equal. f_equal. f_equal; ring.
    - rewrite B1 by auto. reflexivity.
    - rewrite B2 by auto. cbn [bind]. unfold vadd, vscale; cbn [fst snd]. numRg. f_equal. f_equal. f_equal; ring.
  Qed.
  (** Where the end normals meet. *)
  Lemma origin_ok (p q a z : pt) : a <> (0, 0) -> z <> (0, 0) ->
    let v0 := (p, unit_left a, vadd p (vscale 10 (unit_left a))) in let v1 := (q, unit_left z, vadd q (vscale 10 (unit_left z))) in
    (vcross a z = 0 -> scaleOrigin v0 v1 = Err ValueError) /\
    (vcross a z <> 0 -> exists o, scaleOrigin v0 v1 = Ok o /\ vdot (vsub o p) a = 0 /\ vdot (vsub o q) z = 0).
  Proof.
    intros Na Nz v0 v1. pose proof (sqrt_lt_R0 _ (vzero a Na)) as Qa. pose proof (sqrt_lt_R0 _ (vzero z Nz)) as Qz.
    set (qa := sqrt (vdot a a)) in *. set (qz := sqrt (vdot z z)) in *.
    assert (X : vcross (vsub p (vadd p (vscale 10 (unit_left a)))) (vsub q (vadd q (vscale 10 (unit_left z)))) = 100 * vcross a z / (qa * qz)).
    { unfold unit_left. fold qa qz. destruct a, z, p, q. unfold vcross, vsub, vadd, vscale, turned; cbn [fst snd]. field. lra. }
    unfold scaleOrigin, v0, v1. split; intros C.
    - rewrite (proj2 (lli4_None _ _ _ _)); [reflexivity|]. unfold parallel. rewrite X, C. field. split; lra.
    - destruct (lli4 _ _ _ _) as [o|] eqn:E.
      + exists o. split; [reflexivity|]. apply lli4_on in E as (_ & (s & Es) & (r & Er)). split.
        * rewrite Es. unfold unit_left. fold qa. destruct a, p. unfold vdot, along, vsub, vadd, vscale, turned; cbn [fst snd]. field. lra.
        * rewrite Er. unfold unit_left. fold qz. destruct z, q. unfold vdot, along, vsub, vadd, vscale, turned; cbn [fst snd]. field. lra.
      + exfalso. apply lli4_None in E. unfold parallel in E. rewrite X in E. apply C.
        apply Rmult_eq_reg_l with (100 / (qa * qz)); [|apply Rgt_not_eq; apply Rdiv_lt_0_compat; [lra|nra]]. rewrite Rmult_0_r, <- E. field. lra.
  Qed.
  Lemma inner_ok (p o : pt) k : (p = o -> movedInner p o k = Err ZeroDivisionError) /\ (p <> o -> movedInner p o k = Ok (away o k p)).
  Proof.
    destruct p as [px py], o as [ox oy]. unfold movedInner, away. cbn [fst snd]. numRg.
    assert (E : sqrt ((px - ox) * (px - ox) + (py - oy) * (py - oy)) = vdist (ox, oy) (px, py)) by (unfold vdist, dist2; cbn [fst snd]; f_equal; ring).
    change (thypot (px - ox) (py - oy)) with (sqrt ((px - ox) * (px - ox) + (py - oy) * (py - oy))). rewrite E. split; intros H.
    - injection H as -> ->. replace (vdist (ox, oy) (ox, oy)) with 0; [now rewrite ndivR0|]. unfold vdist, dist2; cbn [fst snd]. rewrite <- sqrt_0. f_equal. ring.
    - assert (P : 0 < vdist (ox, oy) (px, py)) by (apply vdist_pos; congruence). rewrite ndivR by lra. cbn [bind]. rewrite ndivR by lra. cbn [bind].
      unfold vadd, vscale, vsub; cbn [fst snd]. apply Ok_pair; field; lra.
  Qed.
  (** C87 *)
  Lemma clockwise_ok (p : list pt) : (2 <= length p)%nat -> let u := vsub (nth (length p - 1) p (0, 0)) (nth 0 p (0, 0)) in let w := first_leg p in
    exists c, isClockwise p = Ok c /\ (c = true <-> 0 < vcross u w \/ (vcross u w = 0 /\ vdot u w < 0)).
  Proof.
    intros L u w. unfold isClockwise. rewrite (idx_nth p 0 (0, 0)), (idx_nth p 1 (0, 0)) by lia. unfold idx_last. rewrite last_error_nth, (nth_error_nth' p (0, 0)) by lia. cbn [bind].
    eexists. split; [reflexivity|]. unfold angle. unfold first_leg in w. destruct (nth 0 p (0, 0)) as [ax ay], (nth (length p - 1) p (0, 0)) as [zx zy], (nth 1 p (0, 0)) as [qx qy].
    unfold u, w, vcross, vdot, vsub; cbn [fst snd]. numRg. rewrite Rltb_true. set (cr := (zx - ax) * (qy - ay) - (zy - ay) * (qx - ax)). set (dt := (zx - ax) * (qx - ax) + (zy - ay) * (qy - ay)).
    change (tatan2 cr dt) with (Ratan2 cr dt). destruct (Rtotal_order cr 0) as [C|[C|C]].
    - pose proof (atan2_neg cr dt C). lra.
    - rewrite C. unfold Ratan2. pose proof PI_RGT_0. destruct (Rlt_dec 0 dt); [unfold Rdiv; rewrite Rmult_0_l, atan_0; lra|]. destruct (Rlt_dec dt 0).
      + destruct (Rle_dec 0 0); [|lra]. unfold Rdiv; rewrite Rmult_0_l, atan_0. lra.
      + destruct (Rlt_dec 0 0); [lra|]. lra.
    - pose proof (atan2_pos cr dt C). lra.
  Qed.
  (** C81 *)
  Theorem scale_number (b : bezier R) (d : R) : (length (cps b) = 3 \/ length (cps b) = 4)%nat ->
    let p := cps b in let a := first_leg p in let z := last_leg p in let u := vsub (nth (length p - 1) p (0, 0)) (nth 0 p (0, 0)) in
    let inner := removelast (tl p) in
    ((a = (0, 0) \/ z = (0, 0)) -> scaleNum b d = Err ZeroDivisionError) /\
    (a <> (0, 0) -> z <> (0, 0) -> vcross a z = 0 -> scaleNum b d = Err ValueError) /\
    (vcross a z <> 0 -> exists o n0 n1 k, left_normal a n0 /\ left_normal z n1 /\ normals_meet p o /\
      ((0 < vcross u a \/ (vcross u a = 0 /\ vdot u a < 0)) -> k = d) /\ (~ (0 < vcross u a \/ (vcross u a = 0 /\ vdot u a < 0)) -> k = - d) /\
      (In o inner -> scaleNum b d = Err ZeroDivisionError) /\
      (~ In o inner -> exists c, scaleNum b d = Ok c /\
         cps c = vadd (nth 0 p (0, 0)) (vscale d n0) :: map (away o k) inner ++ [vadd (nth (length p - 1) p (0, 0)) (vscale d n1)])).
  Proof.
    intros L p a z u inner. destruct (end_offsets b L) as (A1 & A2 & B1 & B2). fold p a z in A1, A2, B1, B2.
    destruct (clockwise_ok p ltac:(unfold p; lia)) as (c & Ec & Hc). fold u a in Hc.
    assert (Step : scaleNum b d = let* v0 := offsetPoint b 0 10 in let* v1 := offsetPoint b 1 10 in
      let* o := scaleOrigin v0 v1 in let* p0 := idx p 0 in let* pn := idx p (order b) in
      let e0 := movedEnd p0 (snd (fst v0)) d in let e1 := movedEnd pn (snd (fst v1)) d in let rc := if c then d else - d in
      let* p1 := idx p 1 in let* m1 := movedInner p1 o rc in
      if Nat.eqb (order b) 2 then newBezier [e0; m1; e1]
      else let* p2 := idx p 2 in let* m2 := movedInner p2 o rc in
        if Nat.eqb (order b) 3 then newBezier [e0; m1; m2; e1] else newBezier ([e0; m1; m2] ++ repeat (0, 0) (order b - 3) ++ [e1])).
    { unfold scaleNum. fold p. rewrite Ec. reflexivity. }
    rewrite Step. clear Step. split; [|split].
    - intros [Z|Z]; [rewrite (A1 Z); reflexivity|]. assert (D : {a = (0, 0)} + {a <> (0, 0)}).
      { destruct a as [x y]. destruct (Req_EM_T x 0); [destruct (Req_EM_T y 0)|]; [left; subst; reflexivity|right; congruence|right; congruence]. }
      destruct D as [D|D]; [rewrite (A1 D); reflexivity|]. rewrite (A2 D). cbn [bind]. rewrite (B1 Z). reflexivity.
    - intros Na Nz C. rewrite (A2 Na). cbn [bind]. rewrite (B2 Nz). cbn [bind].
      destruct (origin_ok (nth 0 p (0, 0)) (nth (length p - 1) p (0, 0)) a z Na Nz) as [O _]. rewrite (O C). reflexivity.
    - intros C. assert (Na : a <> (0, 0)) by (intros K; apply C; rewrite K; unfold vcross; cbn [fst snd]; ring). assert (Nz : z <> (0, 0)) by (intros K; apply C; rewrite K; unfold vcross; cbn [fst snd]; ring).
      destruct (origin_ok (nth 0 p (0, 0)) (nth (length p - 1) p (0, 0)) a z Na Nz) as [_ O]. destruct (O C) as (o & Eo & O1 & O2).
      exists o, (unit_left a), (unit_left z), (if c then d else - d). split; [now apply unit_left_normal|]. split; [now apply unit_left_normal|]. split; [split; assumption|].
      split; [intros K; apply Hc in K; now rewrite K|]. split; [intros K; destruct c; [exfalso; apply K, Hc; reflexivity|reflexivity]|].
      rewrite (A2 Na). cbn [bind]. rewrite (B2 Nz). cbn [bind]. rewrite Eo. cbn [bind fst snd]. rewrite (idx_nth p 0 (0, 0)), (idx_nth p 1 (0, 0)) by (unfold p; lia). unfold order. fold p. rewrite (idx_nth p (length p - 1) (0, 0)) by (unfold p; lia). cbn [bind].
      set (k := if c then d else - d). clearbody k.
      assert (ME : forall q n, movedEnd q n d = vadd q (vscale d n)) by (intros [? ?] [? ?]; reflexivity). rewrite !ME.
      set (e0 := vadd _ _). set (e1 := vadd (nth (length p - 1) p (0, 0)) _). clearbody e0 e1. unfold inner. clear - L p. subst p.
      destruct b as [p u v]; cbn [cps] in *. destruct p as [|p0 [|p1 [|p2 [|p3 [|p4 r]]]]]; try (simpl in L; lia); cbn [nth tl removelast length Nat.sub Nat.eqb map app In].
      + destruct (inner_ok p1 o k) as [M1 M2]. split.
        * intros [E|[]]. rewrite (M1 E). reflexivity.
        * intros N. rewrite M2 by tauto. cbn [bind]. rewrite newBezier_ok by (simpl; lia). eexists. split; reflexivity.
      + destruct (inner_ok p1 o k) as [M1 M2]. destruct (inner_ok p2 o k) as [M3 M4]. split.
        * assert (D : {p1 = o} + {p1 <> o}). { destruct p1 as [x y], o as [x' y']. destruct (Req_EM_T x x'); [destruct (Req_EM_T y y')|]; [left; subst; reflexivity|right; congruence|right; congruence]. }
          intros [E|[E|[]]]; [rewrite (M1 E); reflexivity|]. destruct D as [D|D]; [rewrite (M1 D); reflexivity|]. rewrite (M2 D). cbn [bind idx nth_error]. unfold idx; cbn [nth_error bind]. rewrite (M3 E). reflexivity.
        * intros N. rewrite M2 by tauto. cbn [bind]. unfold idx; cbn [nth_error bind]. rewrite M4 by tauto. cbn [bind]. rewrite newBezier_ok by (simpl; lia). eexists. split; reflexivity.
  Qed.
End Scale.

Section ScaleFn.
  Context (rnd : R -> R).
  #[local] Hint Extern 0 (TrigOps R) => exact (RTrig rnd) : typeclass_instances.
  (** The ray from o through the control point meets the offset tangent. *)
  Lemma meet_ok (p a n : pt) (r d k s : R) : a <> (0, 0) -> left_normal a n -> k <> 0 -> s <> 0 ->
    let o := vadd p (vscale r n) in let e := vadd p (vscale d n) in
    (r = 0 -> tangentMeet e (vscale k a) o (vadd p (vscale s a)) = Err TypeError) /\
    (r <> 0 -> tangentMeet e (vscale k a) o (vadd p (vscale s a)) = Ok (vadd e (vscale ((1 - d / r) * s) a))).
  Proof.
    intros Na (N1 & N2 & N3) K Sn o e. pose proof (vzero a Na) as P.
    assert (Cr : vcross a n <> 0) by lra.
    set (q := vadd p (vscale s a)). assert (Ee : (fst e + fst (vscale k a), snd e + snd (vscale k a)) = vadd e (vscale k a)) by reflexivity.
    assert (X : vcross (vsub (vadd e (vscale k a)) e) (vsub q o) = - (k * r) * vcross a n).
    { unfold o, e, q. destruct a, n, p. unfold vcross, vsub, vadd, vscale; cbn [fst snd]. ring. }
    unfold tangentMeet. numRg. rewrite Ee. split; intros H.
    - rewrite (proj2 (lli4_None _ _ _ _)); [reflexivity|]. unfold parallel. rewrite X, H; ring.
    - destruct (lli4 e (vadd e (vscale k a)) o q) as [m|] eqn:E.
      + f_equal. apply lli4_on in E as (Np & (x & Ex) & (y & Ey)). subst m. unfold o, e, q in Ey. unfold along in *. destruct a as [ax ay], n as [nx ny], p as [px py].
        unfold e, vcross, vsub, vadd, vscale in *; cbn [fst snd] in *.
        injection Ey as E1 E2.
        (* coordinates along n and a *)
        assert (F1 : (d - r * (1 - y)) * nx + (x * k - y * s) * ax = 0) by lra. assert (F2 : (d - r * (1 - y)) * ny + (x * k - y * s) * ay = 0) by lra.
        set (f := d - r * (1 - y)) in *. set (g := x * k - y * s) in *.
        assert (Y : f * (ax * ny - ay * nx) = 0) by (replace (f * (ax * ny - ay * nx)) with (ax * (f * ny + g * ay) - ay * (f * nx + g * ax)) by ring; rewrite F1, F2; ring).
        assert (Z3 : g * (ax * ny - ay * nx) = 0) by (replace (g * (ax * ny - ay * nx)) with (ny * (f * nx + g * ax) - nx * (f * ny + g * ay)) by ring; rewrite F1, F2; ring).
        assert (Y1 : f = 0) by (destruct (Rmult_integral _ _ Y); lra). assert (Z : g = 0) by (destruct (Rmult_integral _ _ Z3); lra). unfold f in Y1. unfold g in Z.
        assert (Y2 : y = 1 - d / r) by (replace d with (r * (1 - y)) by lra; field; lra). assert (Z' : x * k = y * s) by lra.
        rewrite <- Y2. f_equal; rewrite <- Z'; ring.
      + exfalso. apply lli4_None in E. unfold parallel in E. rewrite X in E. destruct (Rmult_integral _ _ E) as [Z|Z]; [|lra]. assert (k * r = 0) by lra. destruct (Rmult_integral _ _ H0); lra.
  Qed.
  Lemma on_normal (p a n o : pt) : a <> (0, 0) -> left_normal a n -> vdot (vsub o p) a = 0 -> exists r, o = vadd p (vscale r n).
  Proof.
    intros Na (N1 & N2 & N3) H. exists (vdot (vsub o p) n). destruct a as [ax ay], n as [nx ny], p as [px py], o as [ox oy].
    unfold vdot, vcross, vsub, vadd, vscale in *; cbn [fst snd] in *. set (x := ox - px) in *. set (y := oy - py) in *.
    assert (X1 : (x * ny - y * nx) * (ax * ny - ay * nx) = 0).
    { replace ((x * ny - y * nx) * (ax * ny - ay * nx)) with ((x * ax + y * ay) * (nx * nx + ny * ny) - (nx * ax + ny * ay) * (x * nx + y * ny)) by ring. rewrite H, N2. ring. }
    assert (X : x * ny = y * nx) by (destruct (Rmult_integral _ _ X1); lra).
    f_equal.
    - replace ((x * nx + y * ny) * nx) with (x * (nx * nx + ny * ny) - ny * (x * ny - y * nx)) by ring. rewrite N1, X. unfold x. ring.
    - replace ((x * nx + y * ny) * ny) with (y * (nx * nx + ny * ny) + nx * (x * ny - y * nx)) by ring. rewrite N1, X. unfold y. ring.
  Qed.
  Theorem scale_function (p0 p1 p2 p3 : pt) (u v : R) (d : R -> R) : let b := mkBez [p0; p1; p2; p3] u v in let a := vsub p1 p0 in let z := vsub p3 p2 in
    ((a = (0, 0) \/ z = (0, 0)) -> scaleFn b d = Err ZeroDivisionError) /\
    (a <> (0, 0) -> z <> (0, 0) -> vcross a z = 0 -> scaleFn b d = Err ValueError) /\
    (vcross a z <> 0 -> exists n0 n1 r0 r1, left_normal a n0 /\ left_normal z n1 /\ vadd p0 (vscale r0 n0) = vadd p3 (vscale r1 n1) /\
      (r0 = 0 \/ r1 = 0 -> scaleFn b d = Err TypeError) /\
      (r0 <> 0 -> r1 <> 0 -> exists c, scaleFn b d = Ok c /\ let e0 := vadd p0 (vscale (d 0) n0) in let e1 := vadd p3 (vscale (d 1) n1) in
         cps c = [e0; vadd e0 (vscale (1 - d 0 / r0) a); vsub e1 (vscale (1 - d 1 / r1) z); e1])).
  Proof.
    intros b a z. assert (L : (length (cps b) = 3 \/ length (cps b) = 4)%nat) by (right; reflexivity).
    destruct (end_offsets rnd b L) as (A1 & A2 & B1 & B2). change (first_leg (cps b)) with a in *. change (last_leg (cps b)) with z in *. change (nth 0 (cps b) (0, 0)) with p0 in *. change (nth (length (cps b) - 1) (cps b) (0, 0)) with p3 in *.
    destruct (end_derivatives b L) as [D0 D1]. change (first_leg (cps b)) with a in *. change (last_leg (cps b)) with z in *. change (INR (length (cps b) - 1)) with (INR 3) in *.
    assert (K3 : INR 3 = 3) by (simpl; lra). rewrite K3 in *.
    assert (Step : scaleFn b d = let* v0 := offsetPoint b 0 10 in let* v1 := offsetPoint b 1 10 in let* o := scaleOrigin v0 v1 in
       let e0 := movedEnd p0 (snd (fst v0)) (d 0) in let e1 := movedEnd p3 (snd (fst v1)) (d 1) in
       let* d0 := derivative b 0 in let* d1 := derivative b 1 in let* m1 := tangentMeet e0 d0 o p1 in let* m2 := tangentMeet e1 d1 o p2 in newBezier [e0; m1; m2; e1]) by reflexivity.
    rewrite Step, D0, D1. clear Step. cbn [bind]. split; [|split].
    - intros [Z|Z]; [rewrite (A1 Z); reflexivity|]. assert (D : {a = (0, 0)} + {a <> (0, 0)}).
      { destruct a as [x y]. destruct (Req_EM_T x 0); [destruct (Req_EM_T y 0)|]; [left; subst; reflexivity|right; congruence|right; congruence]. }
      destruct D as [D|D]; [rewrite (A1 D); reflexivity|]. rewrite (A2 D). cbn [bind]. rewrite (B1 Z). reflexivity.
    - intros Na Nz C. rewrite (A2 Na). cbn [bind]. rewrite (B2 Nz). cbn [bind]. destruct (origin_ok p0 p3 a z Na Nz) as [O _]. rewrite (O C). reflexivity.
    - intros C. assert (Na : a <> (0, 0)) by (intros K; apply C; rewrite K; unfold vcross; cbn [fst snd]; ring). assert (Nz : z <> (0, 0)) by (intros K; apply C; rewrite K; unfold vcross; cbn [fst snd]; ring).
      destruct (origin_ok p0 p3 a z Na Nz) as [_ O]. destruct (O C) as (o & Eo & O1 & O2).
      pose proof (unit_left_normal a Na) as U0. pose proof (unit_left_normal z Nz) as U1.
      destruct (on_normal p0 a _ o Na U0 O1) as (r0 & R0). destruct (on_normal p3 z _ o Nz U1 O2) as (r1 & R1).
      exists (unit_left a), (unit_left z), r0, r1. split; [exact U0|]. split; [exact U1|]. split; [congruence|].
      rewrite (A2 Na). cbn [bind]. rewrite (B2 Nz). cbn [bind]. rewrite Eo. cbn [bind fst snd].
      assert (ME : forall q n k, movedEnd q n k = vadd q (vscale k n)) by (intros [? ?] [? ?] k; reflexivity). rewrite !ME.
      assert (P1 : p1 = vadd p0 (vscale 1 a)) by (unfold a; destruct p0, p1; unfold vadd, vscale, vsub; cbn [fst snd]; f_equal; ring).
      assert (P2 : p2 = vadd p3 (vscale (-1) z)) by (unfold z; destruct p2, p3; unfold vadd, vscale, vsub; cbn [fst snd]; f_equal; ring).
      destruct (meet_ok p0 a _ r0 (d 0) 3 1 Na U0) as [M1 M2]; [lra|lra|]. destruct (meet_ok p3 z _ r1 (d 1) 3 (-1) Nz U1) as [M3 M4]; [lra|lra|].
      rewrite <- R0, <- P1 in M1, M2. rewrite <- R1, <- P2 in M3, M4. split.
      + intros [Z|Z]; [rewrite (M1 Z); reflexivity|]. destruct (Req_EM_T r0 0) as [Y|Y]; [rewrite (M1 Y); reflexivity|]. rewrite (M2 Y). cbn [bind]. rewrite (M3 Z). reflexivity.
      + intros Y Z. rewrite (M2 Y). cbn [bind]. rewrite (M4 Z). cbn [bind]. rewrite newBezier_ok by (simpl; lia). eexists. split; [reflexivity|]. cbn [cps].
        rewrite Rmult_1_r. assert (V : forall e x, vadd e (vscale (x * -1) z) = vsub e (vscale x z)) by (intros e x; unfold vadd, vsub, vscale; cbn [fst snd]; f_equal; ring).
        rewrite V. reflexivity.
  Qed.
  (** A quadratic is raised first, to a curve whose first leg is zero. *)
  Theorem scale_function_quadratic (b : bezier R) (d : R -> R) : length (cps b) = 3%nat -> scaleFn b d = Err ZeroDivisionError.
  Proof.
    destruct b as [p u v]; cbn [cps]. intros L. destruct p as [|[x0 y0] [|[x1 y1] [|[x2 y2] [|p3 r]]]]; try (simpl in L; lia).
    unfold scaleFn, order. cbn [cps length Nat.sub Nat.eqb]. unfold raiseOrder, raisedPoint. cbn -[Rmult Rplus Rminus Rdiv newBezier scaleFnBody]. numRg.
    rewrite newBezier_ok by (simpl; lia). cbn [bind]. unfold scaleFnBody. unfold offsetPoint at 1. rewrite get_ok by (simpl; lia). cbn [bind].
    assert (N : forall q : bezier R, derivative q 0 = Ok (0, 0) -> normal q 0 = Err ZeroDivisionError).
    { intros q E. apply (end_normal rnd q 0 1 (0, 0)); [rewrite E; unfold vscale; cbn [fst snd]; apply Ok_pair; ring|lra|reflexivity]. }
    numRg. rewrite N; [reflexivity|]. unfold derivative, dcPoints, order. cbn [cps length dcPointsFrom dcLevel Nat.sub Nat.eqb]; unfold idx; cbn [nth_error bind]; unfold diffStep; cbn [fst snd]. numRg. apply Ok_pair; field.
  Qed.
End ScaleFn.
