(** Proofs for C139: curves, their hulls and their parts stay in the convex hull of the control points. *)
From Coq Require Import List ZArith Bool Reals Lra Lia Psatz.
From Verif Require Import Py Inst SpecGeom SpecBezier SpecFit SpecCurve SpecConvex MBezUtil MBezier ProofFit ProofBezier ProofBezier2 ProofBezier3 ProofCurve ProofLut ProofSize ProofReduce ProofRaise.
Import ListNotations.
Local Open Scope R_scope.

Definition f_of (a b : R) (p : pt) : R := a * fst p + b * snd p.
Lemma curve_f (a b : R) (p : list pt) t : f_of a b (curve p t) = bez (length p - 1) (fun i => f_of a b (nth i p (0, 0))) t.
Proof. rewrite curve_cv. unfold f_of, cv. cbn [fst snd]. rewrite <- bez_lin. reflexivity. Qed.
Lemma in_hull_self ps q : In q ps -> in_hull ps q.
Proof. intros I a b c H. now apply H. Qed.
Lemma in_hull_trans ps qs q : (forall p, In p qs -> in_hull ps p) -> in_hull qs q -> in_hull ps q.
Proof. intros H Q a b c A. apply Q. intros p Hp. now apply (H p Hp). Qed.
Lemma in_hull_mix ps p q t : 0 <= t <= 1 -> in_hull ps p -> in_hull ps q -> in_hull ps ((1 - t) * fst p + t * fst q, (1 - t) * snd p + t * snd q).
Proof.
  intros T P Q a b c A. specialize (P a b c A). specialize (Q a b c A). cbn [fst snd].
  replace (a * ((1 - t) * fst p + t * fst q) + b * ((1 - t) * snd p + t * snd q)) with ((1 - t) * (a * fst p + b * snd p) + t * (a * fst q + b * snd q)) by ring.
  assert ((1 - t) * (a * fst p + b * snd p) <= (1 - t) * c) by (apply Rmult_le_compat_l; lra). assert (t * (a * fst q + b * snd q) <= t * c) by (apply Rmult_le_compat_l; lra). lra.
Qed.
Lemma list_min_bound (a b : R) (p : list pt) : exists lo, forall q, In q p -> lo <= f_of a b q.
Proof.
  induction p as [|u p (lo & L)]; [exists 0; intros ? []|]. exists (Rmin lo (f_of a b u)). intros q [<-|I]; [apply Rmin_r|]. eapply Rle_trans; [apply Rmin_l | now apply L].
Qed.
Lemma curve_hull (p : list pt) t : p <> [] -> 0 <= t <= 1 -> in_hull p (curve p t).
Proof.
  intros N T a b c A. fold (f_of a b (curve p t)). rewrite curve_f.
  assert (I : forall i, (i <= length p - 1)%nat -> In (nth i p (0, 0)) p) by (intros i Hi; apply nth_In; destruct p; [congruence | simpl in *; lia]).
  destruct (list_min_bound a b p) as (lo & L). apply (bez_bound _ _ _ lo c T). intros i Hi. split; [apply L, I, Hi | apply A, I, Hi].
Qed.
Theorem get_hull (b : bezier R) t q : 0 <= t <= 1 -> get b t = Ok q -> in_hull (cps b) q.
Proof.
  intros T E. destruct (cps b) as [|p0 ps] eqn:P; [rewrite get_nil in E by auto; discriminate|].
  rewrite get_ok in E by (rewrite P; simpl; lia). injection E as <-. rewrite P. apply curve_hull; [discriminate | exact T].
Qed.
Lemma level_hull ps (p : list pt) t : 0 <= t <= 1 -> (forall q, In q p -> in_hull ps q) -> forall q, In q (dcLevel (lerp t) p) -> in_hull ps q.
Proof.
  intros T. induction p as [|u [|v r] IH]; intros H q; cbn [dcLevel]; [intros []|intros []|]. intros [<-|I].
  - destruct u as [ux uy], v as [vx vy]. unfold lerp. numRg. replace (ux + t * (vx - ux), uy + t * (vy - uy)) with ((1 - t) * fst (ux, uy) + t * fst (vx, vy), (1 - t) * snd (ux, uy) + t * snd (vx, vy)) by (cbn [fst snd]; f_equal; ring).
    apply in_hull_mix; [exact T | |]; apply H; cbn; auto.
  - apply IH; [intros; apply H; now right | exact I].
Qed.
Theorem hull_hull (b : bezier R) t q : 0 <= t <= 1 -> In q (hull b t) -> in_hull (cps b) q.
Proof.
  intros T. unfold hull. generalize (length (cps b)) as n. intros n.
  assert (G : forall n p acc, (forall q, In q p -> in_hull (cps b) q) -> (forall q, In q acc -> in_hull (cps b) q) -> forall q, In q (hullLoop n t p acc) -> in_hull (cps b) q).
  { clear n q. induction n as [|n IH]; intros p acc P A q; cbn [hullLoop]; [apply A|]. destruct (Nat.ltb 1 (length p)); [|apply A].
    apply IH; [exact (level_hull (cps b) p t T P)|]. intros x I. apply in_app_or in I as [I|I]; [exact (A x I) | exact (level_hull (cps b) p t T P x I)]. }
  apply G; intros; now apply in_hull_self.
Qed.
Lemma split1_hull (b : bezier R) t l r h : 0 <= t <= 1 -> split1 b t = Ok (l, r, h) -> forall q, In q (cps l) \/ In q (cps r) -> in_hull (cps b) q.
Proof.
  intros T E q I. apply (hull_hull b t q T). revert E I. unfold split1. set (H := hull b t).
  assert (IX : forall i x, idx H i = Ok x -> In x H) by (intros i x; unfold idx; destruct (nth_error H i) eqn:N; [|discriminate]; intros K; injection K as <-; now apply nth_error_In in N).
  destruct (Nat.eqb (order b) 2).
  - destruct (idx H 0) as [q0|] eqn:E0; cbn [bind]; [|discriminate]. destruct (idx H 3) as [q3|] eqn:E3; cbn [bind]; [|discriminate]. destruct (idx H 5) as [q5|] eqn:E5; cbn [bind]; [|discriminate].
    rewrite newBezier_ok by (cbn; lia). cbn [bind]. destruct (idx H 4) as [q4|] eqn:E4; cbn [bind]; [|discriminate]. destruct (idx H 2) as [q2|] eqn:E2; cbn [bind]; [|discriminate].
    rewrite newBezier_ok by (cbn; lia). cbn [bind]. destruct (bmap _ _ _ _ _); cbn [bind]; [|discriminate]. destruct (bmap _ _ _ _ _); cbn [bind]; [|discriminate]. destruct (bmap _ _ _ _ _); cbn [bind]; [|discriminate].
    intros E. injection E as <- <- _. unfold withInterval. cbn [cps In]. apply IX in E0, E2, E3, E4, E5. intros [I|I]; decompose [or] I; subst; tauto.
  - destruct (idx H 0) as [q0|] eqn:E0; cbn [bind]; [|discriminate]. destruct (idx H 4) as [q4|] eqn:E4; cbn [bind]; [|discriminate]. destruct (idx H 7) as [q7|] eqn:E7; cbn [bind]; [|discriminate]. destruct (idx H 9) as [q9|] eqn:E9; cbn [bind]; [|discriminate].
    rewrite newBezier_ok by (cbn; lia). cbn [bind]. destruct (idx H 8) as [q8|] eqn:E8; cbn [bind]; [|discriminate]. destruct (idx H 6) as [q6|] eqn:E6; cbn [bind]; [|discriminate]. destruct (idx H 3) as [q3|] eqn:E3; cbn [bind]; [|discriminate].
    rewrite newBezier_ok by (cbn; lia). cbn [bind]. destruct (bmap _ _ _ _ _); cbn [bind]; [|discriminate]. destruct (bmap _ _ _ _ _); cbn [bind]; [|discriminate]. destruct (bmap _ _ _ _ _); cbn [bind]; [|discriminate].
    intros E. injection E as <- <- _. unfold withInterval. cbn [cps In]. apply IX in E0, E3, E4, E6, E7, E8, E9. intros [I|I]; decompose [or] I; subst; tauto.
Qed.

Lemma split2_hull (b : bezier R) t1 t2 s : 0 <= t1 -> t1 <= t2 -> t2 <= 1 -> split2 b t1 t2 = Ok s ->
  match s with SCurve c => forall q, In q (cps c) -> in_hull (cps b) q | STriple l r _ => forall q, In q (cps l) \/ In q (cps r) -> in_hull (cps b) q end.
Proof.
  intros A B C. unfold split2. numRg. destruct (Reqb t1 0 && negb (Reqb t2 0)).
  { destruct (split1 b t2) as [[[l r] h]|] eqn:E; cbn [bind]; [|discriminate]. intros K. injection K as <-. intros q I. eapply split1_hull; [|exact E|left; exact I]. lra. }
  destruct (Reqb t2 1).
  { destruct (split1 b t1) as [[[l r] h]|] eqn:E; cbn [bind]; [|discriminate]. intros K. injection K as <-. intros q I. eapply split1_hull; [|exact E|right; exact I]. lra. }
  destruct (split1 b t1) as [[[l r] h]|] eqn:E; cbn [bind]; [|discriminate]. destruct (Reqb t2 0).
  { intros K. injection K as <-. intros q I. eapply split1_hull; [|exact E|exact I]. lra. }
  unfold bmap, ndiv. numRg. destruct (Reqb_spec (1 - t1) 0) as [Z|Z]; cbn [bind]; [discriminate|].
  set (u := 0 + (1 - 0) * ((t2 - t1) / (1 - t1))). destruct (split1 r u) as [[[l' r'] h']|] eqn:E'; cbn [bind]; [|discriminate]. intros K. injection K as <-. intros q I.
  assert (U : 0 <= u <= 1). { unfold u. rewrite Rplus_0_l, Rminus_0_r, Rmult_1_l. split; [apply Rmult_le_pos; [lra|]; left; apply Rinv_0_lt_compat; lra|]. apply (Rmult_le_reg_r (1 - t1)); [lra|]. unfold Rdiv. rewrite Rmult_assoc, Rinv_l, Rmult_1_r by lra. lra. }
  apply (in_hull_trans (cps b) (cps r)); [intros p Hp; eapply split1_hull; [|exact E|right; exact Hp]; lra|]. eapply split1_hull; [exact U|exact E'|left; exact I].
Qed.

(** ** Samples *)
Lemma mapM_from {A B} (f : A -> res B) : forall l bs, mapM f l = Ok bs -> forall y, In y bs -> exists a, In a l /\ f a = Ok y.
Proof.
  induction l as [|a l IH]; intros bs; cbn [mapM]; [intros E; injection E as <-; intros y []|].
  destruct (f a) as [x|] eqn:X; cbn [bind]; [|discriminate]. destruct (mapM f l) as [xs|] eqn:M; cbn [bind]; [|discriminate]. intros E. injection E as <-.
  intros y [<-|I]; [exists a; split; [now left | exact X]|]. destruct (IH xs eq_refl y I) as (a' & I' & E'). exists a'. split; [now right | exact E'].
Qed.
Theorem lut_hull (b : bezier R) (s : Z) l : getLUT b s = Ok l -> forall q, In q l -> in_hull (cps b) q.
Proof.
  unfold getLUT. destruct (Z.eqb_spec s 0) as [S|S]; [intros E; injection E as <-; intros q []|]. intros E q I. destruct (mapM_from _ _ _ E q I) as (i & Hi & G). apply in_seq in Hi. destruct Hi as [_ Hi].
  revert G. numR. destruct (Z.eq_dec s 1) as [->|S1]; [rewrite ndivR0 by reflexivity; discriminate|]. rewrite ndivR by (apply not_0_IZR; lia). cbn [bind]. intros G. refine (get_hull b _ q _ G).
  assert (D : 0 < IZR (s - 1)) by (apply IZR_lt; lia). assert (Ii : 0 <= IZR (Z.of_nat i) <= IZR (s - 1)) by (split; apply IZR_le; lia).
  split; [apply Rmult_le_pos; [lra | left; now apply Rinv_0_lt_compat]|]. apply (Rmult_le_reg_r (IZR (s - 1))); [exact D|]. unfold Rdiv. rewrite Rmult_assoc, Rinv_l, Rmult_1_r by lra. lra.
Qed.

(** ** Pieces *)
Lemma same_points (p o : list pt) : (length p = 3 \/ length p = 4)%nat -> length o = length p -> (forall u, curve p u = curve o u) -> p = o.
Proof.
  intros [L|L] Lo H.
  - destruct p as [|[a1 a2] [|[b1 b2] [|[c1 c2] [|]]]]; try discriminate. destruct o as [|[d1 d2] [|[e1 e2] [|[f1 f2] [|]]]]; try discriminate.
    pose proof (H 0) as H0. pose proof (H 1) as H1. pose proof (H (/ 2)) as H2. rewrite !curve3 in H0, H1, H2. cbn [fst snd] in *.
    injection H0 as ? ?. injection H1 as ? ?. injection H2 as ? ?. repeat f_equal; lra.
  - destruct p as [|[a1 a2] [|[b1 b2] [|[c1 c2] [|[g1 g2] [|]]]]]; try discriminate. destruct o as [|[d1 d2] [|[e1 e2] [|[f1 f2] [|[h1 h2] [|]]]]]; try discriminate.
    pose proof (H 0) as H0. pose proof (H 1) as H1. pose proof (H (-1)) as H2. pose proof (H 2) as H3. rewrite !curve4 in H0, H1, H2, H3. cbn [fst snd] in *.
    injection H0 as ? ?. injection H1 as ? ?. injection H2 as ? ?. injection H3 as ? ?. repeat f_equal; lra.
Qed.
Lemma tiles_le o : forall l a z, tiles o a z l -> a <= z.
Proof. induction l as [|c l IH]; intros a z; cbn [tiles]; [intros ->; lra|]. intros (_ & A & _ & _ & T). apply IH in T. lra. Qed.
Lemma tiles_hull (b : bezier R) : (length (cps b) = 3 \/ length (cps b) = 4)%nat -> forall l a, 0 <= a -> tiles (cps b) a 1 l -> forall c q, In c l -> In q (cps c) -> in_hull (cps b) q.
Proof.
  intros L. induction l as [|s l IH]; intros a A; cbn [tiles]; [intros _ c q []|]. intros (_ & B & Ls & G & T) c q [<-|I] Q; [|apply (IH (bt2 s) ltac:(lra) T c q I Q)].
  pose proof (tiles_le _ _ _ _ T) as T1. destruct (split2_get b a (bt2 s) L ltac:(lra) ltac:(lra)) as (d & E & O & GD).
  pose proof (split2_hull b a (bt2 s) (SCurve d) A ltac:(lra) T1 E) as H. cbn beta iota in H.
  assert (Ld : length (cps d) = length (cps b)) by (unfold order in O; destruct (cps d); simpl in *; lia).
  replace (cps s) with (cps d) in Q; [now apply H|]. symmetry. apply same_points; [rewrite Ls; exact L | congruence|].
  intros u. specialize (GD u). rewrite !get_ok in GD by lia. assert (GD' : curve (cps d) u = curve (cps b) (a + u * (bt2 s - a))) by congruence. rewrite G, GD'. reflexivity.
Qed.
Theorem reduce_hull {rnd : R -> R} (b : bezier R) (fuel : nat) l : (length (cps b) = 3 \/ length (cps b) = 4)%nat -> @reduce R _ (RTrig rnd) fuel b = Ok l ->
  forall c q, In c l -> In q (cps c) -> in_hull (cps b) q.
Proof.
  intros L E. assert (E' : @reduce R _ (RTrig rnd) (102 + fuel) b = Ok l) by (rewrite (@reduce_more R _ (RTrig rnd)); [exact E | rewrite E; discriminate]).
  destruct (reduce_spec' rnd b (102 + fuel) L ltac:(lia)) as [[K _]|(l' & K & HT)]; rewrite E' in K; [discriminate|]. injection K as ->. destruct HT as [->|[T _]]; [intros c q []|]. apply (tiles_hull b L l' 0 ltac:(lra) T).
Qed.

(** ** Velocities and monotone curves *)
Theorem derivative_hull (b : bezier R) t d : (length (cps b) = 3 \/ length (cps b) = 4)%nat -> 0 <= t <= 1 -> derivative b t = Ok d -> in_hull (nth 0 (dcPoints b) []) d.
Proof.
  intros L T E. destruct (derivative_ok b t L) as (d' & E' & D). rewrite E in E'. injection E' as <-.
  pose proof (curve_deriv (cps b) t ltac:(lia)) as D'. replace (nth 0 (dcPoints b) []) with (dcLevel (diffStep (length (cps b) - 1)) (cps b)).
  - replace d with (curve (dcLevel (diffStep (length (cps b) - 1)) (cps b)) t); [apply curve_hull; [|exact T]|].
    + intros N. apply (f_equal (@length pt)) in N. rewrite dcLevel_length in N. simpl in N. lia.
    + destruct D as [D1 D2], D' as [D3 D4]. rewrite (surjective_pairing d), (surjective_pairing (curve _ _)). f_equal; eapply uniqueness_limite; eassumption.
  - unfold dcPoints. destruct L as [-> | ->]; reflexivity.
Qed.
Lemma fun_max (g : nat -> R) n : exists hi, forall i, (i <= n)%nat -> g i <= hi.
Proof.
  induction n as [|n (hi & H)]; [exists (g 0%nat); intros i Hi; replace i with 0%nat by lia; lra|]. exists (Rmax hi (g (S n))). intros i Hi. destruct (Nat.eq_dec i (S n)) as [->|]; [apply Rmax_r|]. eapply Rle_trans; [apply H; lia | apply Rmax_l].
Qed.
Lemma bez_mono N f s t : (forall i, (i < N)%nat -> f i <= f (S i)) -> 0 <= s -> s <= t -> t <= 1 -> bez N f s <= bez N f t.
Proof.
  intros H S0 ST T. destruct (Req_dec s t) as [->|NE]; [lra|]. destruct N as [|n]; [simpl; lra|].
  destruct (MVT_cor2 (bez (S n) f) (fun u => INR (S n) * bez n (fun i => f (S i) - f i) u) s t ltac:(lra)) as (c & E & C); [intros u _; apply (bez_deriv (S n))|].
  assert (P : 0 <= bez n (fun i => f (S i) - f i) c).
  { destruct (fun_max (fun i => f (S i) - f i) n) as (hi & Hi). apply (bez_bound n _ c 0 hi); [lra|]. intros i I. split; [specialize (H i ltac:(lia)); lra | now apply Hi]. }
  assert (0 <= INR (S n) * bez n (fun i => f (S i) - f i) c * (t - s)) by (apply Rmult_le_pos; [apply Rmult_le_pos; [apply pos_INR | exact P] | lra]). lra.
Qed.
Theorem get_runs (b : bezier R) (x y s t : R) p q : runs x y (cps b) -> 0 <= s -> s <= t -> t <= 1 -> get b s = Ok p -> get b t = Ok q ->
  x * fst p + y * snd p <= x * fst q + y * snd q.
Proof.
  intros H S ST T Ep Eq. destruct (cps b) as [|p0 ps] eqn:P; [rewrite get_nil in Ep by auto; discriminate|]. rewrite <- P in H.
  rewrite get_ok in Ep, Eq by (rewrite P; simpl; lia). injection Ep as <-. injection Eq as <-. fold (f_of x y (curve (cps b) s)). fold (f_of x y (curve (cps b) t)). rewrite !curve_f.
  apply bez_mono; auto. intros i Hi. apply H. lia.
Qed.

(** ** Raising the order *)
Theorem raise_hull (b c : bezier R) : (2 <= length (cps b))%nat -> raiseOrder b = Ok c -> forall q, In q (cps c) -> in_hull (cps b) q.
Proof.
  intros L E. rewrite raiseOrder_points in E by exact L. injection E as <-. cbn [cps].
  assert (H : forall q, In q (raised (cps b)) -> in_hull (cps b) q).
  { intros q Q. apply (In_nth _ _ (0, 0)) in Q as (i & Hi & <-). unfold raised in Hi. rewrite map_length, seq_length in Hi. rewrite raised_nth by lia.
    assert (NI : 0 < INR (S (length (cps b) - 1))) by (apply lt_0_INR; lia). set (n := (length (cps b) - 1)%nat) in *.
    set (w := INR i / INR (S n)). assert (W0 : 0 <= w) by (apply Rmult_le_pos; [apply pos_INR | left; now apply Rinv_0_lt_compat]).
    assert (V : INR (S n - i) / INR (S n) = 1 - w) by (unfold w; rewrite minus_INR by lia; field; lra).
    assert (V0 : 0 <= INR (S n - i) / INR (S n)) by (apply Rmult_le_pos; [apply pos_INR | left; now apply Rinv_0_lt_compat]).
    intros x y z Hz. unfold elev. cbn [fst snd]. rewrite V in *. fold w. unfold cx, cy.
    assert (A : (1 - w) * (x * fst (nth i (cps b) (0, 0)) + y * snd (nth i (cps b) (0, 0))) <= (1 - w) * z).
    { destruct (le_lt_dec i n) as [I|I]; [apply Rmult_le_compat_l; [exact V0 | apply Hz, nth_In; lia]|]. replace (1 - w) with 0; [lra|]. rewrite <- V. replace (S n - i)%nat with 0%nat by lia. simpl INR. unfold Rdiv. ring. }
    assert (B : w * (x * fst (nth (pred i) (cps b) (0, 0)) + y * snd (nth (pred i) (cps b) (0, 0))) <= w * z) by (apply Rmult_le_compat_l; [exact W0 | apply Hz, nth_In; lia]).
    lra. }
  intros q [<-|Q]; [|now apply H]. apply H. now left.
Qed.
Lemma legs_dc (b : bezier R) : (length (cps b) = 3 \/ length (cps b) = 4)%nat -> nth 0 (dcPoints b) [] = legs (cps b).
Proof.
  destruct b as [p t1 t2]. unfold dcPoints, legs. cbn [cps]. intros [L|L]; [destruct p as [|p0 [|p1 [|p2 [|]]]]; try discriminate | destruct p as [|p0 [|p1 [|p2 [|p3 [|]]]]]; try discriminate];
    cbn [length Nat.sub seq map nth dcPointsFrom dcLevel]; unfold diffStep; rewrite !INR_IZR_INZ; reflexivity.
Qed.
Theorem velocity_hull (b : bezier R) t d : (length (cps b) = 3 \/ length (cps b) = 4)%nat -> 0 <= t <= 1 -> derivative b t = Ok d -> in_hull (legs (cps b)) d.
Proof. intros L T E. rewrite <- legs_dc by exact L. now apply (derivative_hull b t). Qed.
(** Half planes pin a point down: the hull of two points is the line between them. *)
Theorem hull_two (p q r : pt) : in_hull [p; q] r -> exists w, 0 <= w <= 1 /\ r = ((1 - w) * fst p + w * fst q, (1 - w) * snd p + w * snd q).
Proof.
  intros H. destruct p as [a b], q as [c d], r as [x y]. set (u := c - a). set (v := d - b).
  assert (S : forall m n k, m * a + n * b <= k -> m * c + n * d <= k -> m * x + n * y <= k). { intros m n k A B. apply (H m n k). intros s [<-|[<-|[]]]; cbn [fst snd]; lra. }
  pose proof (S (- v) u (- v * a + u * b) ltac:(lra) ltac:(unfold u, v; lra)) as S1. pose proof (S v (- u) (v * a - u * b) ltac:(lra) ltac:(unfold u, v; lra)) as S2.
  assert (UV : 0 <= u * u + v * v) by nra. pose proof (S (- u) (- v) (- u * a - v * b) ltac:(lra) ltac:(unfold u, v in *; nra)) as S3. pose proof (S u v (u * c + v * d) ltac:(unfold u, v in *; nra) ltac:(lra)) as S4.
  destruct (Req_dec (u * u + v * v) 0) as [Z|Z].
  - assert (u = 0) by nra. assert (v = 0) by nra. exists 0. split; [lra|]. cbn [fst snd].
    pose proof (S 1 0 a ltac:(lra) ltac:(unfold u in *; lra)). pose proof (S (-1) 0 (- a) ltac:(lra) ltac:(unfold u in *; lra)). pose proof (S 0 1 b ltac:(lra) ltac:(unfold v in *; lra)). pose proof (S 0 (-1) (- b) ltac:(lra) ltac:(unfold v in *; lra)). f_equal; lra.
  - assert (P : 0 < u * u + v * v) by lra. exists ((u * (x - a) + v * (y - b)) / (u * u + v * v)). split.
    + split; [apply Rmult_le_pos; [lra | left; now apply Rinv_0_lt_compat]|]. apply (Rmult_le_reg_r (u * u + v * v)); [exact P|]. unfold Rdiv. rewrite Rmult_assoc, Rinv_l, Rmult_1_r by lra. unfold u, v in *. nra.
    + cbn [fst snd]. assert (K : u * (y - b) = v * (x - a)) by lra. replace c with (a + u) by (unfold u; ring). replace d with (b + v) by (unfold v; ring).
      set (w := (u * (x - a) + v * (y - b)) / (u * u + v * v)). assert (W : w * (u * u + v * v) = u * (x - a) + v * (y - b)) by (unfold w; field; lra).
      f_equal; apply (Rmult_eq_reg_r (u * u + v * v)); try lra.
      * replace (((1 - w) * a + w * (a + u)) * (u * u + v * v)) with (a * (u * u + v * v) + u * (w * (u * u + v * v))) by ring. rewrite W. replace (u * (u * (x - a) + v * (y - b))) with (u * u * (x - a) + v * (u * (y - b))) by ring. rewrite K. ring.
      * replace (((1 - w) * b + w * (b + v)) * (u * u + v * v)) with (b * (u * u + v * v) + v * (w * (u * u + v * v))) by ring. rewrite W. replace (v * (u * (x - a) + v * (y - b))) with (u * (v * (x - a)) + v * v * (y - b)) by ring. rewrite <- K. ring.
Qed.
