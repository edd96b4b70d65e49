(** Proofs for C144: a curve and its pieces compared. *)
From Coq Require Import List ZArith Bool Reals Lra Lia.
From Verif Require Import Py Inst SpecGeom SpecMatrix SpecUtil SpecBezier SpecBounds SpecCurve SpecContour MTransform MBounds MBezUtil MBezier MContour
  ProofBezier ProofBezier2 ProofBezier3 ProofBBox ProofCurve ProofReduce ProofMisc2 ProofContour ProofRoots ProofCross2.
Import ListNotations.
Local Open Scope R_scope.

(** [c] is the part of [b] over [[a,z]]. *)
Definition piece (b c : bezier R) (a z : R) : Prop := length (cps c) = length (cps b) /\ forall u, curve (cps c) u = curve (cps b) (a + u * (z - a)).
Lemma split_pieces (b l r : bezier R) h t : (length (cps b) = 3 \/ length (cps b) = 4)%nat -> split1 b t = Ok (l, r, h) ->
  piece b l 0 t /\ piece b r t 1 /\ bt1 l = bt1 b /\ bt2 l = bt1 b + t * (bt2 b - bt1 b) /\ bt1 r = bt2 l /\ bt2 r = bt2 b.
Proof.
  intros L E. destruct (split1_ok b t L) as (l' & r' & E' & Ll & Lr & Hl & Hr & _ & _ & _ & _ & T). rewrite E in E'. injection E' as <- <- _.
  split; [|split; [|exact T]]; split; auto; intros u; rewrite ?Hl, ?Hr; f_equal; ring.
Qed.

(** ** Derivatives *)
Lemma deriv_piece (o p : list pt) a z t d : (forall u, curve p u = curve o (a + u * (z - a))) -> is_deriv (curve o) (a + t * (z - a)) d ->
  is_deriv (curve p) t (vscale (z - a) d).
Proof.
  intros C [D1 D2]. assert (Li : derivable_pt_lim (fun u => a + u * (z - a)) t (z - a)).
  { refine (derivable_pt_lim_ext _ _ t _ _ (lin a (z - a) t)). intros u. ring. }
  unfold vscale. split; cbn [fst snd].
  - refine (derivable_pt_lim_ext _ _ t _ _ _); [|rewrite (Rmult_comm (z - a)); exact (derivable_pt_lim_comp _ _ t _ _ Li D1)]. intros u. unfold comp. now rewrite C.
  - refine (derivable_pt_lim_ext _ _ t _ _ _); [|rewrite (Rmult_comm (z - a)); exact (derivable_pt_lim_comp _ _ t _ _ Li D2)]. intros u. unfold comp. now rewrite C.
Qed.
Lemma derivative_piece (b c : bezier R) a z s : (length (cps b) = 3 \/ length (cps b) = 4)%nat -> piece b c a z ->
  exists d, derivative b (a + s * (z - a)) = Ok d /\ derivative c s = Ok (vscale (z - a) d).
Proof.
  intros L [Lc C]. destruct (derivative_ok b (a + s * (z - a)) L) as (d & E & D). exists d. split; auto.
  destruct (derivative_ok c s ltac:(lia)) as (e & E' & D'). rewrite E'. f_equal. exact (is_deriv_unique _ _ _ _ D' (deriv_piece _ _ a z s d C D)).
Qed.
Theorem cut_derivative (b l r : bezier R) h t s : (length (cps b) = 3 \/ length (cps b) = 4)%nat -> split1 b t = Ok (l, r, h) ->
  (exists d, derivative b (t * s) = Ok d /\ derivative l s = Ok (vscale t d)) /\
  (exists d, derivative b (t + (1 - t) * s) = Ok d /\ derivative r s = Ok (vscale (1 - t) d)).
Proof.
  intros L E. destruct (split_pieces b l r h t L E) as (P & Q & _).
  destruct (derivative_piece b l 0 t s L P) as (d & A & B). destruct (derivative_piece b r t 1 s L Q) as (e & C & D).
  replace (0 + s * (t - 0)) with (t * s) in A by ring. replace (t - 0) with t in B by ring. replace (t + s * (1 - t)) with (t + (1 - t) * s) in C by ring. split; [exists d|exists e]; split; assumption.
Qed.

Section Trig.
  Context (rnd : R -> R).
  #[local] Hint Extern 0 (TrigOps R) => exact (RTrig rnd) : typeclass_instances.

  (** ** Tangents, normals and offset points *)
  Lemma normal_piece (b c : bezier R) a z s : (length (cps b) = 3 \/ length (cps b) = 4)%nat -> a < z -> piece b c a z ->
    normal c s = normal b (a + s * (z - a)) /\ tangent c s = tangent b (a + s * (z - a)).
  Proof.
    intros L AZ P. destruct (derivative_piece b c a z s L P) as (d & A & B). destruct P as [Lc C].
    assert (CZ : d = (0, 0) \/ d <> (0, 0)) by (destruct d as [x y]; destruct (Req_dec x 0), (Req_dec y 0); [left; congruence|right; congruence|right; congruence|right; congruence]). destruct CZ as [->|N].
    - replace (vscale (z - a) (0, 0)) with ((0, 0) : pt) in B by (unfold vscale; cbn [fst snd]; f_equal; ring).
      unfold normal, tangent. rewrite A, B. auto.
    - assert (N' : vscale (z - a) d <> (0, 0)).
      { intros K. apply N. destruct d as [x y]. unfold vscale in K; cbn [fst snd] in K. assert (K1 := f_equal fst K). assert (K2 := f_equal snd K). cbn [fst snd] in *.
        f_equal; [apply Rmult_integral in K1 as [K1|K1]; lra|apply Rmult_integral in K2 as [K2|K2]; lra]. }
      assert (EN : normal c s = normal b (a + s * (z - a))).
      { destruct (normal_of rnd b _ d A N) as [Q ->]. destruct (normal_of rnd c _ _ B N') as [Q' ->]. destruct d as [x y]. unfold vscale in *; cbn [fst snd] in *.
        assert (K : sqrt ((z - a) * x * ((z - a) * x) + (z - a) * y * ((z - a) * y)) = (z - a) * sqrt (x * x + y * y)).
        { replace ((z - a) * x * ((z - a) * x) + (z - a) * y * ((z - a) * y)) with ((z - a) * (z - a) * (x * x + y * y)) by ring.
          rewrite sqrt_mult_alt by nra. rewrite sqrt_square by lra. reflexivity. }
        rewrite K in *. f_equal. f_equal; field; split; lra. }
      split; [exact EN|].
      destruct (tangent_spec rnd b (a + s * (z - a)) L) as (d1 & D1 & H1 & _). destruct (tangent_spec rnd c s ltac:(lia)) as (d2 & D2 & H2 & _).
      destruct (derivative_ok b (a + s * (z - a)) L) as (e1 & F1 & G1). rewrite A in F1. injection F1 as <-.
      destruct (derivative_ok c s ltac:(lia)) as (e2 & F2 & G2). rewrite B in F2. injection F2 as <-.
      rewrite (is_deriv_unique _ _ _ _ D1 G1) in H1. rewrite (is_deriv_unique _ _ _ _ D2 G2) in H2.
      destruct (H1 N) as (u & U & _ & _ & _ & V). destruct (H2 N') as (u' & U' & _ & _ & _ & V'). rewrite V, V' in EN. rewrite U, U'.
      f_equal. injection EN as K1 K2. destruct u, u'. cbn [fst snd] in *. f_equal; lra.
  Qed.
  Lemma offset_piece (fuel : nat) (b c : bezier R) a z s k : (length (cps b) = 3 \/ length (cps b) = 4)%nat -> a < z -> piece b c a z -> k <> 0 ->
    offset fuel c s (Some k) = offset fuel b (a + s * (z - a)) (Some k).
  Proof.
    intros L AZ P K. destruct (normal_piece b c a z s L AZ P) as [EN _]. destruct P as [Lc C]. unfold offset, offsetPoint. rewrite EN.
    rewrite !get_ok by lia. rewrite C. numRg. destruct (Reqb_spec k 0); [contradiction|]. reflexivity.
  Qed.
  Theorem cut_normal (fuel : nat) (b l r : bezier R) h t s : (length (cps b) = 3 \/ length (cps b) = 4)%nat -> split1 b t = Ok (l, r, h) ->
    (0 < t -> tangent l s = tangent b (t * s) /\ normal l s = normal b (t * s) /\
       forall k, k <> 0 -> offset fuel l s (Some k) = offset fuel b (t * s) (Some k)) /\
    (t < 1 -> tangent r s = tangent b (t + (1 - t) * s) /\ normal r s = normal b (t + (1 - t) * s) /\
       forall k, k <> 0 -> offset fuel r s (Some k) = offset fuel b (t + (1 - t) * s) (Some k)).
  Proof.
    intros L E. destruct (split_pieces b l r h t L E) as (P & Q & _). split; intros T.
    - replace (t * s) with (0 + s * (t - 0)) by ring. destruct (normal_piece b l 0 t s L T P) as [A B]. split; auto. split; auto.
      intros k K. exact (offset_piece fuel b l 0 t s k L T P K).
    - replace (t + (1 - t) * s) with (t + s * (1 - t)) by ring. destruct (normal_piece b r t 1 s L T Q) as [A B]. split; auto. split; auto.
      intros k K. exact (offset_piece fuel b r t 1 s k L T Q K).
  Qed.

  (** ** Boxes *)
  Lemma safe_curve (b : bezier R) t M : (1 <= length (cps b))%nat -> 0 <= t <= 1 -> (forall q, In q (cps b) -> Rabs (fst q) <= M /\ Rabs (snd q) <= M) ->
    Rabs (fst (curve (cps b) t)) <= M /\ Rabs (snd (curve (cps b) t)) <= M.
  Proof.
    intros L T S. destruct (curve_in_box (cps b) t (- M) M (- M) M) as [X Y]; auto.
    - intros E. rewrite E in L. simpl in L. lia.
    - intros q Hq. destruct (S q Hq) as [A B]. apply Rabs_inv in A, B. lra.
    - split; apply Rabs_le; lra.
  Qed.
  (** The corners of the box of a piece lie on the curve. *)
  Lemma box_piece (b c : bezier R) a z : (2 <= length (cps b) <= 4)%nat -> 0 <= a -> a <= z -> z <= 1 -> piece b c a z -> (forall q, In q (cps b) -> safe_point q) ->
    exists x0 x1 y0 y1, bbox c = Ok ((x0, x1), (y0, y1)) /\
      (forall u, a <= u <= z -> x0 <= fst (curve (cps b) u) <= x1 /\ y0 <= snd (curve (cps b) u) <= y1) /\
      (exists u, a <= u <= z /\ fst (curve (cps b) u) = x0) /\ (exists u, a <= u <= z /\ fst (curve (cps b) u) = x1) /\
      (exists u, a <= u <= z /\ snd (curve (cps b) u) = y0) /\ (exists u, a <= u <= z /\ snd (curve (cps b) u) = y1).
  Proof.
    intros L A AZ Z [Lc C] S. destruct (bbox_spec rnd c ltac:(lia)) as (x0 & x1 & y0 & y1 & E & B & T). exists x0, x1, y0, y1. split; auto.
    assert (In01 : forall u, 0 <= u <= 1 -> a <= a + u * (z - a) <= z) by (intros u Hu; nra).
    destruct T as (T1 & T2 & T3 & T4).
    { exists 0. split; [lra|]. rewrite C. apply safe_curve; [lia|lra|exact S]. }
    split.
    - intros u Hu. destruct (Req_dec a z) as [Q|Q].
      + specialize (B 0 ltac:(lra)). rewrite C in B. replace (a + 0 * (z - a)) with u in B by lra. exact B.
      + assert (W : 0 <= (u - a) / (z - a) <= 1) by (split; [apply Rmult_le_pos; [lra|left; apply Rinv_0_lt_compat; lra]|apply Rmult_le_reg_r with (z - a); [lra|]; unfold Rdiv; rewrite Rmult_assoc, Rinv_l by lra; lra]).
        specialize (B _ W). rewrite C in B. replace (a + (u - a) / (z - a) * (z - a)) with u in B by (field; lra). exact B.
    - destruct T1 as (u1 & U1 & V1), T2 as (u2 & U2 & V2), T3 as (u3 & U3 & V3), T4 as (u4 & U4 & V4). rewrite C in V1, V2, V3, V4.
      split; [exists (a + u1 * (z - a))|split; [exists (a + u2 * (z - a))|split; [exists (a + u3 * (z - a))|exists (a + u4 * (z - a))]]]; (split; [apply In01|]; assumption).
  Qed.
  Lemma box_whole (b : bezier R) : (2 <= length (cps b) <= 4)%nat -> (forall q, In q (cps b) -> safe_point q) ->
    exists x0 x1 y0 y1 : R, bbox b = Ok ((x0, x1), (y0, y1)) /\
      (forall u, 0 <= u <= 1 -> x0 <= fst (curve (cps b) u) <= x1 /\ y0 <= snd (curve (cps b) u) <= y1) /\
      (exists u, 0 <= u <= 1 /\ fst (curve (cps b) u) = x0) /\ (exists u, 0 <= u <= 1 /\ fst (curve (cps b) u) = x1) /\
      (exists u, 0 <= u <= 1 /\ snd (curve (cps b) u) = y0) /\ (exists u, 0 <= u <= 1 /\ snd (curve (cps b) u) = y1).
  Proof. intros L S. apply (box_piece b b 0 1 L); try lra; auto. split; auto. intros u. f_equal. ring. Qed.
  Lemma least_of_two (f : R -> R) t v p q : 0 <= t <= 1 -> (exists u, 0 <= u <= 1 /\ f u = v) -> (forall u, 0 <= u <= 1 -> v <= f u) ->
    (exists u, 0 <= u <= t /\ f u = p) -> (forall u, 0 <= u <= t -> p <= f u) -> (exists u, t <= u <= 1 /\ f u = q) -> (forall u, t <= u <= 1 -> q <= f u) -> v = Rmin p q.
  Proof.
    intros T (u & U & <-) V (u1 & U1 & <-) P (u2 & U2 & <-) Q. apply Rle_antisym.
    - apply Rmin_glb; apply V; lra.
    - destruct (Rle_dec u t) as [K|K]; [eapply Rle_trans; [apply Rmin_l|apply P; lra]|eapply Rle_trans; [apply Rmin_r|apply Q; lra]].
  Qed.
  Lemma most_of_two (f : R -> R) t v p q : 0 <= t <= 1 -> (exists u, 0 <= u <= 1 /\ f u = v) -> (forall u, 0 <= u <= 1 -> f u <= v) ->
    (exists u, 0 <= u <= t /\ f u = p) -> (forall u, 0 <= u <= t -> f u <= p) -> (exists u, t <= u <= 1 /\ f u = q) -> (forall u, t <= u <= 1 -> f u <= q) -> v = Rmax p q.
  Proof.
    intros T (u & U & <-) V (u1 & U1 & <-) P (u2 & U2 & <-) Q. apply Rle_antisym.
    - destruct (Rle_dec u t) as [K|K]; [eapply Rle_trans; [apply P|apply Rmax_l]; lra|eapply Rle_trans; [apply Q|apply Rmax_r]; lra].
    - apply Rmax_lub; apply V; lra.
  Qed.
  Theorem cut_boxes (b l r : bezier R) h t : (length (cps b) = 3 \/ length (cps b) = 4)%nat -> 0 <= t <= 1 -> (forall q, In q (cps b) -> safe_point q) -> split1 b t = Ok (l, r, h) ->
    exists x0 x1 y0 y1 u0 u1 v0 v1, bbox l = Ok ((x0, x1), (y0, y1)) /\ bbox r = Ok ((u0, u1), (v0, v1)) /\
      bbox b = Ok ((Rmin x0 u0, Rmax x1 u1), (Rmin y0 v0, Rmax y1 v1)).
  Proof.
    intros L T S E. destruct (split_pieces b l r h t L E) as (P & Q & _).
    destruct (box_piece b l 0 t ltac:(lia) ltac:(lra) ltac:(lra) ltac:(lra) P S) as (x0 & x1 & y0 & y1 & El & Bl & X0 & X1 & Y0 & Y1).
    destruct (box_piece b r t 1 ltac:(lia) ltac:(lra) ltac:(lra) ltac:(lra) Q S) as (u0 & u1 & v0 & v1 & Er & Br & U0 & U1 & V0 & V1).
    destruct (box_whole b ltac:(lia) S) as (a0 & a1 & c0 & c1 & Eb & Bb & A0 & A1 & C0 & C1).
    exists x0, x1, y0, y1, u0, u1, v0, v1. split; [exact El|]. split; [exact Er|]. rewrite Eb. f_equal. f_equal; f_equal.
    - apply (least_of_two (fun u => fst (curve (cps b) u)) t); auto; intros u Hu; [apply Bb in Hu|apply Bl in Hu|apply Br in Hu]; lra.
    - apply (most_of_two (fun u => fst (curve (cps b) u)) t); auto; intros u Hu; [apply Bb in Hu|apply Bl in Hu|apply Br in Hu]; lra.
    - apply (least_of_two (fun u => snd (curve (cps b) u)) t); auto; intros u Hu; [apply Bb in Hu|apply Bl in Hu|apply Br in Hu]; lra.
    - apply (most_of_two (fun u => snd (curve (cps b) u)) t); auto; intros u Hu; [apply Bb in Hu|apply Bl in Hu|apply Br in Hu]; lra.
  Qed.
  Lemma rect_of_box (c : bezier R) x0 x1 y0 y1 : bbox c = Ok ((x0, x1), (y0, y1)) -> x0 <= x1 -> y0 <= y1 -> x0 <= 32768 -> -32768 <= x1 -> y0 <= 32768 -> -32768 <= y1 ->
    boundsRectangle c = Ok (mkRect x0 x1 y1 y0).
  Proof.
    intros E A B C D F G. unfold boundsRectangle. rewrite E. cbn [bind]. rewrite BR_two. f_equal.
    rewrite (Rmin_right 32768 x0), (Rmin_left x0 x1), (Rmin_right 32768 y0), (Rmin_left y0 y1) by lra.
    rewrite (Rmax_right (Rmax (-32768) x0) x1) by (apply Rmax_lub; lra). rewrite (Rmax_right (Rmax (-32768) y0) y1) by (apply Rmax_lub; lra). reflexivity.
  Qed.
  Theorem cut_rectangles (b l r : bezier R) h t : (length (cps b) = 3 \/ length (cps b) = 4)%nat -> 0 <= t <= 1 ->
    (forall q, In q (cps b) -> Rabs (fst q) <= 32768 /\ Rabs (snd q) <= 32768) -> split1 b t = Ok (l, r, h) ->
    exists m n, boundsRectangle l = Ok m /\ boundsRectangle r = Ok n /\ boundsRectangle b = Ok (union m n).
  Proof.
    intros L T S E. assert (S' : forall q, In q (cps b) -> safe_point q) by (intros q Hq; destruct (S q Hq); split; lra).
    destruct (cut_boxes b l r h t L T S' E) as (x0 & x1 & y0 & y1 & u0 & u1 & v0 & v1 & El & Er & Eb).
    destruct (split_pieces b l r h t L E) as (P & Q & _).
    destruct (box_piece b l 0 t ltac:(lia) ltac:(lra) ltac:(lra) ltac:(lra) P S') as (? & ? & ? & ? & El' & Bl & _). rewrite El in El'. injection El' as <- <- <- <-.
    destruct (box_piece b r t 1 ltac:(lia) ltac:(lra) ltac:(lra) ltac:(lra) Q S') as (? & ? & ? & ? & Er' & Br & _). rewrite Er in Er'. injection Er' as <- <- <- <-.
    specialize (Bl 0 ltac:(lra)). specialize (Br 1 ltac:(lra)).
    destruct (safe_curve b 0 32768 ltac:(lia) ltac:(lra) S) as [M1 M2]. destruct (safe_curve b 1 32768 ltac:(lia) ltac:(lra) S) as [M3 M4]. apply Rabs_inv in M1, M2, M3, M4.
    exists (mkRect x0 x1 y1 y0), (mkRect u0 u1 v1 v0). split; [apply (rect_of_box l); auto; lra|]. split; [apply (rect_of_box r); auto; lra|].
    assert (Mn : forall a c : R, pmin a c = Rmin a c) by (intros; unfold pmin, Rmin; numRg; destruct (Rltb_spec c a), (Rle_dec a c); lra).
    assert (Mx : forall a c : R, pmax a c = Rmax a c) by (intros; unfold pmax, Rmax; numRg; destruct (Rltb_spec a c), (Rle_dec a c); lra).
    unfold union. cbn [left right top bottom]. rewrite !Mn, !Mx. unfold boundsRectangle. rewrite Eb. reflexivity.
  Qed.

  (** ** The pieces found by reduce *)
  Lemma tiles_least (b : bezier R) (f : pt -> R) (low : bezier R -> R) : forall l a z, tiles (cps b) a z l -> l <> [] -> 0 <= a -> z <= 1 ->
    (forall s, In s l -> (forall u, 0 <= u <= 1 -> low s <= f (curve (cps s) u)) ) ->
    a <= z /\ forall u, a <= u <= z -> exists s, In s l /\ low s <= f (curve (cps b) u).
  Proof.
    induction l as [|s l IH]; intros a z T N A Z H; [congruence|]. cbn [tiles] in T. destruct T as (T1 & T2 & T3 & C & T).
    assert (Hs : forall u, a <= u <= bt2 s -> low s <= f (curve (cps b) u)).
    { intros u Hu. assert (W : 0 <= (u - a) / (bt2 s - a) <= 1).
      { split; [apply Rmult_le_pos; [lra|left; apply Rinv_0_lt_compat; lra]|apply Rmult_le_reg_r with (bt2 s - a); [lra|]; unfold Rdiv; rewrite Rmult_assoc, Rinv_l by lra; lra]. }
      pose proof (H s (or_introl eq_refl) _ W) as K. rewrite C in K. replace (a + (u - a) / (bt2 s - a) * (bt2 s - a)) with u in K by (field; lra). exact K. }
    destruct l as [|s' l].
    - cbn [tiles] in T. subst z. split; [lra|]. intros u Hu. exists s. split; [now left|]. apply Hs; lra.
    - destruct (IH (bt2 s) z T ltac:(discriminate) ltac:(lra) Z ltac:(intros; apply H; [now right|assumption])) as [B K]. split; [lra|].
      intros u Hu. destruct (Rle_dec u (bt2 s)) as [Q|Q]; [exists s; split; [now left|apply Hs; lra]|].
      destruct (K u ltac:(lra)) as (s2 & I2 & L2). exists s2. split; [now right|exact L2].
  Qed.
  Lemma tiles_piece (b : bezier R) : forall l a z, tiles (cps b) a z l -> 0 <= a -> z <= 1 -> forall s, In s l -> exists a' z', a <= a' /\ a' < z' /\ z' <= z /\ piece b s a' z'.
  Proof.
    assert (Mono : forall l a z, tiles (cps b) a z l -> a <= z).
    { induction l as [|s l IH]; intros a z T; cbn [tiles] in T; [lra|]. destruct T as (_ & T2 & _ & _ & T). apply IH in T. lra. }
    induction l as [|s0 l IH]; intros a z T A Z s I; [destruct I|]. cbn [tiles] in T. destruct T as (T1 & T2 & T3 & C & T). destruct I as [<-|I].
    - exists a, (bt2 s0). pose proof (Mono _ _ _ T). repeat split; auto; lra.
    - destruct (IH (bt2 s0) z T ltac:(lra) Z s I) as (a' & z' & H1 & H2 & H3 & H4). exists a', z'. repeat split; try lra; apply H4.
  Qed.
  Theorem reduce_boxes (b : bezier R) (l : list (bezier R)) : (length (cps b) = 3 \/ length (cps b) = 4)%nat -> (forall q, In q (cps b) -> safe_point q) ->
    tiles (cps b) 0 1 l -> l <> [] ->
    exists x0 x1 y0 y1, bbox b = Ok ((x0, x1), (y0, y1)) /\
      (forall s, In s l -> exists u0 u1 v0 v1, bbox s = Ok ((u0, u1), (v0, v1)) /\ x0 <= u0 /\ u1 <= x1 /\ y0 <= v0 /\ v1 <= y1) /\
      (exists s u1 v, In s l /\ bbox s = Ok ((x0, u1), v)) /\ (exists s u0 v, In s l /\ bbox s = Ok ((u0, x1), v)) /\
      (exists s u v1, In s l /\ bbox s = Ok (u, (y0, v1))) /\ (exists s u v0, In s l /\ bbox s = Ok (u, (v0, y1))).
  Proof.
    intros L S T N. destruct (box_whole b ltac:(lia) S) as (x0 & x1 & y0 & y1 & E & B & X0 & X1 & Y0 & Y1).
    assert (Bs : forall s, In s l -> exists u0 u1 v0 v1, bbox s = Ok ((u0, u1), (v0, v1)) /\ x0 <= u0 /\ u1 <= x1 /\ y0 <= v0 /\ v1 <= y1 /\
      forall u, 0 <= u <= 1 -> u0 <= fst (curve (cps s) u) <= u1 /\ v0 <= snd (curve (cps s) u) <= v1).
    { intros s I. destruct (tiles_piece b l 0 1 T ltac:(lra) ltac:(lra) s I) as (a & z & A & AZ & Z & P).
      destruct (box_piece b s a z ltac:(lia) A ltac:(lra) Z P S) as (u0 & u1 & v0 & v1 & Es & K & (w0 & W0 & <-) & (w1 & W1 & <-) & (w2 & W2 & <-) & (w3 & W3 & <-)).
      do 4 eexists. split; [exact Es|].
      pose proof (B w0 ltac:(lra)). pose proof (B w1 ltac:(lra)). pose proof (B w2 ltac:(lra)). pose proof (B w3 ltac:(lra)). repeat (split; [lra|]).
      intros u Hu. destruct P as [_ C]. rewrite C. apply K. nra. }
    exists x0, x1, y0, y1. split; [exact E|]. split; [intros s I; destruct (Bs s I) as (u0 & u1 & v0 & v1 & H1 & H2 & H3 & H4 & H5 & _); exists u0, u1, v0, v1; auto|].
    set (bx := fun s => match bbox s with Ok w => w | Err _ => ((0, 0), (0, 0)) end).
    assert (Bx : forall s, In s l -> bbox s = Ok (bx s) /\ x0 <= fst (fst (bx s)) /\ snd (fst (bx s)) <= x1 /\ y0 <= fst (snd (bx s)) /\ snd (snd (bx s)) <= y1 /\
      forall u, 0 <= u <= 1 -> fst (fst (bx s)) <= fst (curve (cps s) u) <= snd (fst (bx s)) /\ fst (snd (bx s)) <= snd (curve (cps s) u) <= snd (snd (bx s))).
    { intros s I. destruct (Bs s I) as (u0 & u1 & v0 & v1 & H1 & H). unfold bx. rewrite H1. cbn [fst snd]. auto. }
    split; [|split; [|split]].
    - destruct X0 as (u & Hu & F). destruct (tiles_least b fst (fun s => fst (fst (bx s))) l 0 1 T N ltac:(lra) ltac:(lra)) as [_ K]; [intros s I w Hw; apply Bx; auto|].
      destruct (K u Hu) as (s & I & Le). destruct (Bx s I) as (Eb & H1 & _). exists s, (snd (fst (bx s))), (snd (bx s)). split; auto. rewrite Eb. f_equal.
      destruct (bx s) as [[m n] o]. cbn [fst snd] in *. repeat f_equal. lra.
    - destruct X1 as (u & Hu & F). destruct (tiles_least b (fun p => - fst p) (fun s => - snd (fst (bx s))) l 0 1 T N ltac:(lra) ltac:(lra)) as [_ K]; [intros s I w Hw; destruct (Bx s I) as (_ & _ & _ & _ & _ & H); specialize (H w Hw); lra|].
      destruct (K u Hu) as (s & I & Le). destruct (Bx s I) as (Eb & _ & H1 & _). exists s, (fst (fst (bx s))), (snd (bx s)). split; auto. rewrite Eb. f_equal.
      destruct (bx s) as [[m n] o]. cbn [fst snd] in *. repeat f_equal. lra.
    - destruct Y0 as (u & Hu & F). destruct (tiles_least b snd (fun s => fst (snd (bx s))) l 0 1 T N ltac:(lra) ltac:(lra)) as [_ K]; [intros s I w Hw; apply Bx; auto|].
      destruct (K u Hu) as (s & I & Le). destruct (Bx s I) as (Eb & _ & _ & H1 & _). exists s, (fst (bx s)), (snd (snd (bx s))). split; auto. rewrite Eb. f_equal.
      destruct (bx s) as [o [m n]]. cbn [fst snd] in *. repeat f_equal. lra.
    - destruct Y1 as (u & Hu & F). destruct (tiles_least b (fun p => - snd p) (fun s => - snd (snd (bx s))) l 0 1 T N ltac:(lra) ltac:(lra)) as [_ K]; [intros s I w Hw; destruct (Bx s I) as (_ & _ & _ & _ & _ & H); specialize (H w Hw); lra|].
      destruct (K u Hu) as (s & I & Le). destruct (Bx s I) as (Eb & _ & _ & _ & H1 & _). exists s, (fst (bx s)), (fst (snd (bx s))). split; auto. rewrite Eb. f_equal.
      destruct (bx s) as [o [m n]]. cbn [fst snd] in *. repeat f_equal. lra.
  Qed.
  Theorem cut_reduce (b : bezier R) (fuel : nat) (l : list (bezier R)) : (length (cps b) = 3 \/ length (cps b) = 4)%nat -> (102 <= fuel)%nat -> (forall q, In q (cps b) -> safe_point q) ->
    reduce fuel b = Ok l -> l <> [] ->
    exists x0 x1 y0 y1, bbox b = Ok ((x0, x1), (y0, y1)) /\
      (forall s, In s l -> exists u0 u1 v0 v1, bbox s = Ok ((u0, u1), (v0, v1)) /\ x0 <= u0 /\ u1 <= x1 /\ y0 <= v0 /\ v1 <= y1) /\
      (exists s u1 v, In s l /\ bbox s = Ok ((x0, u1), v)) /\ (exists s u0 v, In s l /\ bbox s = Ok ((u0, x1), v)) /\
      (exists s u v1, In s l /\ bbox s = Ok (u, (y0, v1))) /\ (exists s u v0, In s l /\ bbox s = Ok (u, (v0, y1))).
  Proof.
    intros L F S E N. destruct (reduce_spec' rnd b fuel L F) as [[K _]|(l' & E' & [->|[T _]])]; [congruence|congruence|].
    rewrite E in E'. injection E' as <-. exact (reduce_boxes b l L S T N).
  Qed.
End Trig.

(** ** Tables *)
Theorem cut_tables (b l r : bezier R) h (n m : Z) : (length (cps b) = 3 \/ length (cps b) = 4)%nat -> (2 <= n)%Z -> (2 <= m)%Z ->
  split1 b (IZR (n - 1) / IZR (n + m - 2)) = Ok (l, r, h) ->
  exists A B, getLUT l n = Ok A /\ getLUT r m = Ok B /\ getLUT b (n + m - 1) = Ok (A ++ tl B).
Proof.
  intros L N M E. destruct (split_pieces b l r h _ L E) as ([Ll Cl] & [Lr Cr] & _).
  exists (row_of n (cps l)), (row_of m (cps r)). split; [apply getLUT_ok; lia|]. split; [apply getLUT_ok; lia|]. rewrite getLUT_ok by lia. f_equal.
  assert (Q : forall k : Z, (2 <= k)%Z -> 0 < IZR (k - 1)) by (intros k Hk; apply IZR_lt; lia). pose proof (Q n N) as Qn. pose proof (Q m M) as Qm.
  assert (Qs : IZR (n + m - 2) = IZR (n - 1) + IZR (m - 1)) by (rewrite <- plus_IZR; f_equal; lia).
  unfold row_of. replace (Z.to_nat (n + m - 1)) with (Z.to_nat n + (Z.to_nat m - 1))%nat by lia. rewrite seq_app, map_app. f_equal.
  - apply map_ext_in. intros i _. rewrite Cl. f_equal. replace (n + m - 1 - 1)%Z with (n + m - 2)%Z by lia. rewrite Qs. field. lra.
  - replace (Z.to_nat m) with (S (Z.to_nat m - 1)) by lia. cbn [seq map tl Nat.sub]. rewrite Nat.sub_0_r, Nat.add_0_l. rewrite <- (Nat.add_0_r (Z.to_nat n)).
    replace (seq (Z.to_nat n + 0) (Z.to_nat m - 1)) with (map (fun i => (Z.to_nat n - 1 + i)%nat) (seq 1 (Z.to_nat m - 1))).
    + rewrite map_map. apply map_ext_in. intros i _. rewrite Cr. f_equal. replace (n + m - 1 - 1)%Z with (n + m - 2)%Z by lia. rewrite Qs.
      rewrite plus_INR. replace (INR (Z.to_nat n - 1)) with (IZR (n - 1)) by (rewrite INR_IZR_INZ; f_equal; lia). field. lra.
    + generalize (Z.to_nat m - 1)%nat. intros k. apply (nth_ext _ _ 0%nat 0%nat); rewrite map_length, !seq_length; [reflexivity|]. intros i Hi.
      rewrite (nth_indep _ 0%nat ((fun i => (Z.to_nat n - 1 + i)%nat) 0%nat)) by (rewrite map_length, seq_length; exact Hi). rewrite map_nth, !seq_nth by exact Hi. lia.
Qed.
Corollary cut_tables_half (b l r : bezier R) h (n : Z) : (length (cps b) = 3 \/ length (cps b) = 4)%nat -> (2 <= n)%Z -> split1 b (1 / 2) = Ok (l, r, h) ->
  exists A, getLUT b (2 * n - 1) = Ok A /\ concatLUT 0 [l; r] n = Ok A.
Proof.
  intros L N E. assert (K : 1 / 2 = IZR (n - 1) / IZR (n + n - 2)).
  { replace (n + n - 2)%Z with (2 * (n - 1))%Z by lia. rewrite mult_IZR. assert (0 < IZR (n - 1)) by (apply IZR_lt; lia). field. lra. }
  rewrite K in E. destruct (cut_tables b l r h n n L N N E) as (A & B & E1 & E2 & E3). replace (n + n - 1)%Z with (2 * n - 1)%Z in E3 by lia.
  exists (A ++ tl B). split; [exact E3|]. cbn [concatLUT]. rewrite E1, E2. cbn [bind skipn]. now rewrite app_nil_r, <- (match B return skipn 1 B = tl B with [] => eq_refl | _ :: _ => eq_refl end).
Qed.

#[local] Existing Instance RExact.
(** ** Crossings with a line *)
Lemma inside_curve (a z : pt) (p : list pt) : a <> z -> length p = 3%nat -> (exists q, In q p /\ ~ on_line a z q) -> forall x y, x < y -> ~ (forall u, x <= u <= y -> on_line a z (curve p u)).
Proof.
  intros N L (q & I & Q) x y XY H. apply Q. clear Q.
  assert (Cr : forall c, on_line a z c <-> vcross (vsub z a) (vsub c a) = 0).
  { intros c. symmetry. exact (cross_line a z N c). }
  destruct p as [|p0 [|p1 [|p2 [|p3 r]]]]; try (simpl in L; lia). rewrite Cr.
  assert (H0 := proj1 (Cr _) (H x ltac:(lra))). assert (H1 := proj1 (Cr _) (H y ltac:(lra))). assert (H2 := proj1 (Cr _) (H ((x + y) / 2) ltac:(lra))).
  rewrite curve3 in H0, H1, H2. unfold bern2, vcross, vsub in *. cbn [fst snd] in *.
  set (g := fun c : pt => (fst z - fst a) * (snd c - snd a) - (snd z - snd a) * (fst c - fst a)) in *.
  set (A := g p0 - 2 * g p1 + g p2). set (B := 2 * (g p1 - g p0)). set (C := g p0).
  assert (F : forall u, A * u * u + B * u + C = (1 - u) * (1 - u) * g p0 + 2 * (1 - u) * u * g p1 + u * u * g p2) by (intros; unfold A, B, C; ring).
  assert (G0 : A * x * x + B * x + C = 0) by (rewrite F; unfold g; lra).
  assert (G1 : A * y * y + B * y + C = 0) by (rewrite F; unfold g; lra).
  assert (G2 : A * ((x + y) / 2) * ((x + y) / 2) + B * ((x + y) / 2) + C = 0) by (rewrite F; unfold g; lra).
  assert (A0 : A = 0). { apply Rmult_eq_reg_r with ((y - x) * (y - x)); [|nra]. lra. }
  assert (B0 : B = 0). { rewrite A0 in *. apply Rmult_eq_reg_r with (y - x); [|lra]. lra. }
  assert (C0 : C = 0) by (rewrite A0, B0 in G0; lra).
  assert (Gs : g p0 = 0 /\ g p1 = 0 /\ g p2 = 0) by (unfold A, B, C in *; lra). destruct Gs as (g0 & g1 & g2).
  destruct I as [<-|[<-|[<-|[]]]]; assumption.
Qed.
Lemma roots_piece (a z : pt) (b c : bezier R) x y : a <> z -> length (cps b) = 3%nat -> (exists q, In q (cps b) /\ ~ on_line a z q) -> 0 <= x -> x < y -> y <= 1 -> piece b c x y ->
  exists ob oc, roots b (Some [a; z]) = Ok ob /\ roots c (Some [a; z]) = Ok oc /\
    (forall u, x <= u <= y -> In u ob -> In ((u - x) / (y - x)) oc) /\ (forall s, 0 <= s <= 1 -> In s oc -> In (x + s * (y - x)) ob).
Proof.
  intros N L Q X XY Y [Lc C]. destruct (roots_line_quadratic a z N b L Q) as (ob & Eb & Hb).
  assert (Qc : exists q, In q (cps c) /\ ~ on_line a z q).
  { rewrite L in Lc. destruct (Exists_dec (fun q => ~ on_line a z q) (cps c)) as [K|K].
    - intros q. destruct (Req_EM_T (vcross (vsub z a) (vsub q a)) 0) as [E|E]; [right|left]; rewrite <- (cross_line a z N); tauto.
    - apply Exists_exists in K. exact K.
    - exfalso. apply (inside_curve a z (cps b) N L Q x y XY). intros u Hu.
      assert (In01 : forall q, In q (cps c) -> on_line a z q).
      { intros q I. apply (cross_line a z N). destruct (Req_EM_T (vcross (vsub z a) (vsub q a)) 0) as [E|E]; auto. exfalso. apply K. apply Exists_exists. exists q. split; auto.
        rewrite <- (cross_line a z N). exact E. }
      assert (Cu : curve (cps b) u = curve (cps c) ((u - x) / (y - x))) by (rewrite C; f_equal; field; lra). rewrite Cu. generalize ((u - x) / (y - x)). intros w.
      destruct (cps c) as [|p0 [|p1 [|p2 [|p3 r]]]]; try (simpl in Lc; lia). rewrite curve3. apply (cross_line a z N).
      pose proof (proj2 (cross_line a z N p0) (In01 p0 ltac:(now left))) as H0. pose proof (proj2 (cross_line a z N p1) (In01 p1 ltac:(right; now left))) as H1.
      pose proof (proj2 (cross_line a z N p2) (In01 p2 ltac:(right; right; now left))) as H2. unfold vcross, vsub in *. cbn [fst snd] in *.
      match goal with |- ?g = 0 => replace g with ((1 - w) ^ 2 * ((fst z - fst a) * (snd p0 - snd a) - (snd z - snd a) * (fst p0 - fst a)) + 2 * (1 - w) * w * ((fst z - fst a) * (snd p1 - snd a) - (snd z - snd a) * (fst p1 - fst a))
        + w ^ 2 * ((fst z - fst a) * (snd p2 - snd a) - (snd z - snd a) * (fst p2 - fst a))) by ring end. rewrite H0, H1, H2. ring. }
  destruct (roots_line_quadratic a z N c ltac:(lia) Qc) as (oc & Ec & Hc). exists ob, oc. split; [exact Eb|]. split; [exact Ec|]. split.
  - intros u Hu I. apply Hb in I as [I _]. apply Hc. rewrite C. replace (x + (u - x) / (y - x) * (y - x)) with u by (field; lra). split; auto. left.
    split; [apply Rmult_le_pos; [lra|left; apply Rinv_0_lt_compat; lra]|apply Rmult_le_reg_r with (y - x); [lra|]; unfold Rdiv; rewrite Rmult_assoc, Rinv_l by lra; lra].
  - intros s Hs I. apply Hc in I as [I _]. apply Hb. rewrite C in I. split; auto. left. nra.
Qed.
Theorem cut_roots (a z : pt) (b l r : bezier R) h t : a <> z -> length (cps b) = 3%nat -> (exists q, In q (cps b) /\ ~ on_line a z q) -> 0 < t < 1 -> split1 b t = Ok (l, r, h) ->
  exists ob ol orr, roots b (Some [a; z]) = Ok ob /\ roots l (Some [a; z]) = Ok ol /\ roots r (Some [a; z]) = Ok orr /\
    (forall u, 0 <= u <= t -> In u ob -> In (u / t) ol) /\ (forall u, t <= u <= 1 -> In u ob -> In ((u - t) / (1 - t)) orr) /\
    (forall s, 0 <= s <= 1 -> In s ol -> In (t * s) ob) /\ (forall s, 0 <= s <= 1 -> In s orr -> In (t + (1 - t) * s) ob).
Proof.
  intros N L Q T E. destruct (split_pieces b l r h t (or_introl L) E) as (P & P' & _).
  destruct (roots_piece a z b l 0 t N L Q ltac:(lra) ltac:(lra) ltac:(lra) P) as (ob & ol & Eb & El & H1 & H2).
  destruct (roots_piece a z b r t 1 N L Q ltac:(lra) ltac:(lra) ltac:(lra) P') as (ob' & orr & Eb' & Er & H3 & H4). rewrite Eb in Eb'. injection Eb' as <-.
  exists ob, ol, orr. repeat (split; [assumption|]). split; [|split; [|split]].
  - intros u Hu I. specialize (H1 u Hu I). replace ((u - 0) / (t - 0)) with (u / t) in H1 by (field; lra). exact H1.
  - exact H3.
  - intros s Hs I. specialize (H2 s Hs I). replace (0 + s * (t - 0)) with (t * s) in H2 by ring. exact H2.
  - intros s Hs I. specialize (H4 s Hs I). replace (t + s * (1 - t)) with (t + (1 - t) * s) in H4 by ring. exact H4.
Qed.

(** ** The order of two cuts *)
Lemma curve_points (p q : list pt) : (length p = 3 \/ length p = 4)%nat -> length q = length p -> (forall u, curve p u = curve q u) -> p = q.
Proof.
  intros L E H. assert (H0 := H 0). assert (H1 := H 1). assert (H2 := H 2). assert (H3 := H (-1)). clear H.
  destruct p as [|[x0 y0] [|[x1 y1] [|[x2 y2] [|[x3 y3] [|p4 r]]]]]; try (simpl in L; lia);
    destruct q as [|[u0 v0] [|[u1 v1] [|[u2 v2] [|[u3 v3] [|q4 r']]]]]; try (simpl in E; lia).
  - rewrite !curve3 in H0, H1, H2, H3. cbn [fst snd] in *.
    assert (A0 := f_equal fst H0). assert (A1 := f_equal fst H1). assert (A2 := f_equal fst H2). assert (B0 := f_equal snd H0). assert (B1 := f_equal snd H1). assert (B2 := f_equal snd H2).
    cbn [fst snd] in *. clear H0 H1 H2 H3. repeat f_equal; lra.
  - rewrite !curve4 in H0, H1, H2, H3. cbn [fst snd] in *.
    assert (A0 := f_equal fst H0). assert (A1 := f_equal fst H1). assert (A2 := f_equal fst H2). assert (A3 := f_equal fst H3).
    assert (B0 := f_equal snd H0). assert (B1 := f_equal snd H1). assert (B2 := f_equal snd H2). assert (B3 := f_equal snd H3).
    cbn [fst snd] in *. clear H0 H1 H2 H3. repeat f_equal; lra.
Qed.
Lemma same_bezier (b c : bezier R) : cps b = cps c -> bt1 b = bt1 c -> bt2 b = bt2 c -> b = c.
Proof. destruct b, c. cbn. congruence. Qed.
Theorem cut_twice (b l r : bezier R) h t s ll lr h1 : (length (cps b) = 3 \/ length (cps b) = 4)%nat -> t * s <> 1 ->
  split1 b t = Ok (l, r, h) -> split1 l s = Ok (ll, lr, h1) ->
  exists r' h2 h3, split1 b (t * s) = Ok (ll, r', h2) /\ split1 r' ((t - t * s) / (1 - t * s)) = Ok (lr, r, h3).
Proof.
  intros L N E E1. destruct (split_pieces b l r h t L E) as ([Ll Cl] & [Lr Cr] & T1 & T2 & T3 & T4).
  destruct (split_pieces l ll lr h1 s ltac:(lia) E1) as ([Lll Cll] & [Llr Clr] & U1 & U2 & U3 & U4).
  destruct (split1_ok b (t * s) L) as (l2 & r2 & E2 & _). destruct (split_pieces b l2 r2 _ _ L E2) as ([Ll2 Cl2] & [Lr2 Cr2] & V1 & V2 & V3 & V4).
  set (w := (t - t * s) / (1 - t * s)). destruct (split1_ok r2 w ltac:(lia)) as (l3 & r3 & E3 & _).
  destruct (split_pieces r2 l3 r3 _ _ ltac:(lia) E3) as ([Ll3 Cl3] & [Lr3 Cr3] & W1 & W2 & W3 & W4).
  assert (D : 1 - t * s <> 0) by lra.
  assert (Q1 : ll = l2).
  { apply same_bezier; [|congruence|rewrite U2, V2, T1, T2; ring]. apply curve_points; [lia|lia|]. intros u. rewrite Cll, Cl, Cl2. f_equal. ring. }
  assert (Q2 : lr = l3).
  { apply same_bezier; [|rewrite W1, V3, V2, U3, U2, T1, T2; ring|rewrite W2, U4, V3, V2, V4, T2; unfold w; field; lra].
    apply curve_points; [lia|lia|]. intros u. rewrite Clr, Cl, Cl3, Cr2. f_equal. unfold w. field. lra. }
  assert (Q3 : r = r3).
  { apply same_bezier; [|rewrite W3, W2, T3, T2, V3, V2, V4; unfold w; field; lra|rewrite W4, V4, T4; reflexivity].
    apply curve_points; [lia|lia|]. intros u. rewrite Cr, Cr3, Cr2. f_equal. unfold w. field. lra. }
  subst l2 l3 r3. exists r2, (hull b (t * s)), (hull r2 w). split; assumption.
Qed.
