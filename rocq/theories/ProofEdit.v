(** Proofs for C140: what becomes of a curve when its control points are edited. *)
From Coq Require Import List ZArith Bool Reals Lra Lia Psatz.
From Verif Require Import Py Inst SpecGeom SpecBezier SpecFit SpecCurve SpecConvex SpecEdit SpecContour MBezUtil MBezier MContour ProofFit ProofBezier ProofBezier2 ProofBezier3 ProofCurve ProofRaise ProofConvex.
Import ListNotations.
Local Open Scope R_scope.

Lemma edits_length ps qs : length ps = length qs -> length (edits ps qs) = length ps.
Proof. intros L. unfold edits. rewrite map_length, combine_length. lia. Qed.
Lemma edits_nth ps qs i : length ps = length qs -> nth i (edits ps qs) (0, 0) = vsub (nth i qs (0, 0)) (nth i ps (0, 0)).
Proof.
  intros L. unfold edits. set (h := fun pq : pt * pt => vsub (snd pq) (fst pq)).
  replace (0, 0) with (h ((0, 0), (0, 0))) at 1 by (unfold h, vsub; cbn [fst snd]; f_equal; ring). rewrite map_nth, combine_nth by exact L. reflexivity.
Qed.
Lemma edits_cons p q ps qs : edits (p :: ps) (q :: qs) = vsub q p :: edits ps qs.
Proof. reflexivity. Qed.
Lemma edits_app ps qs : forall ps' qs', length ps = length qs -> edits (ps ++ ps') (qs ++ qs') = edits ps qs ++ edits ps' qs'.
Proof. revert qs. induction ps as [|p ps IH]; intros [|q qs] ps' qs' L; try discriminate; [reflexivity|]. cbn [app]. rewrite !edits_cons. cbn [app]. f_equal. apply IH. now injection L. Qed.
Lemma level_length (f : pt -> pt -> pt) : forall p, length (dcLevel f p) = (length p - 1)%nat.
Proof. intros p. apply dcLevel_length. Qed.
Lemma level_edits t : forall ps qs, length ps = length qs -> dcLevel (lerp t) (edits ps qs) = edits (dcLevel (lerp t) ps) (dcLevel (lerp t) qs).
Proof.
  induction ps as [|p ps IH]; intros [|q qs] L; try discriminate; [reflexivity|]. injection L as L. specialize (IH qs L).
  destruct ps as [|p' ps]; destruct qs as [|q' qs]; try discriminate; [reflexivity|].
  change (dcLevel (lerp t) (p :: p' :: ps)) with (lerp t p p' :: dcLevel (lerp t) (p' :: ps)). change (dcLevel (lerp t) (q :: q' :: qs)) with (lerp t q q' :: dcLevel (lerp t) (q' :: qs)).
  rewrite !edits_cons, <- IH, edits_cons. change (dcLevel (lerp t) (?u :: ?v :: ?l)) with (lerp t u v :: dcLevel (lerp t) (v :: l)). f_equal.
  unfold lerp, vsub. destruct p, q, p', q'. numR. cbn [fst snd]. f_equal; ring.
Qed.
Lemma loop_length t : forall n p q p' q', length p = length p' -> length q = length q' -> length (hullLoop (T := R) n t p q) = length (hullLoop n t p' q').
Proof.
  induction n as [|n IH]; intros p q p' q' L L'; cbn [hullLoop]; [exact L'|]. rewrite L. destruct (Nat.ltb 1 (length p')); [|exact L'].
  apply IH; rewrite ?app_length, !level_length; lia.
Qed.
Lemma loop_edits t : forall n ps qs as_ bs, length ps = length qs -> length as_ = length bs ->
  hullLoop n t (edits ps qs) (edits as_ bs) = edits (hullLoop n t ps as_) (hullLoop n t qs bs).
Proof.
  induction n as [|n IH]; intros ps qs as_ bs L L'; cbn [hullLoop]; [reflexivity|]. rewrite edits_length, <- L by exact L. destruct (Nat.ltb 1 (length ps)); [|reflexivity].
  rewrite level_edits, <- edits_app by assumption. apply IH; rewrite ?app_length, !level_length; lia.
Qed.
Definition diff (b c : bezier R) : bezier R := mkBez (edits (cps b) (cps c)) 0 1.
Lemma hull_edits (b c : bezier R) t : length (cps b) = length (cps c) -> hull (diff b c) t = edits (hull b t) (hull c t).
Proof. intros L. unfold hull, diff. cbn [cps]. rewrite edits_length by exact L. rewrite loop_edits by assumption. now rewrite L. Qed.
Lemma curve_edits ps qs t : length ps = length qs -> curve (edits ps qs) t = vsub (curve qs t) (curve ps t).
Proof.
  intros L. rewrite !curve_cv. unfold cv, vsub. cbn [fst snd]. rewrite edits_length, <- L by exact L.
  assert (M : forall n f g h, (forall i, (i <= n)%nat -> f i = g i - h i) -> bez n f t = bez n g t - bez n h t).
  { intros n f g h E. rewrite (bez_ext n f (fun i => 1 * g i + -1 * h i)) by (intros i Hi; rewrite E by exact Hi; ring). rewrite bez_lin. ring. }
  f_equal; apply M; intros i _; unfold cx, cy; rewrite edits_nth by exact L; reflexivity.
Qed.
(** [follows] from indices. *)
Lemma follows_all es ps qs : length ps = length qs -> (forall e, In e (edits ps qs) -> in_hull es e) -> follows es ps qs.
Proof.
  revert qs. induction ps as [|p ps IH]; intros [|q qs] L H; try discriminate; [constructor|]. rewrite edits_cons in H. constructor; [apply H; now left|].
  apply IH; [now injection L|]. intros e I. apply H. now right.
Qed.
Lemma follows_edits es ps qs : follows es ps qs -> forall e, In e (edits ps qs) -> in_hull es e.
Proof. intros F. induction F as [|p q ps qs H F IH]; [intros e []|]. rewrite edits_cons. intros e [<-|I]; [exact H | now apply IH]. Qed.
Lemma follows_length es ps qs : follows es ps qs -> length ps = length qs.
Proof. intros F. induction F; simpl; congruence. Qed.

Section Edit.
  Variables (b c : bezier R).
  Hypothesis L : length (cps b) = length (cps c).
  Let es := edits (cps b) (cps c).
  Theorem get_follows t p q : 0 <= t <= 1 -> get b t = Ok p -> get c t = Ok q -> in_hull es (vsub q p).
  Proof.
    intros T P Q. assert (P1 : (1 <= length (cps b))%nat) by (destruct (cps b) eqn:B; [rewrite get_nil in P by exact B; discriminate | simpl; lia]).
    rewrite get_ok in P, Q by lia. assert (p = curve (cps b) t) by congruence. assert (q = curve (cps c) t) by congruence. subst p q. rewrite <- curve_edits by exact L. apply curve_hull; [|exact T].
    unfold es. intros N. apply (f_equal (@length pt)) in N. rewrite edits_length in N by exact L. simpl in N. lia.
  Qed.
  Lemma hull_in t e : 0 <= t <= 1 -> In e (edits (hull b t) (hull c t)) -> in_hull es e.
  Proof. intros T I. rewrite <- hull_edits in I by exact L. apply (hull_hull (diff b c) t e T I). Qed.
  Lemma hull_same t : length (hull b t) = length (hull c t).
  Proof. unfold hull. rewrite L. apply loop_length; exact L. Qed.
  Theorem hull_follows t : 0 <= t <= 1 -> follows es (hull b t) (hull c t).
  Proof. intros T. apply follows_all; [apply hull_same|]. intros e. now apply hull_in. Qed.
  Lemma idx_in t i x y : 0 <= t <= 1 -> idx (hull b t) i = Ok x -> idx (hull c t) i = Ok y -> in_hull es (vsub y x).
  Proof.
    intros T. unfold idx. destruct (nth_error (hull b t) i) eqn:X; [|discriminate]. destruct (nth_error (hull c t) i) eqn:Y; [|discriminate]. intros E1 E2. injection E1 as ->. injection E2 as ->.
    apply (hull_in t); [exact T|]. assert (I : (i < length (hull b t))%nat) by (apply nth_error_Some; congruence).
    apply (nth_error_nth _ _ (0, 0)) in X, Y. rewrite <- X, <- Y, <- edits_nth by apply hull_same. apply nth_In. rewrite edits_length by apply hull_same. exact I.
  Qed.
  Theorem split1_follows t l r h l' r' h' : 0 <= t <= 1 -> split1 b t = Ok (l, r, h) -> split1 c t = Ok (l', r', h') ->
    follows es (cps l) (cps l') /\ follows es (cps r) (cps r') /\ follows es h h'.
  Proof.
    intros T. pose proof (idx_in t) as IX. pose proof (hull_follows t T) as HF. revert IX HF. unfold split1. set (H := hull b t). set (G := hull c t). intros IX HF.
    assert (O : order c = order b) by (unfold order; now rewrite L). rewrite O. destruct (Nat.eqb (order b) 2).
    - destruct (idx H 0) as [q0|] eqn:E0; cbn [bind]; [|discriminate]. destruct (idx H 3) as [q3|] eqn:E3; cbn [bind]; [|discriminate]. destruct (idx H 5) as [q5|] eqn:E5; cbn [bind]; [|discriminate].
      rewrite newBezier_ok by (cbn; lia). cbn [bind]. destruct (idx H 4) as [q4|] eqn:E4; cbn [bind]; [|discriminate]. destruct (idx H 2) as [q2|] eqn:E2; cbn [bind]; [|discriminate].
      rewrite newBezier_ok by (cbn; lia). cbn [bind]. destruct (bmap _ _ _ _ _); cbn [bind]; [|discriminate]. destruct (bmap _ _ _ _ _); cbn [bind]; [|discriminate]. destruct (bmap _ _ _ _ _); cbn [bind]; [|discriminate].
      intros E. injection E as <- <- <-.
      destruct (idx G 0) as [g0|] eqn:F0; cbn [bind]; [|discriminate]. destruct (idx G 3) as [g3|] eqn:F3; cbn [bind]; [|discriminate]. destruct (idx G 5) as [g5|] eqn:F5; cbn [bind]; [|discriminate].
      rewrite newBezier_ok by (cbn; lia). cbn [bind]. destruct (idx G 4) as [g4|] eqn:F4; cbn [bind]; [|discriminate]. destruct (idx G 2) as [g2|] eqn:F2; cbn [bind]; [|discriminate].
      rewrite newBezier_ok by (cbn; lia). cbn [bind]. destruct (bmap _ _ _ _ _); cbn [bind]; [|discriminate]. destruct (bmap _ _ _ _ _); cbn [bind]; [|discriminate]. destruct (bmap _ _ _ _ _); cbn [bind]; [|discriminate].
      intros E. injection E as <- <- <-. unfold withInterval. cbn [cps]. split; [|split; [|exact HF]]; unfold follows; repeat (apply Forall2_cons || apply Forall2_nil); eapply IX; eassumption.
    - destruct (idx H 0) as [q0|] eqn:E0; cbn [bind]; [|discriminate]. destruct (idx H 4) as [q4|] eqn:E4; cbn [bind]; [|discriminate]. destruct (idx H 7) as [q7|] eqn:E7; cbn [bind]; [|discriminate]. destruct (idx H 9) as [q9|] eqn:E9; cbn [bind]; [|discriminate].
      rewrite newBezier_ok by (cbn; lia). cbn [bind]. destruct (idx H 8) as [q8|] eqn:E8; cbn [bind]; [|discriminate]. destruct (idx H 6) as [q6|] eqn:E6; cbn [bind]; [|discriminate]. destruct (idx H 3) as [q3|] eqn:E3; cbn [bind]; [|discriminate].
      rewrite newBezier_ok by (cbn; lia). cbn [bind]. destruct (bmap _ _ _ _ _); cbn [bind]; [|discriminate]. destruct (bmap _ _ _ _ _); cbn [bind]; [|discriminate]. destruct (bmap _ _ _ _ _); cbn [bind]; [|discriminate].
      intros E. injection E as <- <- <-.
      destruct (idx G 0) as [g0|] eqn:F0; cbn [bind]; [|discriminate]. destruct (idx G 4) as [g4|] eqn:F4; cbn [bind]; [|discriminate]. destruct (idx G 7) as [g7|] eqn:F7; cbn [bind]; [|discriminate]. destruct (idx G 9) as [g9|] eqn:F9; cbn [bind]; [|discriminate].
      rewrite newBezier_ok by (cbn; lia). cbn [bind]. destruct (idx G 8) as [g8|] eqn:F8; cbn [bind]; [|discriminate]. destruct (idx G 6) as [g6|] eqn:F6; cbn [bind]; [|discriminate]. destruct (idx G 3) as [g3|] eqn:F3; cbn [bind]; [|discriminate].
      rewrite newBezier_ok by (cbn; lia). cbn [bind]. destruct (bmap _ _ _ _ _); cbn [bind]; [|discriminate]. destruct (bmap _ _ _ _ _); cbn [bind]; [|discriminate]. destruct (bmap _ _ _ _ _); cbn [bind]; [|discriminate].
      intros E. injection E as <- <- <-. unfold withInterval. cbn [cps]. split; [|split; [|exact HF]]; unfold follows; repeat (apply Forall2_cons || apply Forall2_nil); eapply IX; eassumption.
  Qed.
End Edit.
Lemma follows_trans es fs ps qs : (forall e, In e fs -> in_hull es e) -> follows fs ps qs -> follows es ps qs.
Proof. intros H F. induction F as [|p q ps qs K F IH]; constructor; [|exact IH]. eapply in_hull_trans; [exact H | exact K]. Qed.
Theorem split2_follows (b c : bezier R) t1 t2 s s' : length (cps b) = length (cps c) -> 0 <= t1 -> t1 <= t2 -> t2 <= 1 -> split2 b t1 t2 = Ok s -> split2 c t1 t2 = Ok s' ->
  let es := edits (cps b) (cps c) in
  match s, s' with
  | SCurve k, SCurve k' => follows es (cps k) (cps k')
  | STriple l r h, STriple l' r' h' => follows es (cps l) (cps l') /\ follows es (cps r) (cps r') /\ follows es h h'
  | _, _ => False
  end.
Proof.
  intros L A B C. unfold split2. numRg. destruct (Reqb t1 0 && negb (Reqb t2 0)).
  { destruct (split1 b t2) as [[[l r] h]|] eqn:E; cbn [bind]; [|discriminate]. destruct (split1 c t2) as [[[l' r'] h']|] eqn:E'; cbn [bind]; [|discriminate]. intros K K'. injection K as <-. injection K' as <-.
    apply (split1_follows b c L t2 _ _ _ _ _ _ ltac:(lra) E E'). }
  destruct (Reqb t2 1).
  { destruct (split1 b t1) as [[[l r] h]|] eqn:E; cbn [bind]; [|discriminate]. destruct (split1 c t1) as [[[l' r'] h']|] eqn:E'; cbn [bind]; [|discriminate]. intros K K'. injection K as <-. injection K' as <-.
    apply (split1_follows b c L t1 _ _ _ _ _ _ ltac:(lra) E E'). }
  destruct (split1 b t1) as [[[l r] h]|] eqn:E; cbn [bind]; [|discriminate]. destruct (split1 c t1) as [[[l' r'] h']|] eqn:E'; cbn [bind]; [|discriminate].
  pose proof (split1_follows b c L t1 _ _ _ _ _ _ ltac:(lra) E E') as F. destruct (Reqb t2 0).
  { intros K K'. injection K as <-. injection K' as <-. exact F. }
  unfold bmap, ndiv. numRg. destruct (Reqb_spec (1 - t1) 0) as [Z|Z]; cbn [bind]; [discriminate|].
  set (u := 0 + (1 - 0) * ((t2 - t1) / (1 - t1))).
  assert (U : 0 <= u <= 1). { unfold u. rewrite Rplus_0_l, Rminus_0_r, Rmult_1_l. split; [apply Rmult_le_pos; [lra|]; left; apply Rinv_0_lt_compat; lra|]. apply (Rmult_le_reg_r (1 - t1)); [lra|]. unfold Rdiv. rewrite Rmult_assoc, Rinv_l, Rmult_1_r by lra. lra. }
  destruct (split1 r u) as [[[k m] j]|] eqn:R; cbn [bind]; [|discriminate]. destruct (split1 r' u) as [[[k' m'] j']|] eqn:R'; cbn [bind]; [|discriminate]. intros K K'. injection K as <-. injection K' as <-.
  destruct F as (_ & F & _). apply (follows_trans _ (edits (cps r) (cps r'))); [now apply follows_edits|].
  apply (split1_follows r r' (follows_length _ _ _ F) u _ _ _ _ _ _ U R R').
Qed.
Lemma mapM_both {A B} (P : B -> B -> Prop) (f g : A -> res B) : forall l xs ys, (forall a x y, In a l -> f a = Ok x -> g a = Ok y -> P x y) -> mapM f l = Ok xs -> mapM g l = Ok ys -> Forall2 P xs ys.
Proof.
  induction l as [|a l IH]; intros xs ys H; cbn [mapM]; [intros E E'; injection E as <-; injection E' as <-; constructor|].
  destruct (f a) as [x|] eqn:X; cbn [bind]; [|discriminate]. destruct (mapM f l) as [xs'|] eqn:M; cbn [bind]; [|discriminate].
  destruct (g a) as [y|] eqn:Y; cbn [bind]; [|discriminate]. destruct (mapM g l) as [ys'|] eqn:M'; cbn [bind]; [|discriminate].
  intros E E'. injection E as <-. injection E' as <-. constructor; [apply (H a); auto; now left|]. apply (IH xs' ys'); auto. intros a' x' y' I. apply H. now right.
Qed.
Theorem lut_follows (b c : bezier R) s l l' : length (cps b) = length (cps c) -> getLUT b s = Ok l -> getLUT c s = Ok l' -> follows (edits (cps b) (cps c)) l l'.
Proof.
  intros L. unfold getLUT. destruct (Z.eqb_spec s 0) as [S|S]; [intros E E'; injection E as <-; injection E' as <-; constructor|].
  apply mapM_both. intros i x y Hi. apply in_seq in Hi. numR. destruct (Z.eq_dec s 1) as [->|S1]; [rewrite ndivR0 by reflexivity; discriminate|]. rewrite ndivR by (apply not_0_IZR; lia). cbn [bind].
  apply get_follows; [exact L|]. assert (D : 0 < IZR (s - 1)) by (apply IZR_lt; lia). assert (Ii : 0 <= IZR (Z.of_nat i) <= IZR (s - 1)) by (split; apply IZR_le; lia).
  split; [apply Rmult_le_pos; [lra | left; now apply Rinv_0_lt_compat]|]. apply (Rmult_le_reg_r (IZR (s - 1))); [exact D|]. unfold Rdiv. rewrite Rmult_assoc, Rinv_l, Rmult_1_r by lra. lra.
Qed.
Lemma raised_edits ps qs : length ps = length qs -> raised (edits ps qs) = edits (raised ps) (raised qs).
Proof.
  intros L. assert (R : forall p : list pt, length (raised p) = S (length p)) by (intros p; unfold raised; now rewrite map_length, seq_length).
  apply (nth_ext _ _ (0, 0) (0, 0)); [rewrite R, (edits_length ps qs L), edits_length, R by (rewrite !R; lia); reflexivity|]. intros i. rewrite R, edits_length by exact L. intros Hi.
  rewrite edits_nth by (rewrite !R; lia). rewrite !raised_nth by (rewrite ?edits_length by exact L; lia). rewrite edits_length by exact L. rewrite <- L. unfold elev, cx, cy, vsub. rewrite !edits_nth by exact L. unfold vsub. cbn [fst snd]. f_equal; ring.
Qed.
Theorem raise_follows (b c b' c' : bezier R) : (2 <= length (cps b))%nat -> length (cps b) = length (cps c) -> raiseOrder b = Ok b' -> raiseOrder c = Ok c' -> follows (edits (cps b) (cps c)) (cps b') (cps c').
Proof.
  intros L2 L E E'. rewrite raiseOrder_points in E, E' by lia. injection E as <-. injection E' as <-. cbn [cps].
  assert (R : forall p : list pt, length (raised p) = S (length p)) by (intros p; unfold raised; now rewrite map_length, seq_length).
  set (d := diff b c). assert (H : forall e, In e (raised (cps d)) -> in_hull (cps d) e).
  { intros e I. apply (raise_hull d (mkBez (nth 0 (raised (cps d)) (0, 0) :: raised (cps d)) 0 1)); [unfold d, diff; cbn [cps]; rewrite edits_length by exact L; exact L2 | apply raiseOrder_points; unfold d, diff; cbn [cps]; rewrite edits_length by exact L; exact L2 | right; exact I]. }
  unfold d, diff in H. cbn [cps] in H. rewrite raised_edits in H by exact L.
  apply follows_all; [cbn [length]; rewrite !R; congruence|]. rewrite edits_cons. intros e [<-|I]; [|now apply H]. apply H. left. reflexivity.
Qed.

(** ** Velocities *)
Theorem derivative_follows (b c : bezier R) t d d' : (length (cps b) = 3 \/ length (cps b) = 4)%nat -> length (cps b) = length (cps c) -> 0 <= t <= 1 ->
  derivative b t = Ok d -> derivative c t = Ok d' -> in_hull (legs (edits (cps b) (cps c))) (vsub d' d).
Proof.
  intros L3 L T E E'. destruct (derivative_ok b t L3) as (u & U & D). rewrite E in U. injection U as <-. destruct (derivative_ok c t ltac:(lia)) as (u & U & D'). rewrite E' in U. injection U as <-.
  set (k := diff b c). assert (K : length (cps k) = length (cps b)) by (unfold k, diff; cbn [cps]; now apply edits_length).
  destruct (derivative_ok k t ltac:(lia)) as (u & U & DK). replace (vsub d' d) with u; [apply (velocity_hull k t u); [lia | exact T | exact U]|].
  rewrite (surjective_pairing u). unfold vsub. destruct DK as [K1 K2], D as [D1 D2], D' as [D3 D4]. f_equal; eapply uniqueness_limite; [exact K1| |exact K2|].
  - eapply derivable_pt_lim_ext; [|exact (derivable_pt_lim_minus _ _ _ _ _ D3 D1)]. intros x. unfold minus_fct, k, diff. cbn [cps]. rewrite curve_edits by exact L. reflexivity.
  - eapply derivable_pt_lim_ext; [|exact (derivable_pt_lim_minus _ _ _ _ _ D4 D2)]. intros x. unfold minus_fct, k, diff. cbn [cps]. rewrite curve_edits by exact L. reflexivity.
Qed.

(** ** Sizes *)
Lemma hull_norm es v r : 0 <= r -> (forall e, In e es -> vdist (0, 0) e <= r) -> in_hull es v -> vdist (0, 0) v <= r.
Proof.
  intros R0 H V. assert (N : forall x : pt, vdist (0, 0) x * vdist (0, 0) x = fst x * fst x + snd x * snd x).
  { intros x. unfold vdist. rewrite sqrt_sqrt; unfold dist2, vdot, vsub; cbn [fst snd]; nra. }
  assert (P : forall x : pt, 0 <= vdist (0, 0) x) by (intros x; apply sqrt_pos).
  pose proof (V (fst v) (snd v) (r * vdist (0, 0) v)) as K. destruct (Rle_lt_dec (vdist (0, 0) v) r) as [|G]; [assumption|exfalso].
  assert (fst v * fst v + snd v * snd v <= r * vdist (0, 0) v).
  { apply K. intros e I. specialize (H e I). pose proof (N e) as Ne. pose proof (N v) as Nv. pose proof (P e). pose proof (P v). set (n := vdist (0, 0) e) in *. set (m := vdist (0, 0) v) in *.
    assert (CS : (fst v * fst e + snd v * snd e) * (fst v * fst e + snd v * snd e) <= (n * m) * (n * m)).
    { replace (n * m * (n * m)) with ((n * n) * (m * m)) by ring. rewrite Ne, Nv. pose proof (Rle_0_sqr (fst v * snd e - snd v * fst e)). unfold Rsqr in *. lra. }
    assert (fst v * fst e + snd v * snd e <= n * m). { apply Rnot_lt_le. intros X. assert (0 <= n * m) by (apply Rmult_le_pos; lra). nra. }
    assert (n * m <= r * m) by (apply Rmult_le_compat_r; lra). lra. }
  rewrite <- N in H0. pose proof (P v). nra.
Qed.
Lemma hull_fst es v lo hi : (forall e, In e es -> lo <= fst e <= hi) -> in_hull es v -> lo <= fst v <= hi.
Proof.
  intros H V. split.
  - pose proof (V (-1) 0 (- lo)) as K. assert (-1 * fst v + 0 * snd v <= - lo) by (apply K; intros e I; specialize (H e I); lra). lra.
  - pose proof (V 1 0 hi) as K. assert (1 * fst v + 0 * snd v <= hi) by (apply K; intros e I; specialize (H e I); lra). lra.
Qed.
Lemma hull_snd es v lo hi : (forall e, In e es -> lo <= snd e <= hi) -> in_hull es v -> lo <= snd v <= hi.
Proof.
  intros H V. split.
  - pose proof (V 0 (-1) (- lo)) as K. assert (0 * fst v + -1 * snd v <= - lo) by (apply K; intros e I; specialize (H e I); lra). lra.
  - pose proof (V 0 1 hi) as K. assert (0 * fst v + 1 * snd v <= hi) by (apply K; intros e I; specialize (H e I); lra). lra.
Qed.
