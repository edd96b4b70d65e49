(** Proofs for C146: which calls raise, for numbers of any kind. *)
From Coq Require Import List ZArith Bool Reals Lra Lia Arith.
From Flocq Require Import Core BinarySingleNaN.
From Verif Require Import Py Inst InstFloat SpecDouble SpecError MTransform MBounds MBezUtil MBezier ProofDouble ProofDouble2.
Import ListNotations.

Lemma idx_some {A} (l : list A) i : (i < length l)%nat -> exists a, idx l i = Ok a.
Proof. intros H. unfold idx. destruct (nth_error l i) eqn:E; [eauto|]. apply nth_error_None in E. lia. Qed.
Lemma idx_none {A} (l : list A) i : (length l <= i)%nat -> idx l i = Err IndexError.
Proof. intros H. unfold idx. apply nth_error_None in H. now rewrite H. Qed.
Lemma last_some {A} (l : list A) : (1 <= length l)%nat -> exists a, idx_last l = Ok a.
Proof. unfold idx_last. induction l as [|a [|b r] IH]; simpl; intros H; [lia|eauto|]. apply IH. simpl. lia. Qed.
Lemma mapM_all {A B} (f : A -> res B) l : (forall a, In a l -> exists b, f a = Ok b) -> exists bs, mapM f l = Ok bs /\ length bs = length l.
Proof.
  induction l as [|a l IH]; intros H; [exists []; auto|]. destruct (H a (or_introl eq_refl)) as [b E]. destruct IH as (bs & E' & L); [intros x Hx; apply H; now right|].
  exists (b :: bs). simpl. rewrite E. simpl. rewrite E'. simpl. auto.
Qed.
Lemma foldM_all {A S} (f : S -> A -> res S) l : (forall s a, In a l -> exists s', f s a = Ok s') -> forall s, exists s', foldM f l s = Ok s'.
Proof.
  induction l as [|a l IH]; intros H s; [simpl; eauto|]. destruct (H s a (or_introl eq_refl)) as [s' E]. simpl. rewrite E. simpl. apply IH. intros u x Hx. apply H. now right.
Qed.
Ltac some i := match goal with |- context [idx ?l i] => let q := fresh "q" in let E := fresh "E" in destruct (idx_some l i) as [q E]; [try (simpl; lia)|rewrite E; cbn [bind]] end.

Section Any.
  Context {T : Type} {N : NumOps T} {Tr : TrigOps T}.
  Implicit Types (b : bezier T) (p : list (point T)) (t : T).
  Lemma new_when p : returns_iff (2 <= length p)%nat IndexError (newBezier p).
  Proof.
    split.
    - intros L. unfold newBezier. enough (K : exists d, computeDirection p = Ok d) by (destruct K as [d E]; rewrite E; simpl; eauto).
      unfold computeDirection. some 0%nat. some 1%nat. destruct (Nat.eqb_spec (length p - 1) 1); [repeat destruct (_ : bool); eauto|].
      some 2%nat. destruct (Nat.eqb_spec (length p - 1) 2); [repeat destruct (_ && _); eauto|]. some 3%nat.
      destruct (Nat.eqb (length p - 1) 3); [|eauto]. repeat destruct (_ && _); eauto.
    - intros L. unfold newBezier, computeDirection. destruct p as [|a [|c p]]; simpl in *; try reflexivity. lia.
  Qed.
  Lemma new_cps p b : newBezier p = Ok b -> cps b = p.
  Proof. unfold newBezier. destruct (computeDirection p); simpl; intros E; inversion E; reflexivity. Qed.
  Lemma level_length (f : point T -> point T -> point T) p : length (dcLevel f p) = (length p - 1)%nat.
  Proof. induction p as [|a [|c p] IH]; simpl in *; auto. rewrite IH. lia. Qed.
  Lemma loop_ok t : forall fuel p, (1 <= length p <= fuel)%nat -> exists q, dcLoop fuel t p = Ok q.
  Proof.
    induction fuel as [|f IH]; intros p L; [lia|]. simpl. destruct (Nat.ltb_spec 1 (length p)).
    - apply IH. rewrite level_length. lia.
    - apply idx_some. lia.
  Qed.
  Theorem get_when b t : returns_iff (1 <= length (cps b))%nat IndexError (get b t).
  Proof.
    split.
    - intros L. unfold get, order. destruct (_ =? _)%num; [apply idx_some; lia|]. destruct (_ =? _)%num; [apply idx_some; lia|]. cbv zeta.
      destruct (Nat.eqb_spec (length (cps b) - 1) 0); [apply idx_some; lia|]. destruct (Nat.eqb_spec (length (cps b) - 1) 1); [some 0%nat; some 1%nat; eauto|].
      destruct (Nat.ltb_spec (length (cps b) - 1) 4); [|apply loop_ok; lia]. some 0%nat. some 1%nat. some 2%nat.
      destruct (Nat.eqb_spec (length (cps b) - 1) 2); [cbn [bind]; eauto|]. some 3%nat. eauto.
    - intros L. destruct b as [[|a p] u v]; simpl in L; [|lia]. unfold get, order. simpl. destruct (_ =? _)%num; [reflexivity|]. destruct (_ =? _)%num; reflexivity.
  Qed.
  Lemma dc_length : forall d p, length (dcPointsFrom d p) = (d - 1)%nat.
  Proof.
    induction d as [|d IH]; intros p; [reflexivity|]. destruct d as [|d]; [reflexivity|]. change (dcPointsFrom (S (S d)) p) with (dcLevel (diffStep (S d)) p :: dcPointsFrom (S d) (dcLevel (diffStep (S d)) p)).
    cbn [length]. rewrite IH. lia.
  Qed.
  Lemma dc_head b : (2 <= length (cps b))%nat -> exists q, idx (dcPoints b) 0 = Ok q /\ length q = (length (cps b) - 1)%nat.
  Proof.
    intros L. unfold dcPoints. destruct (length (cps b)) as [|[|d]] eqn:E; try lia. eexists. split; [reflexivity|]. rewrite level_length, E. reflexivity.
  Qed.
  Theorem derivative_when b t : returns_iff (3 <= length (cps b))%nat IndexError (derivative b t).
  Proof.
    split.
    - intros L. destruct (dc_head b ltac:(lia)) as (q & E & Lq). unfold derivative. rewrite E. cbn [bind]. cbv zeta. some 0%nat. some 1%nat.
      unfold order. destruct (Nat.eqb_spec (length (cps b) - 1) 2); [cbn [bind]; eauto|]. some 2%nat. eauto.
    - intros L. unfold derivative. destruct (le_lt_dec (length (cps b)) 1).
      + rewrite idx_none; [reflexivity|]. unfold dcPoints. rewrite dc_length. lia.
      + destruct (dc_head b ltac:(lia)) as (q & E & Lq). rewrite E. cbn [bind]. cbv zeta. some 0%nat. rewrite idx_none by lia. reflexivity.
  Qed.
  Lemma extremaDim_when b d : returns_iff (2 <= length (cps b))%nat IndexError (extremaDim b d).
  Proof.
    split.
    - intros L. destruct (dc_head b L) as (q & E & Lq). unfold extremaDim. rewrite E. cbn [bind]. cbv zeta. unfold order.
      destruct (Nat.eqb_spec (length (cps b) - 1) 3); [|cbn [bind]; eauto]. destruct (idx_some (dcPoints b) 1) as [q1 E1]; [unfold dcPoints; rewrite dc_length; lia|]. rewrite E1. cbn [bind]. eauto.
    - intros L. unfold extremaDim. rewrite idx_none; [reflexivity|]. unfold dcPoints. rewrite dc_length. lia.
  Qed.
  Theorem box_when b : returns_iff (2 <= length (cps b))%nat IndexError (extrema b) /\ returns_iff (2 <= length (cps b))%nat IndexError (bbox b) /\
    returns_iff (2 <= length (cps b))%nat IndexError (boundsRectangle b).
  Proof.
    assert (X : returns_iff (2 <= length (cps b))%nat IndexError (extrema b)).
    { split; intros L; unfold extrema.
      - destruct (proj1 (extremaDim_when b 0) L) as [e0 E0]. destruct (proj1 (extremaDim_when b 1) L) as [e1 E1]. rewrite E0. cbn [bind]. rewrite E1. cbn [bind]. eauto.
      - rewrite (proj2 (extremaDim_when b 0) L). reflexivity. }
    assert (G : (2 <= length (cps b))%nat -> forall d l, exists m, getminmax b d l = Ok m).
    { intros L d l. unfold getminmax. apply foldM_all. intros s a _. destruct (proj1 (get_when b a) ltac:(lia)) as [q E]. rewrite E. cbn [bind]. eauto. }
    assert (B : returns_iff (2 <= length (cps b))%nat IndexError (bbox b)).
    { split; intros L; unfold bbox.
      - destruct (proj1 X L) as [e E]. rewrite E. cbn [bind]. destruct (G L 0%nat (ex0 e)) as [m Em]. destruct (G L 1%nat (ex1 e)) as [m' Em']. rewrite Em. cbn [bind]. rewrite Em'. cbn [bind]. eauto.
      - rewrite (proj2 X L). reflexivity. }
    split; [exact X|]. split; [exact B|]. split; intros L; unfold boundsRectangle.
    - destruct (proj1 B L) as [[[? ?] [? ?]] E]. rewrite E. cbn [bind]. eauto.
    - rewrite (proj2 B L). reflexivity.
  Qed.
  Theorem overlaps_when (a b : bezier T) : returns_iff (2 <= length (cps a) /\ 2 <= length (cps b))%nat IndexError (overlaps a b).
  Proof.
    destruct (box_when a) as (_ & _ & A). destruct (box_when b) as (_ & _ & B). split; unfold overlaps.
    - intros [L L']. destruct (proj1 A L) as [r E]. destruct (proj1 B L') as [r' E']. rewrite E. cbn [bind]. rewrite E'. cbn [bind]. eauto.
    - intros L. destruct (le_lt_dec 2 (length (cps a))) as [H|H].
      + destruct (proj1 A H) as [r E]. rewrite E. cbn [bind]. rewrite (proj2 B) by lia. reflexivity.
      + rewrite (proj2 A) by lia. reflexivity.
  Qed.
  Lemma hull_loop t : forall fuel p q, (length p <= fuel)%nat -> (2 * length (hullLoop fuel t p q) = 2 * length q + length p * (length p - 1))%nat.
  Proof.
    induction fuel as [|f IH]; intros p q L.
    - destruct p; simpl in *; lia.
    - cbn [hullLoop]. cbv zeta. destruct (Nat.ltb_spec 1 (length p)).
      + rewrite IH by (rewrite level_length; lia). rewrite app_length, !level_length. destruct (length p) as [|[|n]]; nia.
      + destruct (length p) as [|[|n]]; try lia; simpl; lia.
  Qed.
  Theorem hull_size b t : (2 * length (hull b t) = length (cps b) * (length (cps b) + 1))%nat.
  Proof. unfold hull. rewrite hull_loop by lia. destruct (length (cps b)); simpl; lia. Qed.
  Lemma hull_big b t n k : (2 * k <= n * (n + 1))%nat -> (n <= length (cps b))%nat -> (k <= length (hull b t))%nat.
  Proof. intros H L. pose proof (hull_size b t) as S. assert (n * (n + 1) <= length (cps b) * (length (cps b) + 1))%nat by (apply Nat.mul_le_mono; lia). lia. Qed.
  Lemma hull_small b t : (length (cps b) <= 2)%nat -> (length (hull b t) <= 3)%nat.
  Proof. intros L. pose proof (hull_size b t) as S. destruct (length (cps b)) as [|[|[|n]]]; simpl in S; lia. Qed.
  Lemma map_unit (v a c : T) : unit_step (T := T) -> exists y, bmap v (nofZ 0) (nofZ 1) a c = Ok y.
  Proof. unfold unit_step, bmap, ndiv. intros ->. cbn [bind]. eauto. Qed.
  Theorem split_when b t : unit_step (T := T) -> returns_iff (3 <= length (cps b))%nat IndexError (split1 b t).
  Proof.
    intros U. assert (NB : forall p, (2 <= length p)%nat -> exists c, newBezier p = Ok c) by (intros p; apply new_when). split; intros L.
    - unfold split1. cbv zeta. unfold order.
      match goal with |- context [bind (if ?c then ?x else ?y) ?k] => assert (K : exists lr, (if c then x else y) = Ok lr) end.
      { destruct (Nat.eqb_spec (length (cps b) - 1) 2).
        - pose proof (hull_big b t 3 6 ltac:(lia) ltac:(lia)). some 0%nat. some 3%nat. some 5%nat. match goal with |- context [newBezier ?x] => destruct (NB x) as [c1 Ec1]; [simpl; lia|rewrite Ec1; cbn [bind]] end.
          some 4%nat. some 2%nat. match goal with |- context [newBezier ?x] => destruct (NB x) as [c2 Ec2]; [simpl; lia|rewrite Ec2; cbn [bind]] end. eauto.
        - pose proof (hull_big b t 4 10 ltac:(lia) ltac:(lia)). some 0%nat. some 4%nat. some 7%nat. some 9%nat. match goal with |- context [newBezier ?x] => destruct (NB x) as [c1 Ec1]; [simpl; lia|rewrite Ec1; cbn [bind]] end.
          some 8%nat. some 6%nat. some 3%nat. match goal with |- context [newBezier ?x] => destruct (NB x) as [c2 Ec2]; [simpl; lia|rewrite Ec2; cbn [bind]] end. eauto. }
      destruct K as [[l r] ->]. cbn [bind].
      repeat match goal with |- context [bmap ?v (nofZ 0) (nofZ 1) ?a ?c] => let y := fresh "y" in let E := fresh "E" in destruct (map_unit v a c U) as [y E]; rewrite E; cbn [bind] end. eauto.
    - unfold split1. cbv zeta. unfold order. destruct (Nat.eqb_spec (length (cps b) - 1) 2); [lia|].
      pose proof (hull_small b t ltac:(lia)). unfold idx at 1. destruct (nth_error (hull b t) 0); [|reflexivity]. cbn [bind]. rewrite idx_none by lia. reflexivity.
  Qed.
  Theorem roots_when b : returns_iff (3 <= length (cps b))%nat IndexError (roots b None).
  Proof.
    split; intros L; unfold roots; cbn [bind].
    - some 0%nat. some 1%nat. some 2%nat. destruct (Nat.eqb_spec (length (cps b) - 1) 2); [eauto|]. some 3%nat. eauto.
    - destruct (cps b) as [|a [|c [|d p]]]; try reflexivity. simpl in L. lia.
  Qed.
  Theorem raise_when b : returns_iff (1 <= length (cps b))%nat IndexError (raiseOrder b).
  Proof.
    split; intros L; unfold raiseOrder; cbv zeta.
    - some 0%nat. destruct (last_some (cps b) L) as [z Ez].
      destruct (mapM_all (raisedPoint (cps b) (length (cps b))) (seq 0 (length (cps b)))) as (bs & E' & Lb).
      { intros i Hi. apply in_seq in Hi. unfold raisedPoint. some i. destruct i as [|i].
        - rewrite Ez. cbn [bind]. eauto.
        - destruct (idx_some (cps b) i) as [y Ey]; [lia|]. rewrite Ey. cbn [bind]. eauto. }
      rewrite E'. cbn [bind]. rewrite Ez. cbn [bind]. apply new_when. simpl. rewrite app_length. simpl. lia.
    - destruct (cps b) as [|a p]; [reflexivity|]. simpl in L. lia.
  Qed.
  Theorem unit_vectors_when b t : ((length (cps b) < 3)%nat -> tangent b t = Err IndexError /\ normal_ b t = Err IndexError /\ normal b t = Err IndexError) /\
    ((3 <= length (cps b))%nat -> at_worst ZeroDivisionError (tangent b t) /\ at_worst ZeroDivisionError (normal_ b t) /\ ((exists n, normal b t = Ok n) \/ normal b t = Err ZeroDivisionError \/ normal b t = Err ValueError)).
  Proof.
    split; intros L; unfold tangent, normal_, normal.
    - rewrite (proj2 (derivative_when b t)) by lia. auto.
    - destruct (proj1 (derivative_when b t) L) as [[dx dy] E]. rewrite E. cbn [bind fst snd]. unfold at_worst, ndiv. cbv zeta. repeat split.
      + destruct (neqb _ _); cbn [bind]; eauto.
      + destruct (neqb _ _); cbn [bind]; eauto.
      + destruct (bsqrt _); [|auto]. destruct (neqb _ _); cbn [bind]; eauto.
  Qed.
  Theorem table_when b (steps : Z) : whole_zero (T := T) ->
    ((steps <= 0)%Z -> getLUT b steps = Ok []) /\ (steps = 1%Z -> getLUT b steps = Err ZeroDivisionError) /\
    ((2 <= steps)%Z -> returns_iff (1 <= length (cps b))%nat IndexError (getLUT b steps)) /\
    (forall l, getLUT b steps = Ok l -> length l = Z.to_nat steps).
  Proof.
    intros W.
    assert (D : forall t : nat, (2 <= steps)%Z -> exists x, ndiv (nofZ (Z.of_nat t)) (nofZ (steps - 1)) = Ok x).
    { intros t L. unfold ndiv. rewrite W. destruct (Z.eqb_spec (steps - 1) 0); [lia|]. eauto. }
    repeat split.
    - intros L. unfold getLUT. destruct (Z.eqb_spec steps 0); [reflexivity|]. replace (Z.to_nat steps) with 0%nat by lia. reflexivity.
    - intros ->. unfold getLUT. simpl. unfold ndiv. rewrite W. reflexivity.
    - intros P. unfold getLUT. destruct (Z.eqb_spec steps 0); [lia|].
      destruct (mapM_all (fun t : nat => let* x := ndiv (nofZ (Z.of_nat t)) (nofZ (steps - 1)) in get b x) (seq 0 (Z.to_nat steps))) as (bs & E & _); [|eauto].
      intros t _. destruct (D t ltac:(lia)) as [x E]. rewrite E. cbn [bind]. apply get_when. exact P.
    - intros P. unfold getLUT. destruct (Z.eqb_spec steps 0); [lia|]. destruct (Z.to_nat steps) as [|k] eqn:Ek; [lia|]. cbn [seq mapM].
      destruct (D 0%nat ltac:(lia)) as [x E]. rewrite E. cbn [bind]. rewrite (proj2 (get_when b x)) by lia. reflexivity.
    - intros l. unfold getLUT. destruct (Z.eqb_spec steps 0) as [->|]; [intros E; inversion E; reflexivity|].
      intros E. assert (ML : forall {A B} (f : A -> res B) xs ys, mapM f xs = Ok ys -> length ys = length xs).
      { intros A B f. induction xs as [|x xs IH]; intros ys; simpl; [intros K; inversion K; reflexivity|]. destruct (f x); simpl; [|discriminate]. destruct (mapM f xs) as [zs|] eqn:Em; simpl; [|discriminate]. intros K; inversion K. simpl. now rewrite (IH zs). }
      rewrite (ML _ _ _ _ _ E), seq_length. reflexivity.
  Qed.
  (** ** Transforms *)
  Lemma unpack_when {A} (l : list A) : returns_iff (length l = 3%nat) ValueError (unpack3 l).
  Proof. split; intros L; destruct l as [|x [|y [|z [|w l]]]]; simpl in *; try lia; eauto. Qed.
  Theorem row_when (r : list T) (m : list (list T)) : returns_iff (length r = 3%nat /\ three_by_three m) ValueError (multiplyRowByMatrix r m) /\ forall x, multiplyRowByMatrix r m = Ok x -> length x = 3%nat.
  Proof.
    assert (K : (length r = 3%nat /\ three_by_three m -> exists x, multiplyRowByMatrix r m = Ok x /\ length x = 3%nat) /\ (~ (length r = 3%nat /\ three_by_three m) -> multiplyRowByMatrix r m = Err ValueError)).
    { split.
      - intros (Lr & Lm & F). destruct r as [|? [|? [|? [|]]]]; simpl in Lr; try lia. destruct m as [|a [|c [|d [|]]]]; simpl in Lm; try lia.
        repeat match goal with H : Forall _ (_ :: _) |- _ => inversion H; clear H; subst end.
        destruct a as [|? [|? [|? [|]]]]; simpl in *; try lia. destruct c as [|? [|? [|? [|]]]]; simpl in *; try lia. destruct d as [|? [|? [|? [|]]]]; simpl in *; try lia. eexists. split; reflexivity.
      - intros Q. unfold multiplyRowByMatrix. destruct (Nat.eq_dec (length r) 3) as [Lr|Lr]; [|rewrite (proj2 (unpack_when r) Lr); reflexivity].
        destruct r as [|? [|? [|? [|]]]]; simpl in Lr; try lia. cbn [unpack3 bind].
        destruct (Nat.eq_dec (length m) 3) as [Lm|Lm]; [|rewrite (proj2 (unpack_when m) Lm); reflexivity]. destruct m as [|a [|c [|d [|]]]]; simpl in Lm; try lia. cbn [unpack3 bind].
        destruct (Nat.eq_dec (length a) 3) as [La|La]; [|rewrite (proj2 (unpack_when a) La); reflexivity]. destruct (proj1 (unpack_when a) La) as [[[? ?] ?] ->]. cbn [bind].
        destruct (Nat.eq_dec (length c) 3) as [Lc|Lc]; [|rewrite (proj2 (unpack_when c) Lc); reflexivity]. destruct (proj1 (unpack_when c) Lc) as [[[? ?] ?] ->]. cbn [bind].
        destruct (Nat.eq_dec (length d) 3) as [Ld|Ld]; [|rewrite (proj2 (unpack_when d) Ld); reflexivity]. exfalso. apply Q. split; [reflexivity|]. split; [reflexivity|]. repeat constructor; assumption. }
    destruct K as [K1 K2]. split; [split; [|exact K2]|].
    - intros P. destruct (K1 P) as (x & E & _). eauto.
    - intros x E. destruct (le_lt_dec (length r) 2) as [H|H]; [rewrite K2 in E by (intros [? _]; lia); discriminate|].
      destruct (Nat.eq_dec (length r) 3) as [Lr|Lr]; [|rewrite K2 in E by (intros [? _]; lia); discriminate].
      destruct (Nat.eq_dec (length m) 3) as [Lm|Lm]; [|rewrite K2 in E by (intros (_ & ? & _); lia); discriminate].
      destruct (Forall_dec (fun q => length q = 3%nat) (fun q => Nat.eq_dec (length q) 3) m) as [F|F]; [|rewrite K2 in E by (intros (_ & _ & ?); contradiction); discriminate].
      destruct K1 as (x' & E' & L'); [split; [exact Lr|split; assumption]|]. congruence.
  Qed.
  Theorem product_when (m1 m2 : list (list T)) : m1 <> [] -> returns_iff (Forall (fun r => length r = 3%nat) m1 /\ three_by_three m2) ValueError (multiplyMatrixByMatrix m1 m2).
  Proof.
    intros Ne. unfold multiplyMatrixByMatrix. split.
    - intros [F G]. destruct (mapM_all (fun r => multiplyRowByMatrix r m2) m1) as (bs & E & _); [|eauto]. rewrite Forall_forall in F. intros r Hr. apply (proj1 (proj1 (row_when r m2))). auto.
    - intros Q. assert (K : forall l, (exists r, In r l /\ ~ (length r = 3%nat /\ three_by_three m2)) -> mapM (fun r => multiplyRowByMatrix r m2) l = Err ValueError).
      { induction l as [|r l IH]; intros (x & Hx & Nx); [destruct Hx|]. simpl. destruct (row_when r m2) as [[R1 R2] _].
        destruct (multiplyRowByMatrix r m2) as [y|e] eqn:E.
        - cbn [bind]. destruct Hx as [->|Hx]; [specialize (R2 Nx); congruence|]. rewrite IH by eauto. reflexivity.
        - cbn [bind]. assert (~ (length r = 3%nat /\ three_by_three m2)) as Nr by (intros P; destruct (R1 P) as [y Ey]; discriminate Ey). specialize (R2 Nr). congruence. }
      apply K. destruct (Forall_dec (fun q : list T => length q = 3%nat) (fun q => Nat.eq_dec (length q) 3) m1) as [F|F].
      + destruct m1 as [|r m1]; [congruence|]. exists r. split; [now left|]. tauto.
      + apply neg_Forall_Exists_neg in F; [|intros q; apply Nat.eq_dec]. apply Exists_exists in F. destruct F as (r & Hr & Nr). exists r. split; [exact Hr|]. tauto.
  Qed.
  Theorem apply_when (m : list (list T)) (p : point T) : (~ three_by_three m -> applyToPoint m p = Err ValueError) /\ (three_by_three m -> at_worst ZeroDivisionError (applyToPoint m p)).
  Proof.
    destruct p as [x y]. destruct (row_when [x; y; nofZ 1] m) as [[R1 R2] R3]. split; intros H; unfold applyToPoint.
    - rewrite R2 by tauto. reflexivity.
    - destruct R1 as [q E]; [split; [reflexivity|exact H]|]. pose proof (R3 _ E) as L. rewrite E. cbn [bind]. some 0%nat. some 1%nat. some 2%nat. unfold ndiv, at_worst. destruct (neqb _ _); cbn [bind]; eauto.
  Qed.
End Any.

(** ** The two kinds of number *)
Lemma real_numbers : whole_zero (T := R) /\ unit_step (T := R).
Proof.
  split.
  - intros z. cbn [neqb nofZ RNum]. destruct (Z.eqb_spec z 0) as [->|Ne]; [apply Reqb_refl|]. apply Reqb_false. intros E. apply eq_IZR in E. contradiction.
  - unfold unit_step. cbn [neqb nofZ nsub RNum]. apply Reqb_false. lra.
Qed.

Lemma double_numbers : whole_zero (T := b64) /\ unit_step (T := b64).
Proof.
  assert (F1 : fl 1 = 1%R) by (destruct (val_int 1 ltac:(lia)) as [_ V]; rewrite <- V at 1; rewrite fl_val; exact V).
  assert (Fm : fl (-1) = (-1)%R) by (destruct (val_int (-1) ltac:(lia)) as [_ V]; rewrite <- V at 1; rewrite fl_val; exact V).
  assert (P0 : place (bofZ 0) = 0%R) by (destruct (val_int 0 ltac:(lia)) as [Fi V]; unfold place, fin, val in *; destruct (bofZ 0); try discriminate; exact V).
  split.
  - intros z. cbn [neqb nofZ FNum]. destruct (bofZ_place z) as [Nz Ez]. destruct (bofZ_place 0) as [N0 _].
    apply eq_true_iff_eq. rewrite eqb_place by auto. rewrite P0, Z.eqb_eq. split; [|intros ->; exact P0]. rewrite Ez. intros H.
    pose proof (bpow_gt_0 radix2 emax) as B.
    destruct (Z_lt_le_dec 0 z) as [Hz|Hz].
    + exfalso. assert (K : (1 <= rnd z)%R) by (rewrite <- F1; apply (fl_mono 1 (IZR z)); apply IZR_le; lia).
      destruct (Rlt_bool _ _) in H; [lra|]. destruct (Rlt_bool _ _) in H; lra.
    + destruct (Z.eq_dec z 0) as [|Nz0]; [assumption|]. exfalso. assert (K : (rnd z <= -1)%R) by (rewrite <- Fm; apply (fl_mono (IZR z) (-1)); apply IZR_le; lia).
      destruct (Rlt_bool _ _) in H; [lra|]. destruct (Rlt_bool _ _) in H; lra.
  - reflexivity.
Qed.
