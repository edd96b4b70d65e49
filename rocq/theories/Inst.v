(** Number instances for the model: exact reals (theorems) and exact rationals (computable
    witnesses).  Decimal and float arithmetic of Python are idealised by these. *)
From Coq Require Import List ZArith Bool Reals QArith Qreduction Qabs Lra Lia Psatz.
From Verif Require Import Py.
Import ListNotations.
Local Open Scope R_scope.

(** ** Reals *)
Definition Rleb (x y : R) : bool := if Rle_dec x y then true else false.
Definition Rltb (x y : R) : bool := if Rlt_dec x y then true else false.
Definition Reqb (x y : R) : bool := if Req_EM_T x y then true else false.

#[global] Instance RNum : NumOps R := {
  nofZ := IZR;
  nadd := Rplus;
  nsub := Rminus;
  nmul := Rmult;
  nquot := Rdiv;
  nopp := Ropp;
  nabs := Rabs;
  nleb := Rleb;
  nltb := Rltb;
  neqb := Reqb
}.

(** C atan2 on the reals (no signed zeros): the angle of the vector (x, y) in (-pi, pi]. *)
Definition Ratan2 (y x : R) : R :=
  if Rlt_dec 0 x then atan (y / x)
  else if Rlt_dec x 0 then (if Rle_dec 0 y then atan (y / x) + PI else atan (y / x) - PI)
  else if Rlt_dec 0 y then PI / 2
  else if Rlt_dec y 0 then - (PI / 2)
  else 0.

(** math.pow on a non-negative base with a positive exponent. *)
Definition Rpow (v e : R) : R := if Req_EM_T v 0 then 0 else Rpower v e.

(** Rounding to the nearest integer, ties to even, and Python's [round(x, 15)]. *)
Definition Rround (x : R) : Z :=
  let f := Int_part x in
  let r := x - IZR f in
  if Rlt_dec r (1 / 2) then f
  else if Rlt_dec (1 / 2) r then (f + 1)%Z
  else if Z.even f then f else (f + 1)%Z.
Definition round15 (x : R) : R := IZR (Rround (x * 10 ^ 15)) / 10 ^ 15.

(** The math functions, with the rounding of Transform.py's sin and cos as a parameter. *)
Definition RTrig (rnd : R -> R) : TrigOps R := {|
  tsin := sin;
  tcos := cos;
  tacos := acos;
  tatan2 := Ratan2;
  thypot := fun x y => sqrt (x * x + y * y);
  tsqrt := sqrt;
  tpow := Rpow;
  tpi := PI;
  tround15 := rnd
|}.

(** Exact trigonometry, and trigonometry rounded as the code does. *)
Definition RExact : TrigOps R := RTrig (fun x => x).
Definition RPy : TrigOps R := RTrig round15.

(** ** Rationals *)
Definition Qltb (a b : Q) : bool := negb (Qle_bool b a).
#[global] Instance QNum : NumOps Q := {
  nofZ := inject_Z;
  nadd := fun x y => Qred (x + y);
  nsub := fun x y => Qred (x - y);
  nmul := fun x y => Qred (x * y);
  nquot := fun x y => Qred (x / y);
  nopp := Qopp;
  nabs := Qabs;
  nleb := Qle_bool;
  nltb := Qltb;
  neqb := Qeq_bool
}.

(** ** Reflection of the boolean comparisons on R *)
Lemma Rleb_true x y : Rleb x y = true <-> x <= y.
Proof. unfold Rleb; destruct (Rle_dec x y); split; intros; auto; try discriminate; contradiction. Qed.
Lemma Rleb_false x y : Rleb x y = false <-> y < x.
Proof. unfold Rleb; destruct (Rle_dec x y); split; intros; auto; try discriminate; lra. Qed.
Lemma Rltb_true x y : Rltb x y = true <-> x < y.
Proof. unfold Rltb; destruct (Rlt_dec x y); split; intros; auto; try discriminate; contradiction. Qed.
Lemma Rltb_false x y : Rltb x y = false <-> y <= x.
Proof. unfold Rltb; destruct (Rlt_dec x y); split; intros; auto; try discriminate; lra. Qed.
Lemma Reqb_true x y : Reqb x y = true <-> x = y.
Proof. unfold Reqb; destruct (Req_EM_T x y); split; intros; auto; try discriminate; contradiction. Qed.
Lemma Reqb_false x y : Reqb x y = false <-> x <> y.
Proof. unfold Reqb; destruct (Req_EM_T x y); split; intros; auto; try discriminate; contradiction. Qed.

Lemma Rleb_spec x y : BoolSpec (x <= y) (y < x) (Rleb x y).
Proof. destruct (Rleb x y) eqn:E; constructor; [apply Rleb_true | apply Rleb_false]; auto. Qed.
Lemma Rltb_spec x y : BoolSpec (x < y) (y <= x) (Rltb x y).
Proof. destruct (Rltb x y) eqn:E; constructor; [apply Rltb_true | apply Rltb_false]; auto. Qed.
Lemma Reqb_spec x y : BoolSpec (x = y) (x <> y) (Reqb x y).
Proof. destruct (Reqb x y) eqn:E; constructor; [apply Reqb_true | apply Reqb_false]; auto. Qed.

Lemma Reqb_refl x : Reqb x x = true.
Proof. apply Reqb_true; reflexivity. Qed.
Lemma Rleb_refl x : Rleb x x = true.
Proof. apply Rleb_true; lra. Qed.
Lemma Rltb_irrefl x : Rltb x x = false.
Proof. apply Rltb_false; lra. Qed.

(** Expose the real operations behind the class methods. *)
Ltac numR := cbn [nofZ nadd nsub nmul nquot nopp nabs nleb nltb neqb RNum
                  tsin tcos tacos tatan2 thypot tsqrt tpow tpi tround15 RTrig RExact RPy] in *.
Ltac numRg := cbn [nofZ nadd nsub nmul nquot nopp nabs nleb nltb neqb RNum
                  tsin tcos tacos tatan2 thypot tsqrt tpow tpi tround15 RTrig RExact RPy].

(** Case split on every real comparison in the goal. *)
Ltac rcase1 :=
  match goal with
  | |- context [Rleb ?a ?b] => destruct (Rleb_spec a b)
  | |- context [Rltb ?a ?b] => destruct (Rltb_spec a b)
  | |- context [Reqb ?a ?b] => destruct (Reqb_spec a b)
  end.
Ltac rcases := repeat (rcase1; cbn [andb orb negb]).
(** The same, innermost comparisons first, dropping contradictory cases. *)
Ltac rcasei1 :=
  let t a b l := (lazymatch a with context [if _ then _ else _] => fail | _ =>
                  lazymatch b with context [if _ then _ else _] => fail | _ => destruct l; try lra end end) in
  match goal with
  | |- context [Rleb ?a ?b] => t a b (Rleb_spec a b)
  | |- context [Rltb ?a ?b] => t a b (Rltb_spec a b)
  | |- context [Reqb ?a ?b] => t a b (Reqb_spec a b)
  end.
Ltac rcasesi := repeat (rcasei1; cbn [andb orb negb]).
Ltac rcaseh1 :=
  match goal with
  | H : context [Rleb ?a ?b] |- _ => destruct (Rleb_spec a b)
  | H : context [Rltb ?a ?b] |- _ => destruct (Rltb_spec a b)
  | H : context [Reqb ?a ?b] |- _ => destruct (Reqb_spec a b)
  end.
Ltac rcaseh := repeat (rcaseh1; cbn [andb orb negb] in *).
Ltac rbool := rewrite ?andb_true_iff, ?orb_true_iff, ?negb_true_iff, ?andb_false_iff, ?orb_false_iff,
  ?negb_false_iff, ?Rleb_true, ?Rltb_true, ?Reqb_true, ?Rleb_false, ?Rltb_false, ?Reqb_false in *.

Lemma ndivR x y : y <> 0 -> @ndiv R RNum x y = Ok (x / y).
Proof. intros Hy; unfold ndiv; numR; apply Reqb_false in Hy; now rewrite Hy. Qed.
Lemma ndivR0 x : @ndiv R RNum x 0 = Err ZeroDivisionError.
Proof. unfold ndiv; numR; now rewrite Reqb_refl. Qed.
Lemma ndivR_inv x y z : @ndiv R RNum x y = Ok z -> y <> 0 /\ z = x / y.
Proof. unfold ndiv; numR; destruct (Reqb_spec y 0); intros E; [discriminate|]. injection E as <-; auto. Qed.

(** Monad and list facts *)
Lemma Ok_pair {A B} (a c : A) (b d : B) : a = c -> b = d -> @Ok (A * B) (a, b) = Ok (c, d).
Proof. congruence. Qed.

Lemma bind_Ok {A B} (x : res A) (k : A -> res B) b :
  bind x k = Ok b -> exists a, x = Ok a /\ k a = Ok b.
Proof. destruct x; simpl; intros H; [eauto | discriminate]. Qed.
Lemma bind_Err {A B} (x : res A) (k : A -> res B) e :
  bind x k = Err e -> x = Err e \/ exists a, x = Ok a /\ k a = Err e.
Proof. destruct x; simpl; intros H; [right; eauto | left; congruence]. Qed.

Lemma idx_Ok {A} (l : list A) i a : idx l i = Ok a <-> nth_error l i = Some a.
Proof. unfold idx; destruct (nth_error l i); split; congruence. Qed.
Lemma idx_nth {A} (l : list A) i d : (i < length l)%nat -> idx l i = Ok (nth i l d).
Proof.
  intros H; unfold idx. destruct (nth_error l i) eqn:E.
  - now rewrite (nth_error_nth l i d E).
  - apply nth_error_None in E; lia.
Qed.
Lemma idx_Err {A} (l : list A) i : (length l <= i)%nat -> idx l i = Err IndexError.
Proof. intros H; unfold idx. apply nth_error_None in H; now rewrite H. Qed.

Lemma last_error_app {A} (l : list A) a : last_error (l ++ [a]) = Some a.
Proof. induction l as [|x l IH]; auto. simpl. destruct (l ++ [a]) eqn:E; auto. destruct l; discriminate. Qed.
Lemma last_error_last {A} (l : list A) d : l <> [] -> last_error l = Some (last l d).
Proof.
  induction l as [|x l IH]; [congruence|]. intros _. destruct l as [|y l]; auto.
  change (last_error (y :: l) = Some (last (y :: l) d)). apply IH; congruence.
Qed.
Lemma last_error_nth {A} (l : list A) : last_error l = nth_error l (length l - 1).
Proof.
  induction l as [|x l IH]; auto. destruct l as [|y l]; auto.
  change (last_error (y :: l) = nth_error (x :: y :: l) (S (length l))). rewrite IH. simpl.
  now rewrite Nat.sub_0_r.
Qed.

Lemma mapM_Ok {A B} (f : A -> res B) l bs :
  mapM f l = Ok bs <-> Forall2 (fun a b => f a = Ok b) l bs.
Proof.
  revert bs; induction l as [|a l IH]; intros bs; simpl.
  - split; [intros H; injection H as <-; constructor | intros H; inversion H; auto].
  - split.
    + intros H. apply bind_Ok in H as (b & Hb & H). apply bind_Ok in H as (bs' & Hbs & H).
      injection H as <-. constructor; auto. now apply IH.
    + intros H; inversion H; subst. rewrite H2; simpl. apply IH in H4. rewrite H4; auto.
Qed.
Lemma mapM_pure {A B} (f : A -> res B) (g : A -> B) l :
  (forall a, In a l -> f a = Ok (g a)) -> mapM f l = Ok (map g l).
Proof.
  induction l as [|a l IH]; simpl; intros H; auto.
  rewrite H by auto; simpl. rewrite IH; auto.
Qed.
Lemma mapM_Err {A B} (f : A -> res B) l e :
  mapM f l = Err e <->
  exists l1 a l2 bs, l = l1 ++ a :: l2 /\ mapM f l1 = Ok bs /\ f a = Err e.
Proof.
  induction l as [|a l IH]; simpl.
  - split; [discriminate|]. intros (l1 & a & l2 & bs & H & _). destruct l1; discriminate.
  - split.
    + intros H. apply bind_Err in H as [H | (b & Hb & H)].
      * exists [], a, l, []; auto.
      * apply bind_Err in H as [H | (bs & Hbs & H)]; [|discriminate].
        apply IH in H as (l1 & a' & l2 & bs & -> & H1 & H2).
        exists (a :: l1), a', l2, (b :: bs). simpl. rewrite Hb, H1; auto.
    + intros (l1 & a' & l2 & bs & H & H1 & H2). destruct l1 as [|x l1].
      * simpl in H; injection H as -> ->. rewrite H2; auto.
      * simpl in H; injection H as -> ->. simpl in H1.
        apply bind_Ok in H1 as (b & Hb & H1). apply bind_Ok in H1 as (bs' & Hbs & H1).
        rewrite Hb; simpl. assert (E : mapM f (l1 ++ a' :: l2) = Err e).
        { apply IH. exists l1, a', l2, bs'; auto. }
        rewrite E; auto.
Qed.
Lemma mapM_length {A B} (f : A -> res B) l bs : mapM f l = Ok bs -> length bs = length l.
Proof. intros H; apply mapM_Ok in H. induction H; simpl; congruence. Qed.
Lemma mapM_nth {A B} (f : A -> res B) l bs i a :
  mapM f l = Ok bs -> nth_error l i = Some a -> exists b, nth_error bs i = Some b /\ f a = Ok b.
Proof.
  intros H; apply mapM_Ok in H. revert i; induction H; intros [|i]; simpl; try discriminate; eauto.
  intros E; injection E as <-; eauto.
Qed.
Lemma mapM_ext {A B} (f g : A -> res B) l : (forall a, In a l -> f a = g a) -> mapM f l = mapM g l.
Proof. induction l; simpl; intros H; auto. rewrite H, IHl; auto. Qed.
Lemma mapM_app {A B} (f : A -> res B) l1 l2 :
  mapM f (l1 ++ l2) = (let* a := mapM f l1 in let* b := mapM f l2 in Ok (a ++ b)).
Proof.
  induction l1 as [|x l1 IH]; simpl.
  - destruct (mapM f l2); auto.
  - destruct (f x); simpl; auto. rewrite IH. destruct (mapM f l1); simpl; auto.
    destruct (mapM f l2); auto.
Qed.

Lemma foldM_app {A S} (f : S -> A -> res S) l1 l2 s :
  foldM f (l1 ++ l2) s = (let* s' := foldM f l1 s in foldM f l2 s').
Proof. revert s; induction l1 as [|a l1 IH]; simpl; intros s; auto. destruct (f s a); simpl; auto. Qed.
Lemma foldM_inv {A S} (P : S -> Prop) (f : S -> A -> res S) l s s' :
  P s -> (forall s a s'', In a l -> P s -> f s a = Ok s'' -> P s'') -> foldM f l s = Ok s' -> P s'.
Proof.
  revert s; induction l as [|a l IH]; simpl; intros s H0 Hs H.
  - injection H as <-; auto.
  - apply bind_Ok in H as (s1 & H1 & H). eapply IH; [| |eauto]; eauto.
Qed.
Lemma foldM_pure {A S} (f : S -> A -> res S) (g : S -> A -> S) l s :
  (forall s a, In a l -> f s a = Ok (g s a)) -> foldM f l s = Ok (fold_left g l s).
Proof. revert s; induction l; simpl; intros s H; auto. rewrite H by auto; simpl. apply IHl; auto. Qed.

Lemma filterM_Ok {A} (f : A -> res bool) l l' :
  filterM f l = Ok l' -> forall a, In a l' <-> In a l /\ f a = Ok true.
Proof.
  revert l'; induction l as [|x l IH]; simpl; intros l' H a.
  - injection H as <-. simpl; tauto.
  - apply bind_Ok in H as (b & Hb & H). apply bind_Ok in H as (bs & Hbs & H). injection H as <-.
    specialize (IH _ Hbs a). destruct b; simpl; rewrite IH; split; intros; intuition (subst; auto; congruence).
Qed.
Lemma filterM_pure {A} (f : A -> res bool) (g : A -> bool) l :
  (forall a, In a l -> f a = Ok (g a)) -> filterM f l = Ok (filter g l).
Proof.
  induction l as [|a l IH]; simpl; intros H; auto.
  rewrite H by auto; simpl. rewrite IH; auto.
Qed.

(** Destruct a successful chain of binds in hypothesis [H]. *)
Ltac inv_bind H :=
  repeat match type of H with
  | bind ?x ?k = Ok _ => let a := fresh "v" in let E := fresh "E" in
      apply bind_Ok in H as (a & E & H); try (destruct a; cbn beta iota in H)
  end.

(** ** Rounding facts *)
Lemma Int_part_bounds x : IZR (Int_part x) <= x < IZR (Int_part x) + 1.
Proof. destruct (base_Int_part x); lra. Qed.
Lemma Rround_err x : Rabs (IZR (Rround x) - x) <= 1 / 2.
Proof.
  unfold Rround. pose proof (Int_part_bounds x) as B. set (f := Int_part x) in *.
  destruct (Rlt_dec (x - IZR f) (1 / 2)).
  - apply Rabs_le; lra.
  - destruct (Rlt_dec (1 / 2) (x - IZR f)).
    + rewrite plus_IZR; apply Rabs_le; lra.
    + destruct (Z.even f); rewrite ?plus_IZR; apply Rabs_le; lra.
Qed.
Lemma Rround_IZR z : Rround (IZR z) = z.
Proof.
  unfold Rround. assert (E : Int_part (IZR z) = z).
  { pose proof (Int_part_bounds (IZR z)) as [B1 B2]. rewrite <- plus_IZR in B2.
    apply le_IZR in B1; apply lt_IZR in B2; lia. }
  rewrite E. destruct (Rlt_dec (IZR z - IZR z) (1 / 2)); auto. lra.
Qed.
Lemma round15_err x : Rabs (round15 x - x) <= / 2 * / 10 ^ 15.
Proof.
  unfold round15. set (s := 10 ^ 15). assert (Hs : 0 < s) by (unfold s; apply pow_lt; lra).
  pose proof (Rround_err (x * s)) as H. set (z := IZR (Rround (x * s))) in *.
  replace (z / s - x) with ((z - x * s) / s) by (field; lra).
  unfold Rdiv. rewrite Rabs_mult, (Rabs_pos_eq (/ s)) by (left; now apply Rinv_0_lt_compat).
  apply Rmult_le_compat_r; [left; now apply Rinv_0_lt_compat | lra].
Qed.
Lemma round15_IZR z : round15 (IZR z) = IZR z.
Proof.
  unfold round15. assert (10 ^ 15 <> 0) by (apply pow_nonzero; lra).
  replace (IZR z * 10 ^ 15) with (IZR (z * 10 ^ 15)).
  - rewrite Rround_IZR, mult_IZR. replace (IZR (10 ^ 15)) with (10 ^ 15); [field; auto|].
    rewrite (pow_IZR 10 15); reflexivity.
  - rewrite mult_IZR. f_equal. now rewrite (pow_IZR 10 15).
Qed.
