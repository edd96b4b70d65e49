(** Moving and resizing a drawing commutes with every query (Bezier.py 101-816). *)
From Coq Require Import List ZArith Bool Reals Lra Lia.
From Verif Require Import Py Inst SpecGeom SpecBezier SpecOrder SpecBounds SpecCurve SpecMove
  MTransform MBounds MBezUtil MPathUtil MBezier ProofBounds ProofBezier ProofBezier2 ProofBezier3 ProofBBox ProofInter ProofReduce.
Import ListNotations.
Local Open Scope R_scope.

(** ** Answers *)
Lemma answer_id {A} (r : res A) : answer (fun x => x) r = r.
Proof. now destruct r. Qed.
Lemma answer_comp {A B C} (f : A -> B) (g : B -> C) r : answer g (answer f r) = answer (fun x => g (f x)) r.
Proof. now destruct r. Qed.
Lemma answer_ext {A B} (f g : A -> B) r : (forall x, f x = g x) -> answer f r = answer g r.
Proof. intros E. destruct r; cbn [answer]; [now rewrite E|reflexivity]. Qed.
Lemma bind_answer {A B C} (f : A -> B) (r : res A) (h : B -> res C) : bind (answer f r) h = bind r (fun a => h (f a)).
Proof. now destruct r. Qed.
Lemma answer_bind {A B C} (f : B -> C) (r : res A) (h : A -> res B) : answer f (bind r h) = bind r (fun a => answer f (h a)).
Proof. now destruct r. Qed.
Lemma bind_ext {A B} (r : res A) (f g : A -> res B) : (forall a, r = Ok a -> f a = g a) -> bind r f = bind r g.
Proof. intros E. destruct r; cbn [bind]; auto. Qed.
Lemma idx_answer {A B} (f : A -> B) l i : idx (map f l) i = answer f (idx l i).
Proof. unfold idx. rewrite nth_error_map. now destruct (nth_error l i). Qed.
Lemma idx_last_answer {A B} (f : A -> B) l : idx_last (map f l) = answer f (idx_last l).
Proof.
  unfold idx_last. assert (E : last_error (map f l) = option_map f (last_error l)).
  { induction l as [|a [|b l] IH]; cbn [map last_error]; [reflexivity..|]. exact IH. }
  rewrite E. now destruct (last_error l).
Qed.
Lemma mapM_answer {A A' B B'} (f : A -> A') (g : B -> B') (h : A -> res B) (h' : A' -> res B') l :
  (forall a, In a l -> h' (f a) = answer g (h a)) -> mapM h' (map f l) = answer (map g) (mapM h l).
Proof.
  induction l as [|a l IH]; intros E; cbn [map mapM]; [reflexivity|]. rewrite E by (now left). rewrite IH by (intros x Hx; apply E; now right).
  destruct (h a); cbn [answer bind]; [|reflexivity]. now destruct (mapM h l).
Qed.
Lemma mapM_same {A B} (h h' : A -> res B) l : (forall a, In a l -> h' a = h a) -> mapM h' l = mapM h l.
Proof.
  induction l as [|a l IH]; intros E; cbn [mapM]; [reflexivity|]. rewrite E by (now left). now rewrite IH by (intros x Hx; apply E; now right).
Qed.
Lemma filterM_answer {A A'} (f : A -> A') (h : A -> res bool) (h' : A' -> res bool) l :
  (forall a, In a l -> h' (f a) = h a) -> filterM h' (map f l) = answer (map f) (filterM h l).
Proof.
  induction l as [|a l IH]; intros E; cbn [map filterM]; [reflexivity|]. rewrite E by (now left). rewrite IH by (intros x Hx; apply E; now right).
  destruct (h a) as [[|]|]; cbn [answer bind]; [..|reflexivity]; now destruct (filterM h l).
Qed.

(** ** Scaled arguments *)
Lemma Rltb_scale k x y : 0 < k -> Rltb (k * x) (k * y) = Rltb x y.
Proof. intros K. destruct (Rltb_spec x y), (Rltb_spec (k * x) (k * y)); auto; exfalso; nra. Qed.
Lemma Rltb_place k v x y : 0 < k -> Rltb (k * x + v) (k * y + v) = Rltb x y.
Proof. intros K. destruct (Rltb_spec x y), (Rltb_spec (k * x + v) (k * y + v)); auto; exfalso; nra. Qed.
Lemma Rleb_place k v x y : 0 < k -> Rleb (k * x + v) (k * y + v) = Rleb x y.
Proof. intros K. destruct (Rleb_spec x y), (Rleb_spec (k * x + v) (k * y + v)); auto; exfalso; nra. Qed.
Lemma Reqb_place k v x y : 0 < k -> Reqb (k * x + v) (k * y + v) = Reqb x y.
Proof. intros K. destruct (Reqb_spec x y) as [E|E], (Reqb_spec (k * x + v) (k * y + v)) as [F|F]; auto; exfalso; [subst; lra|]. apply E. apply (Rmult_eq_reg_l k); lra. Qed.
Lemma Reqb_scale0 k x : k <> 0 -> Reqb (k * x) 0 = Reqb x 0.
Proof. intros K. destruct (Reqb_spec x 0) as [E|E], (Reqb_spec (k * x) 0) as [F|F]; auto; exfalso; [subst; lra|]. apply Rmult_integral in F. tauto. Qed.
Lemma Reqb_scale k x y : k <> 0 -> Reqb (k * x) (k * y) = Reqb x y.
Proof. intros K. destruct (Reqb_spec x y) as [E|E], (Reqb_spec (k * x) (k * y)) as [F|F]; auto; exfalso; [subst; lra|]. apply E. now apply (Rmult_eq_reg_l k). Qed.
Lemma Rltb_scale0 k x : 0 < k -> Rltb (k * x) 0 = Rltb x 0.
Proof. intros K. rewrite <- (Rltb_scale k x 0 K). now rewrite Rmult_0_r. Qed.
Lemma atan2_scale c y x : 0 < c -> Ratan2 (c * y) (c * x) = Ratan2 y x.
Proof.
  intros C. unfold Ratan2. assert (Q : x <> 0 -> c * y / (c * x) = y / x) by (intros N; field; split; lra).
  destruct (Rlt_dec 0 x), (Rlt_dec 0 (c * x)); try (exfalso; nra); [rewrite Q by lra; reflexivity|].
  destruct (Rlt_dec x 0), (Rlt_dec (c * x) 0); try (exfalso; nra).
  - rewrite Q by lra. destruct (Rle_dec 0 y), (Rle_dec 0 (c * y)); try (exfalso; nra); reflexivity.
  - destruct (Rlt_dec 0 y), (Rlt_dec 0 (c * y)); try (exfalso; nra); [reflexivity|].
    destruct (Rlt_dec y 0), (Rlt_dec (c * y) 0); try (exfalso; nra); reflexivity.
Qed.
Lemma sqrt_scale k x : 0 < k -> sqrt (k * k * x) = k * sqrt x.
Proof. intros K. rewrite sqrt_mult_alt by nra. f_equal. apply sqrt_square. lra. Qed.

Ltac nz := let H := fresh in repeat split; intros H; match goal with N : _ <> _ |- _ => apply N; lra | K : 0 < ?k, N : _ <> _ |- _ => apply N; apply (Rmult_eq_reg_l k); lra | _ => lra end.

Section Place.
  Context (rnd : R -> R).
  #[local] Hint Extern 0 (TrigOps R) => exact (RTrig rnd) : typeclass_instances.
  Context (k : R) (v : R * R) (K : 0 < k).
  Let mv : pt -> pt := placed k v.
  Let mvb : bezier R -> bezier R := placed_curve k v.
  Let sc (p : pt) : pt := (k * fst p, k * snd p).

  Lemma order_mv b : order (mvb b) = order b.
  Proof. unfold order, mvb, placed_curve. cbn [cps]. now rewrite map_length. Qed.
  Lemma curve_mv p t : (1 <= length p)%nat -> curve (map mv p) t = mv (curve p t).
  Proof.
    intros L. pose proof (curve_affine p k 0 0 k (fst v) (snd v) t L) as E. unfold mv, placed.
    etransitivity; [|etransitivity; [exact E|]].
    - f_equal. apply map_ext. intros [x y]. cbn [fst snd]. f_equal; ring.
    - cbn [fst snd]. f_equal; ring.
  Qed.
  Lemma get_mv b t : get (mvb b) t = answer mv (get b t).
  Proof.
    destruct (Nat.le_gt_cases 1 (length (cps b))) as [L|L].
    - rewrite (get_ok b t L), get_ok; cbn [mvb placed_curve cps answer]; [|now rewrite map_length]. f_equal. now apply curve_mv.
    - assert (N : cps b = []) by (destruct (cps b); [reflexivity|simpl in L; lia]).
      rewrite (get_nil b t N), get_nil; [reflexivity|]. unfold mvb, placed_curve. cbn [cps]. now rewrite N.
  Qed.
  Lemma getLUT_mv b n : getLUT (mvb b) n = answer (map mv) (getLUT b n).
  Proof.
    unfold getLUT. destruct (Z.eqb n 0); [reflexivity|]. rewrite <- (map_id (seq 0 (Z.to_nat n))) at 1. apply mapM_answer.
    intros i _. rewrite answer_bind. apply bind_ext. intros x _. apply get_mv.
  Qed.
  (** ** Levels of points *)
  Lemma level_mv t p : dcLevel (lerp t) (map mv p) = map mv (dcLevel (lerp t) p).
  Proof.
    induction p as [|[x y] [|[x' y'] p] IH]; [reflexivity..|]. change (dcLevel (lerp t) (map mv ((x, y) :: (x', y') :: p)))
      with (lerp t (mv (x, y)) (mv (x', y')) :: dcLevel (lerp t) (map mv ((x', y') :: p))). rewrite IH. cbn [dcLevel map]. f_equal.
    unfold lerp, mv, placed. numRg. cbn [fst snd]. f_equal; ring.
  Qed.
  Lemma hull_mv b t : hull (mvb b) t = map mv (hull b t).
  Proof.
    unfold hull, mvb, placed_curve. cbn [cps]. rewrite map_length. set (f := length (cps b)). clearbody f.
    generalize (cps b) at 1 3 as p. generalize (cps b) as q.
    induction f as [|f IH]; intros q p; cbn [hullLoop]; [reflexivity|]. rewrite map_length. destruct (Nat.ltb 1 (length p)); [|reflexivity].
    rewrite level_mv, <- map_app. apply IH.
  Qed.
  Lemma diff_mv c p : dcLevel (diffStep c) (map mv p) = map sc (dcLevel (diffStep c) p).
  Proof.
    induction p as [|[x y] [|[x' y'] p] IH]; [reflexivity..|]. change (dcLevel (diffStep c) (map mv ((x, y) :: (x', y') :: p)))
      with (diffStep c (mv (x, y)) (mv (x', y')) :: dcLevel (diffStep c) (map mv ((x', y') :: p))). rewrite IH. cbn [dcLevel map]. f_equal.
    unfold diffStep, mv, placed, sc. numRg. cbn [fst snd]. f_equal; ring.
  Qed.
  Lemma diff_sc c p : dcLevel (diffStep c) (map sc p) = map sc (dcLevel (diffStep c) p).
  Proof.
    induction p as [|[x y] [|[x' y'] p] IH]; [reflexivity..|]. change (dcLevel (diffStep c) (map sc ((x, y) :: (x', y') :: p)))
      with (diffStep c (sc (x, y)) (sc (x', y')) :: dcLevel (diffStep c) (map sc ((x', y') :: p))). rewrite IH. cbn [dcLevel map]. f_equal.
    unfold diffStep, sc. numRg. cbn [fst snd]. f_equal; ring.
  Qed.
  Lemma dcFrom_sc : forall d p, dcPointsFrom d (map sc p) = map (map sc) (dcPointsFrom d p).
  Proof. induction d as [|[|d] IH]; intros p; [reflexivity..|]. cbn [dcPointsFrom map]. rewrite diff_sc. f_equal. exact (IH _). Qed.
  Lemma dcPoints_mv b : dcPoints (mvb b) = map (map sc) (dcPoints b).
  Proof.
    unfold dcPoints, mvb, placed_curve. cbn [cps]. rewrite map_length. destruct (length (cps b)) as [|[|d]]; [reflexivity..|].
    cbn [dcPointsFrom map]. rewrite diff_mv. f_equal. exact (dcFrom_sc (S d) _).
  Qed.
  Lemma derivative_mv b t : derivative (mvb b) t = answer sc (derivative b t).
  Proof.
    unfold derivative. rewrite dcPoints_mv, order_mv, idx_answer, bind_answer, answer_bind. apply bind_ext. intros p _.
    rewrite idx_answer, bind_answer, answer_bind. apply bind_ext. intros [x0 y0] _.
    rewrite idx_answer, bind_answer, answer_bind. apply bind_ext. intros [x1 y1] _.
    destruct (Nat.eqb (order b) 2); cbn [bind].
    - cbn [answer]. f_equal. unfold sc. numRg. cbn [fst snd]. f_equal; ring.
    - rewrite idx_answer. destruct (idx p 2) as [[x2 y2]|]; cbn [bind answer]; [|reflexivity]. f_equal. unfold sc. numRg. cbn [fst snd]. f_equal; ring.
  Qed.
  Lemma hyp_sc x y : sqrt (k * x * (k * x) + k * y * (k * y)) = k * sqrt (x * x + y * y).
  Proof. rewrite <- sqrt_scale by exact K. f_equal. ring. Qed.
  Lemma ndiv_sc x y : @ndiv R _ (k * x) (k * y) = ndiv x y.
  Proof.
    unfold ndiv. numRg. rewrite Reqb_scale0 by lra. destruct (Reqb_spec y 0); [reflexivity|]. f_equal. field. nz.
  Qed.
  Lemma tangent_mv b t : tangent (mvb b) t = tangent b t.
  Proof.
    unfold tangent. rewrite derivative_mv, bind_answer. apply bind_ext. intros [x y] _. unfold sc. numRg. cbn [fst snd].
    rewrite hyp_sc, !ndiv_sc. reflexivity.
  Qed.
  Lemma normal__mv b t : normal_ (mvb b) t = normal_ b t.
  Proof.
    unfold normal_. rewrite derivative_mv, bind_answer. apply bind_ext. intros [x y] _. unfold sc. numRg. cbn [fst snd].
    rewrite hyp_sc. replace (- (k * y)) with (k * - y) by ring. rewrite !ndiv_sc. reflexivity.
  Qed.
  Lemma bsqrt_sc x : bsqrt (k * k * x) = option_map (Rmult k) (bsqrt x).
  Proof. unfold bsqrt. numRg. rewrite Rltb_scale0 by nra. destruct (Rltb x 0); cbn [option_map]; [reflexivity|]. now rewrite sqrt_scale. Qed.
  Lemma normal_mv b t : normal (mvb b) t = normal b t.
  Proof.
    unfold normal. rewrite derivative_mv, bind_answer. apply bind_ext. intros [x y] _. unfold sc. numRg. cbn [fst snd].
    replace (k * x * (k * x) + k * y * (k * y)) with (k * k * (x * x + y * y)) by ring. rewrite bsqrt_sc. destruct (bsqrt (x * x + y * y)); cbn [option_map]; [|reflexivity].
    replace (- (k * y)) with (k * - y) by ring. rewrite !ndiv_sc. reflexivity.
  Qed.
  (** ** extrema *)
  Lemma droots_sc l : droots (map (Rmult k) l) = droots l.
  Proof.
    destruct l as [|a [|b [|c [|d l]]]]; cbn [map droots]; [reflexivity..| | |reflexivity]; numRg.
    - rewrite Reqb_scale by lra. destruct (Reqb_spec a b); cbn [negb]; [reflexivity|]. refine (f_equal (fun z => [Some z]) _). field. nz.
    - replace (k * a - 2 * (k * b) + k * c) with (k * (a - 2 * b + c)) by ring. rewrite Reqb_scale0, Reqb_scale by lra.
      destruct (Reqb_spec (a - 2 * b + c) 0) as [E|E]; cbn [negb andb].
      + destruct (Reqb_spec b c); cbn [negb andb]; [reflexivity|]. refine (f_equal (fun z => [Some z]) _). field. nz.
      + replace (k * b * (k * b) - k * a * (k * c)) with (k * k * (b * b - a * c)) by ring. rewrite bsqrt_sc.
        destruct (bsqrt (b * b - a * c)) as [s|]; cbn [option_map]; [|reflexivity]. refine (f_equal2 (fun y z => [Some y; Some z]) _ _); field; nz.
  Qed.
  Lemma coord_sc d p : coord d (sc p) = k * coord d p.
  Proof. unfold coord, sc. destruct (Nat.eqb d 0); reflexivity. Qed.
  Lemma coords_sc d p : map (coord d) (map sc p) = map (Rmult k) (map (coord d) p).
  Proof. rewrite !map_map. apply map_ext. intros q. apply coord_sc. Qed.
  Lemma extremaDim_mv b d : extremaDim (mvb b) d = extremaDim b d.
  Proof.
    unfold extremaDim. rewrite dcPoints_mv, order_mv, idx_answer, bind_answer. apply bind_ext. intros p _. rewrite coords_sc, droots_sc.
    destruct (Nat.eqb (order b) 3); [|reflexivity]. rewrite idx_answer, bind_answer. f_equal. apply bind_ext. intros q _. now rewrite coords_sc, droots_sc.
  Qed.
  Lemma extrema_mv b : extrema (mvb b) = extrema b.
  Proof. unfold extrema. now rewrite !extremaDim_mv. Qed.
  (** ** Splitting *)
  Lemma direction_mv p : computeDirection (map mv p) = computeDirection p.
  Proof.
    unfold computeDirection. rewrite map_length, !idx_answer, bind_answer. apply bind_ext. intros a _. rewrite bind_answer. apply bind_ext. intros b _.
    unfold mv, placed. numRg. cbn [fst snd]. rewrite Reqb_place, Rltb_place by exact K.
    destruct (Nat.eqb (length p - 1) 1); [reflexivity|]. rewrite bind_answer. apply bind_ext. intros c _. cbn [fst snd]. rewrite !Rleb_place by exact K.
    destruct (Nat.eqb (length p - 1) 2); [reflexivity|]. rewrite bind_answer. apply bind_ext. intros d _. cbn [fst snd]. rewrite !Rleb_place by exact K. reflexivity.
  Qed.
  Lemma new_mv p : newBezier (map mv p) = answer mvb (newBezier p).
  Proof. unfold newBezier. rewrite direction_mv. now destruct (computeDirection p). Qed.
  Definition pieces (x : bezier R * bezier R * list pt) : bezier R * bezier R * list pt :=
    let '(l, r, q) := x in (mvb l, mvb r, map mv q).
  Lemma new3 a b c : newBezier [mv a; mv b; mv c] = answer mvb (newBezier [a; b; c]).
  Proof. exact (new_mv [a; b; c]). Qed.
  Lemma new4 a b c d : newBezier [mv a; mv b; mv c; mv d] = answer mvb (newBezier [a; b; c; d]).
  Proof. exact (new_mv [a; b; c; d]). Qed.
  Lemma split1_mv b t : split1 (mvb b) t = answer pieces (split1 b t).
  Proof.
    unfold split1. rewrite hull_mv, order_mv. cbn [mvb placed_curve bt1 bt2]. rewrite answer_bind.
    destruct (Nat.eqb (order b) 2); rewrite !idx_answer.
    - destruct (idx (hull b t) 0); cbn [bind answer]; [|reflexivity]. destruct (idx (hull b t) 3); cbn [bind answer]; [|reflexivity].
      destruct (idx (hull b t) 5); cbn [bind answer]; [|reflexivity]. rewrite new3. destruct (newBezier _); cbn [bind answer]; [|reflexivity].
      destruct (idx (hull b t) 4); cbn [bind answer]; [|reflexivity]. destruct (idx (hull b t) 2); cbn [bind answer]; [|reflexivity].
      rewrite new3. destruct (newBezier _); cbn [bind answer]; [|reflexivity].
      repeat (rewrite answer_bind; apply bind_ext; intros ? _). reflexivity.
    - destruct (idx (hull b t) 0); cbn [bind answer]; [|reflexivity]. destruct (idx (hull b t) 4); cbn [bind answer]; [|reflexivity].
      destruct (idx (hull b t) 7); cbn [bind answer]; [|reflexivity]. destruct (idx (hull b t) 9); cbn [bind answer]; [|reflexivity].
      rewrite new4. destruct (newBezier _); cbn [bind answer]; [|reflexivity].
      destruct (idx (hull b t) 8); cbn [bind answer]; [|reflexivity]. destruct (idx (hull b t) 6); cbn [bind answer]; [|reflexivity].
      destruct (idx (hull b t) 3); cbn [bind answer]; [|reflexivity]. rewrite new4. destruct (newBezier _); cbn [bind answer]; [|reflexivity].
      repeat (rewrite answer_bind; apply bind_ext; intros ? _). reflexivity.
  Qed.
  Lemma split2curve_mv b t1 t2 : split2curve (mvb b) t1 t2 = answer mvb (split2curve b t1 t2).
  Proof.
    unfold split2curve, split2. numRg. destruct (Reqb t1 0 && negb (Reqb t2 0)); [|destruct (Reqb t2 1)].
    - rewrite split1_mv. destruct (split1 b t2) as [[[l r] q]|]; reflexivity.
    - rewrite split1_mv. destruct (split1 b t1) as [[[l r] q]|]; reflexivity.
    - rewrite split1_mv. destruct (split1 b t1) as [[[l r] q]|]; cbn [bind answer pieces]; [|reflexivity]. destruct (Reqb t2 0); [reflexivity|].
      destruct (bmap t2 t1 1 0 1) as [u|]; cbn [bind answer]; [|reflexivity].
      rewrite split1_mv. destruct (split1 r u) as [[[l' r'] q']|]; reflexivity.
  Qed.
  (** ** reduce *)
  Lemma angle_mv o a b : angle (mv o) (mv a) (mv b) = angle o a b.
  Proof.
    unfold angle, mv, placed. numRg. cbn [fst snd]. etransitivity; [|apply (atan2_scale (k * k)); nra]. f_equal; ring.
  Qed.
  Lemma simple_mv b : simple (mvb b) = simple b.
  Proof.
    unfold simple. rewrite order_mv, !normal_mv. cbn [mvb placed_curve cps]. f_equal. destruct (Nat.eqb (order b) 3); [|reflexivity].
    rewrite !idx_answer. repeat (rewrite bind_answer; apply bind_ext; intros ? _). now rewrite !angle_mv.
  Qed.
  Lemma pass1_mv b : forall ts t1, reducePass1 (mvb b) t1 ts = answer (map mvb) (reducePass1 b t1 ts).
  Proof.
    induction ts as [|t2 ts IH]; intros t1; cbn [reducePass1]; [reflexivity|]. rewrite split2curve_mv.
    destruct (split2curve b t1 t2); cbn [bind answer]; [|reflexivity]. rewrite IH. now destruct (reducePass1 b t2 ts).
  Qed.
  Definition inner_mv (r : innerResult (T := R)) : innerResult :=
    match r with RNone => RNone | RBreak t s => RBreak t (mvb s) | RDone => RDone end.
  Lemma reduceInner_mv p1 t1 : forall fuel t2, reduceInner fuel (mvb p1) t1 t2 = answer inner_mv (reduceInner fuel p1 t1 t2).
  Proof.
    induction fuel as [|f IH]; intros t2; cbn [reduceInner]; [reflexivity|]. destruct (nleb t2 (nofZ 1)); [|reflexivity].
    rewrite split2curve_mv. destruct (split2curve p1 t1 t2) as [s|]; cbn [bind answer]; [|reflexivity]. rewrite simple_mv.
    destruct (simple s) as [[|]|]; cbn [bind answer]; [apply IH| |reflexivity]. destruct (nltb _ _); [reflexivity|]. rewrite split2curve_mv.
    destruct (split2curve p1 t1 _) as [s'|]; cbn [bind answer]; [|reflexivity]. cbn [mvb placed_curve bt1 bt2].
    repeat (rewrite answer_bind; apply bind_ext; intros ? _). reflexivity.
  Qed.
  Definition outer_mv (o : option (R * list (bezier R))) : option (R * list (bezier R)) := option_map (fun x => (fst x, map mvb (snd x))) o.
  Lemma reduceOuter_mv p1 : forall fuel t1 t2 acc, reduceOuter fuel (mvb p1) t1 t2 (map mvb acc) = answer outer_mv (reduceOuter fuel p1 t1 t2 acc).
  Proof.
    induction fuel as [|f IH]; intros t1 t2 acc; [reflexivity|]. cbn [reduceOuter]. destruct (nleb t2 (nofZ 1)); [|reflexivity].
    rewrite reduceInner_mv. destruct (reduceInner (S f) p1 t1 _) as [[|t s|]|]; cbn [bind answer inner_mv]; [reflexivity| |reflexivity..].
    rewrite <- IH, map_app. reflexivity.
  Qed.
  Lemma pass2_mv fuel : forall ps acc, reducePass2 fuel (map mvb ps) (map mvb acc) = answer (map mvb) (reducePass2 fuel ps acc).
  Proof.
    induction ps as [|p1 ps IH]; intros acc; [reflexivity|]. cbn [map reducePass2].
    change (@nil (bezier R)) with (map mvb []) at 1. rewrite reduceOuter_mv. destruct (reduceOuter fuel p1 (nofZ 0) (nofZ 0) []) as [[[t l]|]|]; cbn [bind answer outer_mv option_map fst snd]; [|reflexivity..].
    destruct (nltb t (nofZ 1)); cbn [bind].
    - rewrite split2curve_mv. destruct (split2curve p1 t (nofZ 1)) as [s|]; cbn [bind answer]; [|reflexivity]. cbn [mvb placed_curve bt1 bt2].
      destruct (bmap t (nofZ 0) (nofZ 1) (bt1 p1) (bt2 p1)) as [a|]; cbn [bind answer]; [|reflexivity]. rewrite <- IH, !map_app. reflexivity.
    - rewrite <- IH, !map_app. reflexivity.
  Qed.
  Theorem reduce_mv fuel b : reduce fuel (mvb b) = answer (map mvb) (reduce fuel b).
  Proof.
    unfold reduce. rewrite extrema_mv, answer_bind. apply bind_ext. intros e _. rewrite answer_bind. apply bind_ext. intros t0 _.
    rewrite pass1_mv, bind_answer, answer_bind. apply bind_ext. intros l _. exact (pass2_mv fuel l []).
  Qed.
  (** ** Boxes *)
  Definition reaches (b : bezier R) : Prop :=
    exists s, 0 <= s <= 1 /\ Rabs (fst (curve (cps b) s)) <= 32768 /\ Rabs (snd (curve (cps b) s)) <= 32768.
  Lemma rect_unique (p : list pt) r r' :
    (forall t, 0 <= t <= 1 -> left r <= fst (curve p t) <= right r /\ bottom r <= snd (curve p t) <= top r) ->
    (exists t, 0 <= t <= 1 /\ fst (curve p t) = left r) -> (exists t, 0 <= t <= 1 /\ fst (curve p t) = right r) ->
    (exists t, 0 <= t <= 1 /\ snd (curve p t) = bottom r) -> (exists t, 0 <= t <= 1 /\ snd (curve p t) = top r) ->
    (forall t, 0 <= t <= 1 -> left r' <= fst (curve p t) <= right r' /\ bottom r' <= snd (curve p t) <= top r') ->
    (exists t, 0 <= t <= 1 /\ fst (curve p t) = left r') -> (exists t, 0 <= t <= 1 /\ fst (curve p t) = right r') ->
    (exists t, 0 <= t <= 1 /\ snd (curve p t) = bottom r') -> (exists t, 0 <= t <= 1 /\ snd (curve p t) = top r') -> r = r'.
  Proof.
    intros B (t1 & T1 & E1) (t2 & T2 & E2) (t3 & T3 & E3) (t4 & T4 & E4) B' (s1 & S1 & F1) (s2 & S2 & F2) (s3 & S3 & F3) (s4 & S4 & F4).
    pose proof (B' _ T1). pose proof (B' _ T2). pose proof (B' _ T3). pose proof (B' _ T4). pose proof (B _ S1). pose proof (B _ S2). pose proof (B _ S3). pose proof (B _ S4).
    destruct r as [a1 a2 a3 a4], r' as [b1 b2 b3 b4]. cbn [left right top bottom] in *. f_equal; lra.
  Qed.
  Lemma bounds_mv b : (2 <= length (cps b) <= 4)%nat -> reaches b -> reaches (mvb b) -> boundsRectangle (mvb b) = answer (placed_rect k v) (boundsRectangle b).
  Proof.
    intros L H H'. destruct (boundsRectangle_spec rnd b L) as (r & E & B & A). destruct (boundsRectangle_spec rnd (mvb b)) as (r' & E' & B' & A').
    { unfold mvb, placed_curve. cbn [cps]. now rewrite map_length. }
    specialize (A H). specialize (A' H'). destruct A as (A1 & A2 & A3 & A4). destruct A' as (A1' & A2' & A3' & A4').
    rewrite E, E'. cbn [answer]. f_equal.
    assert (C : forall t, curve (cps (mvb b)) t = mv (curve (cps b) t)) by (intros t; apply curve_mv; lia).
    apply (rect_unique (cps (mvb b))); auto.
    - intros t T. specialize (B' t T). apply enclosesPoint_iff in B'. unfold in_box in B'. numR. rewrite !Rleb_true in B'. lra.
    - intros t T. specialize (B t T). apply enclosesPoint_iff in B. unfold in_box in B. numR. rewrite !Rleb_true in B.
      rewrite C. unfold mv, placed, placed_rect. cbn [fst snd left right top bottom]. nra.
    - destruct A1 as (t & T & X). exists t. split; auto. rewrite C. unfold mv, placed, placed_rect. cbn [fst left]. now rewrite X.
    - destruct A2 as (t & T & X). exists t. split; auto. rewrite C. unfold mv, placed, placed_rect. cbn [fst right]. now rewrite X.
    - destruct A3 as (t & T & X). exists t. split; auto. rewrite C. unfold mv, placed, placed_rect. cbn [snd bottom]. now rewrite X.
    - destruct A4 as (t & T & X). exists t. split; auto. rewrite C. unfold mv, placed, placed_rect. cbn [snd top]. now rewrite X.
  Qed.
End Place.
