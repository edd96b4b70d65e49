(** Affine maps, turns and reflections of curves. *)
From Coq Require Import List ZArith Bool Reals Lra Lia Sorting.Sorted.
From Verif Require Import Py Inst SpecGeom SpecBezier SpecOrder SpecBounds SpecCurve SpecMove SpecTurn
  MTransform MBounds MBezUtil MPathUtil MBezier MTables MBezierObj MContour ProofBounds ProofBezier ProofBezier2 ProofBezier3 ProofBBox ProofInter ProofReduce
  ProofMisc ProofScale ProofMove ProofMove2 ProofWhole.
Import ListNotations.
Local Open Scope R_scope.

Local Ltac ifs := repeat match goal with |- context [if ?x then _ else _] => match type of x with bool => destruct x end end; try exact I.
(** ** Any affine map *)
Section Mapped.
  Context (a b c d : R) (v : R * R).
  Let f : pt -> pt := mapped a b c d v.
  Let g : pt -> pt := mapped a b c d (0, 0).
  Let fb : bezier R -> bezier R := mapped_curve a b c d v.
  Lemma order_map z : order (fb z) = order z.
  Proof. unfold order, fb, mapped_curve. cbn [cps]. now rewrite map_length. Qed.
  Lemma curve_map p t : (1 <= length p)%nat -> curve (map f p) t = f (curve p t).
  Proof.
    intros L. pose proof (curve_affine p a c b d (fst v) (snd v) t L) as E. unfold f, mapped.
    etransitivity; [|etransitivity; [exact E|]].
    - f_equal. apply map_ext. intros [x y]. cbn [fst snd]. f_equal; ring.
    - cbn [fst snd]. f_equal; ring.
  Qed.
  Lemma get_map z t : get (fb z) t = answer f (get z t).
  Proof.
    destruct (Nat.le_gt_cases 1 (length (cps z))) as [L|L].
    - rewrite (get_ok z t L), get_ok; cbn [fb mapped_curve cps answer]; [|now rewrite map_length]. f_equal. now apply curve_map.
    - assert (N : cps z = []) by (destruct (cps z); [reflexivity|simpl in L; lia]).
      rewrite (get_nil z t N), get_nil; [reflexivity|]. unfold fb, mapped_curve. cbn [cps]. now rewrite N.
  Qed.
  Lemma getLUT_map z n : getLUT (fb z) n = answer (map f) (getLUT z n).
  Proof.
    unfold getLUT. destruct (Z.eqb n 0); [reflexivity|]. rewrite <- (map_id (seq 0 (Z.to_nat n))) at 1. apply mapM_answer.
    intros i _. rewrite answer_bind. apply bind_ext. intros x _. apply get_map.
  Qed.
  Lemma level_map t p : dcLevel (lerp t) (map f p) = map f (dcLevel (lerp t) p).
  Proof.
    induction p as [|[x y] [|[x' y'] p] IH]; [reflexivity..|]. change (dcLevel (lerp t) (map f ((x, y) :: (x', y') :: p)))
      with (lerp t (f (x, y)) (f (x', y')) :: dcLevel (lerp t) (map f ((x', y') :: p))). rewrite IH. cbn [dcLevel map]. f_equal.
    unfold lerp, f, mapped. numRg. cbn [fst snd]. f_equal; ring.
  Qed.
  Lemma hull_map z t : hull (fb z) t = map f (hull z t).
  Proof.
    unfold hull, fb, mapped_curve. cbn [cps]. rewrite map_length. set (n := length (cps z)). clearbody n.
    generalize (cps z) at 1 3 as p. generalize (cps z) as q.
    induction n as [|n IH]; intros q p; cbn [hullLoop]; [reflexivity|]. rewrite map_length. destruct (Nat.ltb 1 (length p)); [|reflexivity].
    rewrite level_map, <- map_app. apply IH.
  Qed.
  Lemma diff_map n p : dcLevel (diffStep n) (map f p) = map g (dcLevel (diffStep n) p).
  Proof.
    induction p as [|[x y] [|[x' y'] p] IH]; [reflexivity..|]. change (dcLevel (diffStep n) (map f ((x, y) :: (x', y') :: p)))
      with (diffStep n (f (x, y)) (f (x', y')) :: dcLevel (diffStep n) (map f ((x', y') :: p))). rewrite IH. cbn [dcLevel map]. f_equal.
    unfold diffStep, f, g, mapped. numRg. cbn [fst snd]. f_equal; ring.
  Qed.
  Lemma diff_lin n p : dcLevel (diffStep n) (map g p) = map g (dcLevel (diffStep n) p).
  Proof.
    induction p as [|[x y] [|[x' y'] p] IH]; [reflexivity..|]. change (dcLevel (diffStep n) (map g ((x, y) :: (x', y') :: p)))
      with (diffStep n (g (x, y)) (g (x', y')) :: dcLevel (diffStep n) (map g ((x', y') :: p))). rewrite IH. cbn [dcLevel map]. f_equal.
    unfold diffStep, g, mapped. numRg. cbn [fst snd]. f_equal; ring.
  Qed.
  Lemma dcFrom_lin : forall n p, dcPointsFrom n (map g p) = map (map g) (dcPointsFrom n p).
  Proof. induction n as [|[|n] IH]; intros p; [reflexivity..|]. cbn [dcPointsFrom map]. rewrite diff_lin. f_equal. exact (IH _). Qed.
  Lemma dcPoints_map z : dcPoints (fb z) = map (map g) (dcPoints z).
  Proof.
    unfold dcPoints, fb, mapped_curve. cbn [cps]. rewrite map_length. destruct (length (cps z)) as [|[|n]]; [reflexivity..|].
    cbn [dcPointsFrom map]. rewrite diff_map. f_equal. exact (dcFrom_lin (S n) _).
  Qed.
  Lemma derivative_map z t : derivative (fb z) t = answer g (derivative z t).
  Proof.
    unfold derivative. rewrite dcPoints_map, order_map, idx_answer, bind_answer, answer_bind. apply bind_ext. intros p _.
    rewrite idx_answer, bind_answer, answer_bind. apply bind_ext. intros [x0 y0] _.
    rewrite idx_answer, bind_answer, answer_bind. apply bind_ext. intros [x1 y1] _.
    destruct (Nat.eqb (order z) 2); cbn [bind].
    - cbn [answer]. f_equal. unfold g, mapped. numRg. cbn [fst snd]. f_equal; ring.
    - rewrite idx_answer. destruct (idx p 2) as [[x2 y2]|]; cbn [bind answer]; [|reflexivity]. f_equal. unfold g, mapped. numRg. cbn [fst snd]. f_equal; ring.
  Qed.
  Lemma direction_ok (h : pt -> pt) (p : list pt) : match computeDirection (map h p), computeDirection p with Ok _, Ok _ => True | Err e, Err e' => e = e' | _, _ => False end.
  Proof.
    unfold computeDirection. rewrite map_length, !idx_answer. destruct (idx p 0) as [p0|]; cbn [bind answer]; [|reflexivity]. destruct (idx p 1) as [p1|]; cbn [bind answer]; [|reflexivity].
    destruct (Nat.eqb (length p - 1) 1); [ifs|]. destruct (idx p 2) as [p2|]; cbn [bind answer]; [|reflexivity].
    destruct (Nat.eqb (length p - 1) 2); [ifs|]. destruct (idx p 3) as [p3|]; cbn [bind answer]; [ifs|reflexivity].
  Qed.
  Lemma new_map p : newBezier (map f p) = answer fb (newBezier p).
  Proof.
    unfold newBezier. pose proof (direction_ok f p) as D. destruct (computeDirection (map f p)), (computeDirection p); try contradiction; cbn [bind answer]; [reflexivity|now rewrite D].
  Qed.
  Definition pieces_map (x : bezier R * bezier R * list pt) : bezier R * bezier R * list pt :=
    let '(l, r, q) := x in (fb l, fb r, map f q).
  Lemma new3_map x y z : newBezier [f x; f y; f z] = answer fb (newBezier [x; y; z]).
  Proof. exact (new_map [x; y; z]). Qed.
  Lemma new4_map x y z w : newBezier [f x; f y; f z; f w] = answer fb (newBezier [x; y; z; w]).
  Proof. exact (new_map [x; y; z; w]). Qed.
  Lemma split1_map z t : split1 (fb z) t = answer pieces_map (split1 z t).
  Proof.
    unfold split1. rewrite hull_map, order_map. cbn [fb mapped_curve bt1 bt2]. rewrite answer_bind.
    destruct (Nat.eqb (order z) 2); rewrite !idx_answer.
    - destruct (idx (hull z t) 0); cbn [bind answer]; [|reflexivity]. destruct (idx (hull z t) 3); cbn [bind answer]; [|reflexivity].
      destruct (idx (hull z t) 5); cbn [bind answer]; [|reflexivity]. rewrite new3_map. destruct (newBezier _); cbn [bind answer]; [|reflexivity].
      destruct (idx (hull z t) 4); cbn [bind answer]; [|reflexivity]. destruct (idx (hull z t) 2); cbn [bind answer]; [|reflexivity].
      rewrite new3_map. destruct (newBezier _); cbn [bind answer]; [|reflexivity].
      repeat (rewrite answer_bind; apply bind_ext; intros ? _). reflexivity.
    - destruct (idx (hull z t) 0); cbn [bind answer]; [|reflexivity]. destruct (idx (hull z t) 4); cbn [bind answer]; [|reflexivity].
      destruct (idx (hull z t) 7); cbn [bind answer]; [|reflexivity]. destruct (idx (hull z t) 9); cbn [bind answer]; [|reflexivity].
      rewrite new4_map. destruct (newBezier _); cbn [bind answer]; [|reflexivity].
      destruct (idx (hull z t) 8); cbn [bind answer]; [|reflexivity]. destruct (idx (hull z t) 6); cbn [bind answer]; [|reflexivity].
      destruct (idx (hull z t) 3); cbn [bind answer]; [|reflexivity]. rewrite new4_map. destruct (newBezier _); cbn [bind answer]; [|reflexivity].
      repeat (rewrite answer_bind; apply bind_ext; intros ? _). reflexivity.
  Qed.
  Lemma split2curve_map z t1 t2 : split2curve (fb z) t1 t2 = answer fb (split2curve z t1 t2).
  Proof.
    unfold split2curve, split2. numRg. destruct (Reqb t1 0 && negb (Reqb t2 0)); [|destruct (Reqb t2 1)].
    - rewrite split1_map. destruct (split1 z t2) as [[[l r] q]|]; reflexivity.
    - rewrite split1_map. destruct (split1 z t1) as [[[l r] q]|]; reflexivity.
    - rewrite split1_map. destruct (split1 z t1) as [[[l r] q]|]; cbn [bind answer pieces_map]; [|reflexivity]. destruct (Reqb t2 0); [reflexivity|].
      destruct (bmap t2 t1 1 0 1) as [u|]; cbn [bind answer]; [|reflexivity].
      rewrite split1_map. destruct (split1 r u) as [[[l' r'] q']|]; reflexivity.
  Qed.
  Lemma raiseOrder_map z : raiseOrder (fb z) = answer fb (raiseOrder z).
  Proof.
    unfold raiseOrder. change (cps (fb z)) with (map f (cps z)). rewrite map_length, idx_answer, bind_answer, answer_bind. apply bind_ext. intros p0 E0.
    assert (N : INR (length (cps z)) <> 0). { apply not_0_INR. destruct (cps z); [discriminate|simpl; lia]. } rewrite INR_IZR_INZ in N.
    assert (M : mapM (raisedPoint (map f (cps z)) (length (cps z))) (seq 0 (length (cps z))) = answer (map f) (mapM (raisedPoint (cps z) (length (cps z))) (seq 0 (length (cps z))))).
    { rewrite <- (map_id (seq 0 (length (cps z)))) at 1. apply mapM_answer. intros i _. unfold raisedPoint. rewrite idx_answer, bind_answer, answer_bind. apply bind_ext. intros p _.
      assert (Pm : (match i with O => idx_last (map f (cps z)) | S j => idx (map f (cps z)) j end) = answer f (match i with O => idx_last (cps z) | S j => idx (cps z) j end)).
      { destruct i; [apply idx_last_answer|apply idx_answer]. }
      rewrite Pm, bind_answer, answer_bind. apply bind_ext. intros q _. cbn [answer]. unfold f, mapped. numRg. cbn [fst snd]. rewrite minus_IZR.
      refine (f_equal2 (fun x y => Ok (x, y)) _ _); field; exact N. }
    rewrite M, bind_answer, answer_bind. apply bind_ext. intros mid _. rewrite idx_last_answer, bind_answer, answer_bind. apply bind_ext. intros pn _.
    replace (f p0 :: map f mid ++ [f pn]) with (map f (p0 :: mid ++ [pn])) by (cbn [map]; now rewrite map_app). exact (new_map _).
  Qed.
  Lemma lli4_map p q r s : a * d - b * c <> 0 -> lli4 (f p) (f q) (f r) (f s) = option_map f (lli4 p q r s).
  Proof.
    intros D. destruct p as [x1 y1], q as [x2 y2], r as [x3 y3], s as [x4 y4]. unfold lli4, lli8, f, mapped. numRg. cbn [fst snd].
    match goal with |- (if Reqb ?e 0 then _ else _) = _ => replace e with ((a * d - b * c) * ((x1 - x2) * (y3 - y4) - (y1 - y2) * (x3 - x4))) by ring end. rewrite Reqb_scale0 by exact D.
    destruct (Reqb_spec ((x1 - x2) * (y3 - y4) - (y1 - y2) * (x3 - x4)) 0) as [E|E]; cbn [option_map]; [reflexivity|].
    refine (f_equal2 (fun x y => Some (x, y)) _ _); cbn [fst snd]; field; split; auto; lra.
  Qed.
  Lemma getABC_map z t : a * d - b * c <> 0 -> getABC (fb z) t = answer (fun x => let '(A, B, C, r, h) := x in (f A, f B, option_map f C, r, map f h)) (getABC z t).
  Proof.
    intros D. unfold getABC. rewrite hull_map, order_map. change (cps (fb z)) with (map f (cps z)). rewrite !idx_answer, idx_last_answer.
    destruct (Nat.eqb (order z) 2).
    - destruct (idx (cps z) 1); cbn [bind answer]; [|reflexivity]. destruct (idx (hull z t) 5); cbn [bind answer]; [|reflexivity]. destruct (quadraticRatio t); cbn [bind answer]; [|reflexivity].
      destruct (idx (cps z) 0); cbn [bind answer]; [|reflexivity]. destruct (idx_last (cps z)); cbn [bind answer]; [|reflexivity]. now rewrite lli4_map.
    - destruct (idx (hull z t) 5); cbn [bind answer]; [|reflexivity]. destruct (idx (hull z t) 9); cbn [bind answer]; [|reflexivity]. destruct (cubicRatio t); cbn [bind answer]; [|reflexivity].
      destruct (idx (cps z) 0); cbn [bind answer]; [|reflexivity]. destruct (idx_last (cps z)); cbn [bind answer]; [|reflexivity]. now rewrite lli4_map.
  Qed.
  Lemma concat_map_lut steps : forall bs n, concatLUT n (map fb bs) steps = answer (map f) (concatLUT n bs steps).
  Proof.
    induction bs as [|z bs IH]; intros n; cbn [concatLUT map]; [reflexivity|]. rewrite getLUT_map, bind_answer, answer_bind. apply bind_ext. intros l _.
    rewrite IH, bind_answer, answer_bind. apply bind_ext. intros r _. cbn [answer]. now rewrite map_app, skipn_map.
  Qed.
End Mapped.
(** ** Maps that keep distances *)
Section Ortho.
  Context (rnd : R -> R).
  #[local] Hint Extern 0 (TrigOps R) => exact (RTrig rnd) : typeclass_instances.
  Context (a b c d : R) (O1 : a * a + c * c = 1) (O2 : b * b + d * d = 1) (O3 : a * b + c * d = 0).
  Lemma norm_map x y : (a * x + b * y) * (a * x + b * y) + (c * x + d * y) * (c * x + d * y) = x * x + y * y.
  Proof.
    replace (_ + _) with ((a * a + c * c) * (x * x) + (b * b + d * d) * (y * y) + 2 * (a * b + c * d) * (x * y)) by ring. rewrite O1, O2, O3. ring.
  Qed.
  Theorem length_map v z : quadrature (mapped_curve a b c d v z) = quadrature z.
  Proof.
    unfold quadrature. set (h := nlit 1 2). generalize (combine (tValues (T := R)) (cValues (T := R))) as l. intros l. f_equal.
    assert (A : forall t, arcfun (mapped_curve a b c d v z) t = arcfun z t).
    { intros t. unfold arcfun. rewrite derivative_map, bind_answer. apply bind_ext. intros [x y] _. unfold mapped. cbn [fst snd]. numRg. rewrite !Rplus_0_r, norm_map. reflexivity. }
    generalize (@nofZ R _ 0) as s. induction l as [|tc l IH]; intros s; cbn [foldM]; [reflexivity|]. cbv zeta. rewrite A. apply bind_ext. intros x _. apply IH.
  Qed.
  Let f : pt -> pt := mapped a b c d (0, 0).
  Let fb : bezier R -> bezier R := mapped_curve a b c d (0, 0).
  Lemma gap_map p q : thypot (fst (f q) - fst (f p))%num (snd (f q) - snd (f p))%num = thypot (fst q - fst p)%num (snd q - snd p)%num.
  Proof.
    unfold f, mapped. cbn [fst snd]. numRg. rewrite <- (norm_map (fst q - fst p) (snd q - snd p)). f_equal. ring.
  Qed.
  Lemma closest_map p lut : findClosest (f p) (map f lut) = findClosest p lut.
  Proof.
    unfold findClosest. f_equal. generalize (0%Z, @maxSafe R _, (-1)%Z) as st. induction lut as [|q lut IH]; intros st; cbn [map fold_left]; [reflexivity|].
    assert (E : closestStep (f p) st (f q) = closestStep p st q).
    { destruct st as [[n m] i]. unfold closestStep. now rewrite gap_map. }
    rewrite E. apply IH.
  Qed.
  Lemma sample_step p z t1 step (m : R) (q : pt) (i : Z) (nl : list pt) nts j : refineSample p z t1 step ((m, q, i), (nl, nts)) j =
    bind (get z (t1 + nofZ (Z.of_nat j) * step)%num) (fun n => Ok ((if nltb (thypot (fst n - fst p)%num (snd n - snd p)%num) m then (thypot (fst n - fst p)%num (snd n - snd p)%num, n, Z.of_nat j) else (m, q, i)), (nl ++ [n], nts ++ [(t1 + nofZ (Z.of_nat j) * step)%num]))).
  Proof. reflexivity. Qed.
  Lemma sample_map p z t1 step : forall js m q i nl nts,
    foldM (refineSample (f p) (fb z) t1 step) js ((m, f q, i), (map f nl, nts)) =
    answer (fun x => let '((m, q, i), (nl, nts)) := x in ((m, f q, i), (map f nl, nts))) (foldM (refineSample p z t1 step) js ((m, q, i), (nl, nts))).
  Proof.
    induction js as [|j js IH]; intros m q i nl nts; cbn [foldM]; [reflexivity|]. rewrite !sample_step. unfold fb at 1. rewrite get_map.
    destruct (get z _) as [x|e]; cbn [bind answer]; [|reflexivity]. fold f. rewrite gap_map.
    destruct (nltb _ m); rewrite <- IH, map_app; reflexivity.
  Qed.
  Lemma refine_map p z : forall rounds lut tts m q i,
    refineLoop rounds (f p) (fb z) (map f lut) tts m (f q) i = answer (fun x => (f (fst x), snd x)) (refineLoop rounds p z lut tts m q i).
  Proof.
    induction rounds as [|n IH]; intros lut tts m q i; cbn [refineLoop]; [reflexivity|]. rewrite map_length. cbv zeta.
    rewrite answer_bind. apply bind_ext. intros t1 _. rewrite answer_bind. apply bind_ext. intros t2 _. destruct (nltb _ _); [reflexivity|].
    rewrite !idxZ_map, bind_answer, answer_bind. apply bind_ext. intros l1 _. rewrite answer_bind. change [f l1] with (map f [l1]). rewrite sample_map, bind_answer. apply bind_ext.
    intros [[[m' q'] i'] [nl nts]] _. rewrite bind_answer, answer_bind. apply bind_ext. intros l2 _. rewrite <- IH, map_app. reflexivity.
  Qed.
  Lemma origin_map : f (0, 0) = (0, 0).
  Proof. unfold f, mapped. cbn [fst snd]. f_equal; ring. Qed.
  Lemma binary_map p z lut i : refineBinary (f p) (fb z) (map f lut) i = answer (fun x => (f (fst x), snd x)) (refineBinary p z lut i).
  Proof.
    unfold refineBinary. rewrite map_length, answer_bind. apply bind_ext. intros tts _. change (@nofZ R _ 0) with 0. rewrite <- origin_map at 1. apply refine_map.
  Qed.
  Lemma locate_map (bs : list (bezier R)) i steps : locate (map fb bs) i steps = answer (fun x => let '(z, z2, i) := x in (fb z, option_map fb z2, i)) (locate bs i steps).
  Proof.
    unfold locate. rewrite map_length. destruct (Z.ltb i steps).
    - rewrite !idx_answer, bind_answer, answer_bind. apply bind_ext. intros x _. destruct (_ && _)%bool; [|reflexivity].
      destruct (idx bs 1); reflexivity.
    - destruct (Z.eqb (steps - 1) 0); [reflexivity|]. rewrite !idxZ_map, bind_answer, answer_bind. apply bind_ext. intros x _. destruct (Z.ltb _ _); [|reflexivity].
      destruct (idxZ bs _); reflexivity.
  Qed.
  Theorem closestPoint_map (k k' : bcontour R) p steps : c_beziers k' = map fb (c_beziers k) -> c_lut k' = map f (c_lut k) ->
    snd (findClosestPoint k' (f p) steps) = answer (fun x => (fst x, f (snd x))) (snd (findClosestPoint k p steps)).
  Proof.
    intros B L. unfold findClosestPoint, contourLUT. rewrite L, B, map_length.
    assert (G : forall lut, (let i := findClosest (f p) (map f lut) in
         let* (curve, curve2, i) := locate (map fb (c_beziers k)) i steps in
         let* clut := getLUT curve steps in
         let* (cip, closest) := refineBinary (f p) curve clut i in
         match curve2 with
         | None => Ok (closest, cip)
         | Some b2 =>
             let* lut2 := getLUT b2 steps in
             let* (cip2, c2) := refineBinary (f p) b2 lut2 0 in
             if (c2 <? closest)%num then Ok (c2, cip2) else Ok (closest, cip)
         end) = answer (fun x => (fst x, f (snd x))) (let i := findClosest p lut in
         let* (curve, curve2, i) := locate (c_beziers k) i steps in
         let* clut := getLUT curve steps in
         let* (cip, closest) := refineBinary p curve clut i in
         match curve2 with
         | None => Ok (closest, cip)
         | Some b2 =>
             let* lut2 := getLUT b2 steps in
             let* (cip2, c2) := refineBinary p b2 lut2 0 in
             if (c2 <? closest)%num then Ok (c2, cip2) else Ok (closest, cip)
         end)).
    { intros lut. cbv zeta. rewrite closest_map, locate_map, bind_answer, answer_bind. apply bind_ext. intros [[x x2] i] _.
      unfold fb at 1. rewrite getLUT_map, bind_answer, answer_bind. apply bind_ext. intros l _. fold f. rewrite binary_map, bind_answer, answer_bind. apply bind_ext. intros [q m] _. cbn [fst snd].
      destruct x2 as [y|]; cbn [option_map]; [|reflexivity]. unfold fb at 1. rewrite getLUT_map, bind_answer, answer_bind. apply bind_ext. intros l2 _. fold f.
      rewrite binary_map, bind_answer, answer_bind. apply bind_ext. intros [q2 m2] _. cbn [fst snd]. now destruct (nltb m2 m). }
    destruct (Z.eqb _ steps); cbn [snd].
    - rewrite B. apply G.
    - unfold fb at 1. rewrite concat_map_lut. destruct (concatLUT 0 (c_beziers k) steps) as [l|]; cbn [answer snd]; [|reflexivity].
      replace (c_beziers (setCLut k' (map (mapped a b c d (0, 0)) l))) with (map fb (c_beziers k)) by (rewrite <- B; reflexivity).
      change (c_beziers (setCLut k l)) with (c_beziers k). apply G.
  Qed.
End Ortho.
(** ** Turns *)
Section Turned.
  Context (rnd : R -> R).
  #[local] Hint Extern 0 (TrigOps R) => exact (RTrig rnd) : typeclass_instances.
  Context (c s : R) (U : c * c + s * s = 1) (v : R * R).
  Let f : pt -> pt := turned c s v.
  Let g : pt -> pt := turned c s (0, 0).
  Let fb : bezier R -> bezier R := turned_curve c s v.
  Lemma orth2 : - s * - s + c * c = 1.
  Proof. lra. Qed.
  Lemma orth3 : c * - s + s * c = 0.
  Proof. ring. Qed.
  Lemma det1 : c * c - - s * s <> 0.
  Proof. lra. Qed.
  Lemma norm_turn x y : (c * x + - s * y + 0) * (c * x + - s * y + 0) + (s * x + c * y + 0) * (s * x + c * y + 0) = x * x + y * y.
  Proof. rewrite !Rplus_0_r. apply norm_map; [lra|apply orth2|apply orth3]. Qed.
  Lemma tangent_turn z t : tangent (fb z) t = answer g (tangent z t).
  Proof.
    unfold tangent, fb, turned_curve. rewrite derivative_map, bind_answer, answer_bind. apply bind_ext. intros [x y] _. unfold g, turned, mapped, ndiv. numRg. cbn [fst snd].
    rewrite norm_turn. destruct (Reqb_spec (sqrt (x * x + y * y)) 0) as [E|E]; cbn [bind answer]; [reflexivity|]. refine (f_equal2 (fun x y => Ok (x, y)) _ _); cbn [fst snd]; field; exact E.
  Qed.
  Lemma normal__turn z t : normal_ (fb z) t = answer g (normal_ z t).
  Proof.
    unfold normal_, fb, turned_curve. rewrite derivative_map, bind_answer, answer_bind. apply bind_ext. intros [x y] _. unfold g, turned, mapped, ndiv. numRg. cbn [fst snd].
    rewrite norm_turn. destruct (Reqb_spec (sqrt (x * x + y * y)) 0) as [E|E]; cbn [bind answer]; [reflexivity|]. refine (f_equal2 (fun x y => Ok (x, y)) _ _); cbn [fst snd]; field; exact E.
  Qed.
  Lemma normal_turn z t : normal (fb z) t = answer g (normal z t).
  Proof.
    unfold normal, fb, turned_curve. rewrite derivative_map, bind_answer, answer_bind. apply bind_ext. intros [x y] _. unfold mapped at 1. numRg. cbn [fst snd].
    rewrite norm_turn. destruct (bsqrt (x * x + y * y)) as [q|]; [|reflexivity]. unfold g, turned, mapped, ndiv. numRg. cbn [fst snd].
    destruct (Reqb_spec q 0) as [E|E]; cbn [bind answer]; [reflexivity|]. refine (f_equal2 (fun x y => Ok (x, y)) _ _); cbn [fst snd]; field; exact E.
  Qed.
  Lemma angle_turn o p q : angle (f o) (f p) (f q) = angle o p q.
  Proof.
    destruct o as [x0 y0], p as [x1 y1], q as [x2 y2]. unfold angle, f, turned, mapped. numRg. cbn [fst snd]. f_equal.
    - replace (_ - _) with ((c * c + s * s) * ((x1 - x0) * (y2 - y0) - (y1 - y0) * (x2 - x0))) by ring. rewrite U. ring.
    - replace (_ + _) with ((c * c + s * s) * ((x1 - x0) * (x2 - x0) + (y1 - y0) * (y2 - y0))) by ring. rewrite U. ring.
  Qed.
  Lemma clockwise_turn p : isClockwise (map f p) = isClockwise p.
  Proof.
    unfold isClockwise. rewrite idx_answer, idx_last_answer. destruct (idx p 0) as [x|]; cbn [answer bind]; [|reflexivity].
    destruct (idx_last p) as [z|]; cbn [answer bind]; [|reflexivity]. rewrite idx_answer. destruct (idx p 1) as [q|]; cbn [answer bind]; [|reflexivity].
    now rewrite angle_turn.
  Qed.
  Lemma order_turn z : order (fb z) = order z.
  Proof. apply order_map. Qed.
  Lemma simple_turn z : simple (fb z) = simple z.
  Proof.
    unfold simple. rewrite order_turn, !normal_turn. change (cps (fb z)) with (map f (cps z)).
    assert (A : (if Nat.eqb (order z) 3 then bind (idx (map f (cps z)) 0) (fun p0 => bind (idx (map f (cps z)) 1) (fun p1 => bind (idx (map f (cps z)) 2) (fun p2 => bind (idx (map f (cps z)) 3) (fun p3 =>
        Ok (((nofZ 0 <? angle p0 p3 p1)%num && (angle p0 p3 p2 <? nofZ 0)%num) || ((angle p0 p3 p1 <? nofZ 0)%num && (nofZ 0 <? angle p0 p3 p2)%num)))))) else Ok false) =
      (if Nat.eqb (order z) 3 then bind (idx (cps z) 0) (fun p0 => bind (idx (cps z) 1) (fun p1 => bind (idx (cps z) 2) (fun p2 => bind (idx (cps z) 3) (fun p3 =>
        Ok (((nofZ 0 <? angle p0 p3 p1)%num && (angle p0 p3 p2 <? nofZ 0)%num) || ((angle p0 p3 p1 <? nofZ 0)%num && (nofZ 0 <? angle p0 p3 p2)%num)))))) else Ok false)).
    { destruct (Nat.eqb (order z) 3); [|reflexivity]. rewrite !idx_answer. repeat (rewrite bind_answer; apply bind_ext; intros ? _). now rewrite !angle_turn. }
    rewrite A. apply bind_ext. intros bad _. destruct bad; [reflexivity|]. rewrite bind_answer. apply bind_ext. intros [x1 y1] _. rewrite bind_answer. apply bind_ext. intros [x2 y2] _.
    replace (fst (g (x1, y1)) * fst (g (x2, y2)) + snd (g (x1, y1)) * snd (g (x2, y2)))%num with (fst (x1, y1) * fst (x2, y2) + snd (x1, y1) * snd (x2, y2))%num; [reflexivity|].
    unfold g, turned, mapped. numRg. cbn [fst snd]. transitivity ((c * c + s * s) * (x1 * x2 + y1 * y2)); [rewrite U|]; ring.
  Qed.
  Lemma offsetPoint_turn z t d : offsetPoint (fb z) t d = answer (fun x => let '(p, n, q) := x in (f p, g n, f q)) (offsetPoint z t d).
  Proof.
    unfold offsetPoint. rewrite normal_turn. unfold fb, turned_curve. rewrite get_map. rewrite bind_answer, answer_bind. apply bind_ext. intros p _. rewrite bind_answer, answer_bind. apply bind_ext. intros n _.
    cbn [answer]. f_equal. f_equal. unfold f, g, turned, mapped. numRg. cbn [fst snd]. f_equal; ring.
  Qed.
  Lemma origin_turn p0 n0 q0 p1 n1 q1 : scaleOrigin (f p0, g n0, f q0) (f p1, g n1, f q1) = answer f (scaleOrigin (p0, n0, q0) (p1, n1, q1)).
  Proof. unfold scaleOrigin, f, turned. rewrite lli4_map by apply det1. now destruct (lli4 q0 p0 q1 p1). Qed.
  Lemma inner_turn p o rc : movedInner (f p) (f o) rc = answer f (movedInner p o rc).
  Proof.
    destruct p as [x y], o as [ox oy]. unfold movedInner, f, turned, mapped, ndiv. numRg. cbn [fst snd].
    replace (c * x + - s * y + fst v - (c * ox + - s * oy + fst v)) with (c * (x - ox) + - s * (y - oy) + 0) by ring. replace (s * x + c * y + snd v - (s * ox + c * oy + snd v)) with (s * (x - ox) + c * (y - oy) + 0) by ring.
    rewrite norm_turn. destruct (Reqb_spec (sqrt ((x - ox) * (x - ox) + (y - oy) * (y - oy))) 0) as [E|E]; cbn [bind answer]; [reflexivity|].
    refine (f_equal2 (fun x y => Ok (x, y)) _ _); cbn [fst snd]; field; exact E.
  Qed.
  Lemma end_turn p n d : movedEnd (f p) (g n) d = f (movedEnd p n d).
  Proof. destruct p, n. unfold movedEnd, f, g, turned, mapped. numRg. cbn [fst snd]. f_equal; ring. Qed.
  Theorem scaleNum_turn z d : (length (cps z) <= 4)%nat -> scaleNum (fb z) d = answer fb (scaleNum z d).
  Proof.
    intros L. unfold scaleNum. cbv zeta. rewrite order_turn. change (cps (fb z)) with (map f (cps z)). rewrite clockwise_turn, answer_bind. apply bind_ext. intros cw _.
    rewrite !offsetPoint_turn. rewrite bind_answer, answer_bind. apply bind_ext. intros [[c0 n0] q0] _. rewrite bind_answer, answer_bind. apply bind_ext. intros [[c1 n1] q1] _.
    rewrite origin_turn, bind_answer, answer_bind. apply bind_ext. intros o _. cbn [fst snd].
    rewrite idx_answer, bind_answer, answer_bind. apply bind_ext. intros p0 _.
    rewrite idx_answer, bind_answer, answer_bind. apply bind_ext. intros pn _. rewrite !end_turn.
    rewrite idx_answer, bind_answer, answer_bind. apply bind_ext. intros p1 _. rewrite inner_turn, bind_answer, answer_bind. apply bind_ext. intros m1 _.
    destruct (Nat.eqb (order z) 2); [exact (new3_map c (- s) s c v _ _ _)|].
    rewrite idx_answer, bind_answer, answer_bind. apply bind_ext. intros p2 _. rewrite inner_turn, bind_answer, answer_bind. apply bind_ext. intros m2 _.
    destruct (Nat.eqb (order z) 3) eqn:O3; [exact (new4_map c (- s) s c v _ _ _ _)|].
    apply Nat.eqb_neq in O3. unfold order in *. replace (length (cps z) - 1 - 3)%nat with 0%nat by lia. exact (new4_map c (- s) s c v _ _ _ _).
  Qed.
  Lemma meet_turn e dv o cp : tangentMeet (f e) (g dv) (f o) (f cp) = answer f (tangentMeet e dv o cp).
  Proof.
    unfold tangentMeet. replace (fst (f e) + fst (g dv), snd (f e) + snd (g dv))%num with (f (fst e + fst dv, snd e + snd dv)%num).
    - unfold f, turned. rewrite lli4_map by apply det1. now destruct (lli4 e _ o cp).
    - destruct e, dv. unfold f, g, turned, mapped. numRg. cbn [fst snd]. f_equal; ring.
  Qed.
  Theorem scaleFn_turn z d : (length (cps z) = 4)%nat -> scaleFn (fb z) d = answer fb (scaleFn z d).
  Proof.
    intros L. assert (O : order z = 3%nat) by (unfold order; now rewrite L). unfold scaleFn. rewrite order_turn, O. cbn [Nat.eqb].
    unfold scaleFnBody. cbv zeta. rewrite order_turn, O. change (cps (fb z)) with (map f (cps z)).
    rewrite !offsetPoint_turn. rewrite bind_answer, answer_bind. apply bind_ext. intros [[c0 n0] q0] _. rewrite bind_answer, answer_bind. apply bind_ext. intros [[c1 n1] q1] _.
    rewrite origin_turn, bind_answer, answer_bind. apply bind_ext. intros o _. cbn [fst snd].
    rewrite idx_answer, bind_answer, answer_bind. apply bind_ext. intros p0 _.
    rewrite idx_answer, bind_answer, answer_bind. apply bind_ext. intros pn _. rewrite !end_turn.
    unfold fb, turned_curve. rewrite !derivative_map. rewrite bind_answer, answer_bind. apply bind_ext. intros d0 _. rewrite bind_answer, answer_bind. apply bind_ext. intros d1 _.
    rewrite idx_answer, bind_answer, answer_bind. apply bind_ext. intros p1 _. rewrite idx_answer, bind_answer, answer_bind. apply bind_ext. intros p2 _.
    change (mapped c (- s) s c (0, 0)) with g. rewrite meet_turn, bind_answer, answer_bind. apply bind_ext. intros m1 _. rewrite meet_turn, bind_answer, answer_bind. apply bind_ext. intros m2 _.
    cbn [Nat.eqb]. exact (new4_map c (- s) s c v _ _ _ _).
  Qed.
  Lemma offsetLinear_turn z t : offsetLinear (fb z) t = answer (map fb) (offsetLinear z t).
  Proof.
    unfold offsetLinear. rewrite normal_turn. rewrite bind_answer, answer_bind. apply bind_ext. intros n _. change (cps (fb z)) with (map f (cps z)).
    replace (map (fun p : pt => _) (map f (cps z))) with (map f (map (fun p : pt => (fst p + t * fst n, snd p + t * snd n)) (cps z))).
    - unfold f, turned. change (map (fun p => mapped c (- s) s c v p)) with (map (mapped c (- s) s c v)). rewrite new_map. numRg. now destruct (newBezier _).
    - rewrite !map_map. apply map_ext. intros [x y]. unfold f, g, turned, mapped. numRg. cbn [fst snd]. f_equal; ring.
  Qed.
End Turned.
(** ** Quarter turns and reflections: extreme points and boxes *)
Lemma dedup_unique (l l' : list R) : (forall x, In x l <-> In x l') -> removeDuplicates neqb (sorted l) = removeDuplicates neqb (sorted l').
Proof.
  intros E. destruct (dedup_sorted l) as [S I]. destruct (dedup_sorted l') as [S' I']. 
  assert (M : forall x, In x (removeDuplicates neqb (sorted l)) <-> In x (removeDuplicates neqb (sorted l'))) by (intros x; now rewrite I, I').
  clear I I' E. revert S' M. generalize (removeDuplicates neqb (sorted l')) as m'. induction S as [|x m S IH F]; intros m' S' M.
  - destruct m' as [|y m']; [reflexivity|]. destruct (proj2 (M y)); now left.
  - destruct S' as [|y m' S' F']; [destruct (proj1 (M x)); now left|]. rewrite List.Forall_forall in F, F'.
    assert (x = y) as <-.
    { destruct (proj1 (M x) (or_introl eq_refl)) as [E|E]; [now rewrite E|]. destruct (proj2 (M y) (or_introl eq_refl)) as [G|G]; [exact G|]. apply F' in E. apply F in G. lra. }
    f_equal. apply IH; [exact S'|]. intros w. split; intros W.
    + destruct (proj1 (M w) (or_intror W)) as [<-|]; [apply F in W; lra|auto].
    + destruct (proj2 (M w) (or_intror W)) as [<-|]; [apply F' in W; lra|auto].
Qed.
Definition signed (e : bool) (x : R) : R := if e then x else - x.
Definition signed_span (e : bool) (x : R * R) : R * R := if e then x else (- snd x, - fst x).
Section Axis.
  Context (rnd : R -> R).
  #[local] Hint Extern 0 (TrigOps R) => exact (RTrig rnd) : typeclass_instances.
  Lemma droots_neg (l : list R) x : In (Some x) (droots (map Ropp l)) <-> In (Some x) (droots l).
  Proof.
    destruct l as [|p [|q [|r [|u l]]]]; cbn [map droots]; try reflexivity; numRg.
    - destruct (Reqb_spec p q) as [E|E], (Reqb_spec (- p) (- q)) as [F|F]; try lra; cbn [negb]; [reflexivity|].
      replace (- p / (- p - - q)) with (p / (p - q)) by (field; lra). reflexivity.
    - replace (- p - 2 * - q + - r) with (- (p - 2 * q + r)) by ring. replace (- q * - q - - p * - r) with (q * q - p * r) by ring.
      destruct (Reqb_spec (p - 2 * q + r) 0) as [E|E], (Reqb_spec (- (p - 2 * q + r)) 0) as [F|F]; try lra; cbn [negb].
      + destruct (Reqb_spec q r) as [G|G], (Reqb_spec (- q) (- r)) as [H|H]; try lra; cbn [negb andb]; [reflexivity|].
        replace ((2 * - q - - r) / (2 * (- q - - r))) with ((2 * q - r) / (2 * (q - r))) by (field; lra). reflexivity.
      + destruct (bsqrt (q * q - p * r)) as [w|]; [|reflexivity]. cbn [In].
        replace (- (- w + (- - p + - q)) / - (p - 2 * q + r)) with (- (- - w + (- p + q)) / (p - 2 * q + r)) by (field; lra).
        replace (- (- - w + (- - p + - q)) / - (p - 2 * q + r)) with (- (- w + (- p + q)) / (p - 2 * q + r)) by (field; lra). tauto.
  Qed.
  Context (a b c d : R).
  Let g : pt -> pt := mapped a b c d (0, 0).
  Let fb : bezier R -> bezier R := mapped_curve a b c d (0, 0).
  Lemma coords_signed e i j (l : list pt) : (forall p, coord i (g p) = signed e (coord j p)) ->
    forall x, In (Some x) (droots (map (coord i) (map g l))) <-> In (Some x) (droots (map (coord j) l)).
  Proof.
    intros G x. rewrite map_map. rewrite (map_ext _ (fun p => signed e (coord j p)) G). destruct e; cbn [signed]; [reflexivity|].
    rewrite <- (map_map (coord j) Ropp). apply droots_neg.
  Qed.
  Lemma extremaDim_signed e i j z : (2 <= length (cps z) <= 4)%nat -> (forall p, coord i (g p) = signed e (coord j p)) ->
    exists l l', extremaDim (fb z) i = Ok l' /\ extremaDim z j = Ok l /\ forall t, In t l' <-> In t l.
  Proof.
    intros L G. destruct (extremaDim_spec rnd z j L) as (l & E & _). destruct (extremaDim_spec rnd (fb z) i) as (l' & E' & _); [unfold fb, mapped_curve; cbn [cps]; now rewrite map_length|].
    exists l, l'. split; [exact E'|]. split; [exact E|]. revert E E'. unfold extremaDim. unfold fb. rewrite dcPoints_map, order_map, !idx_answer.
    destruct (idx (dcPoints z) 0) as [p|]; cbn [bind answer]; [|discriminate]. destruct (Nat.eqb (order z) 3).
    - destruct (idx (dcPoints z) 1) as [q|]; cbn [bind answer]; [|discriminate]. intros E E'. injection E as <-. injection E' as <-. intros t.
      rewrite !(inUnit_In rnd), !in_app_iff. change (mapped a b c d (0, 0)) with g. now rewrite !(coords_signed e i j _ G).
    - cbn [bind]. intros E E'. injection E as <-. injection E' as <-. intros t. rewrite !(inUnit_In rnd). change (mapped a b c d (0, 0)) with g. now rewrite !(coords_signed e i j _ G).
  Qed.
  Lemma minmax_signed e i j z l l' : (1 <= length (cps z))%nat -> (forall p, coord i (g p) = signed e (coord j p)) -> (forall t, In t l' <-> In t l) ->
    getminmax (fb z) i l' = answer (signed_span e) (getminmax z j l).
  Proof.
    intros L G M. destruct (getminmax_spec z j l L) as (mn & mx & E & B & A1 & A2 & C1 & C2).
    destruct (getminmax_spec (fb z) i l') as (mn' & mx' & E' & B' & A1' & A2' & C1' & C2'); [unfold fb, mapped_curve; cbn [cps]; now rewrite map_length|].
    assert (V : forall s, coord i (curve (cps (fb z)) s) = signed e (coord j (curve (cps z) s))).
    { intros s. unfold fb, mapped_curve. cbn [cps]. rewrite (curve_map a b c d (0, 0)) by exact L. apply G. }
    assert (B2 : forall s, s = 0 \/ s = 1 \/ In s l -> mn' <= signed e (coord j (curve (cps z) s)) <= mx').
    { intros s S. rewrite <- V. apply B'. rewrite M. exact S. }
    rewrite E, E'. cbn [answer]. f_equal. unfold maxSafe, minSafe in *. numR.
    assert (P : forall s, s = 0 \/ s = 1 \/ In s l' -> s = 0 \/ s = 1 \/ In s l) by (intros s; now rewrite M).
    assert (H1 : mn' = 9007199254740991 \/ exists s, (s = 0 \/ s = 1 \/ In s l) /\ mn' = signed e (coord j (curve (cps z) s))).
    { destruct A1' as [A|(s & S & A)]; [left|right; exists s; rewrite <- V]; auto. }
    assert (H2 : mx' = -9007199254740991 \/ exists s, (s = 0 \/ s = 1 \/ In s l) /\ mx' = signed e (coord j (curve (cps z) s))).
    { destruct A2' as [A|(s & S & A)]; [left|right; exists s; rewrite <- V]; auto. }
    clear A1' A2' B' V E E'.
    assert (Q : forall s, s = 0 \/ s = 1 \/ In s l -> mn <= coord j (curve (cps z) s) <= mx /\ mn' <= signed e (coord j (curve (cps z) s)) <= mx') by (intros s S; auto).
    destruct e; cbn [signed signed_span fst snd] in *; f_equal; apply Rle_antisym;
      destruct A1 as [A1|(s1 & S1 & A1)], A2 as [A2|(s2 & S2 & A2)], H1 as [H1|(s3 & S3 & H1)], H2 as [H2|(s4 & S4 & H2)];
      repeat match goal with S : _ \/ _ |- _ => pose proof (Q _ S); clear S end; lra.
  Qed.
  Theorem extrema_signed e0 e1 i j z : (2 <= length (cps z) <= 4)%nat -> (i = 0 /\ j = 1 \/ i = 1 /\ j = 0)%nat ->
    (forall p, coord 0 (g p) = signed e0 (coord i p)) -> (forall p, coord 1 (g p) = signed e1 (coord j p)) ->
    answer ex2 (extrema (fb z)) = answer ex2 (extrema z).
  Proof.
    intros L IJ G0 G1. destruct (extremaDim_signed e0 0 i z L G0) as (l0 & l0' & E0' & E0 & M0). destruct (extremaDim_signed e1 1 j z L G1) as (l1 & l1' & E1' & E1 & M1).
    unfold extrema. rewrite E0', E1'. cbn [bind answer].
    assert (N : forall (x y : list R), (forall t, In t (x ++ y) <-> In t (l0' ++ l1')) -> removeDuplicates neqb (sorted (sorted l0' ++ sorted l1')) = removeDuplicates neqb (sorted (sorted x ++ sorted y))).
    { intros x y H. apply dedup_unique. intros t. rewrite !in_app_iff, !sorted_In. specialize (H t). rewrite !in_app_iff in H. symmetry. exact H. }
    destruct IJ as [[-> ->]|[-> ->]]; rewrite E0, E1; cbn [bind answer ex2]; f_equal; apply N; intros t; rewrite !in_app_iff, M0, M1; tauto.
  Qed.
End Axis.
(** ** A quarter turn: boxes, reduction, intersections *)
Section Quarter.
  Context (rnd : R -> R).
  #[local] Hint Extern 0 (TrigOps R) => exact (RTrig rnd) : typeclass_instances.
  Let f : pt -> pt := turned 0 1 (0, 0).
  Let fb : bezier R -> bezier R := turned_curve 0 1 (0, 0).
  Lemma quarter_unit : 0 * 0 + 1 * 1 = 1.
  Proof. ring. Qed.
  Lemma quarter_c0 p : coord 0 (f p) = signed false (coord 1 p).
  Proof. unfold f, turned, mapped, coord, signed. cbn [Nat.eqb fst snd]. ring. Qed.
  Lemma quarter_c1 p : coord 1 (f p) = signed true (coord 0 p).
  Proof. unfold f, turned, mapped, coord, signed. cbn [Nat.eqb fst snd]. ring. Qed.
  Lemma minmax_neg x y : Rmin (Rmin 32768 (- x)) (- y) = - Rmax (Rmax (-32768) y) x /\ Rmax (Rmax (-32768) (- x)) (- y) = - Rmin (Rmin 32768 y) x.
  Proof. unfold Rmin, Rmax. split; repeat destruct (Rle_dec _ _); lra. Qed.
  Theorem box_quarter z : (2 <= length (cps z) <= 4)%nat -> boundsRectangle (fb z) = answer quarter_rect (boundsRectangle z).
  Proof.
    intros L. destruct (extremaDim_signed rnd 0 (- (1)) 1 0 false 0 1 z L quarter_c0) as (l1 & l1' & E1' & E1 & M1).
    destruct (extremaDim_signed rnd 0 (- (1)) 1 0 true 1 0 z L quarter_c1) as (l0 & l0' & E0' & E0 & M0).
    unfold boundsRectangle, bbox, extrema. unfold fb, turned_curve. rewrite E1', E0', E0, E1. cbn [bind ex0 ex1].
    rewrite (minmax_signed 0 (- (1)) 1 0 false 0 1 z l1 l1' ltac:(lia) quarter_c0 M1). rewrite (minmax_signed 0 (- (1)) 1 0 true 1 0 z l0 l0' ltac:(lia) quarter_c1 M0).
    destruct (getminmax_spec z 0 l0 ltac:(lia)) as (x0 & x1 & -> & _). destruct (getminmax_spec z 1 l1 ltac:(lia)) as (y0 & y1 & -> & _).
    cbn [answer bind signed_span fst snd]. rewrite !(BR_two). unfold quarter_rect. cbn [left right top bottom].
    destruct (minmax_neg y1 y0) as [-> ->]. reflexivity.
  Qed.
  Lemma pass1_quarter z : forall ts t1, reducePass1 (fb z) t1 ts = answer (map fb) (reducePass1 z t1 ts).
  Proof.
    induction ts as [|t2 ts IH]; intros t1; cbn [reducePass1]; [reflexivity|]. unfold fb at 1, turned_curve at 1. rewrite split2curve_map.
    destruct (split2curve z t1 t2); cbn [bind answer]; [|reflexivity]. rewrite IH. now destruct (reducePass1 z t2 ts).
  Qed.
  Definition inner_quarter (r : innerResult (T := R)) : innerResult :=
    match r with RNone => RNone | RBreak t s => RBreak t (fb s) | RDone => RDone end.
  Lemma split_quarter z t1 t2 : split2curve (fb z) t1 t2 = answer fb (split2curve z t1 t2).
  Proof. apply split2curve_map. Qed.
  Lemma simple_quarter z : simple (fb z) = simple z.
  Proof. apply simple_turn, quarter_unit. Qed.
  Lemma reduceInner_quarter p1 t1 : forall fuel t2, reduceInner fuel (fb p1) t1 t2 = answer inner_quarter (reduceInner fuel p1 t1 t2).
  Proof.
    induction fuel as [|n IH]; intros t2; cbn [reduceInner]; [reflexivity|]. destruct (nleb t2 (nofZ 1)); [|reflexivity].
    rewrite split_quarter. destruct (split2curve p1 t1 t2) as [s|]; cbn [bind answer]; [|reflexivity]. rewrite simple_quarter.
    destruct (simple s) as [[|]|]; cbn [bind answer]; [apply IH| |reflexivity]. destruct (nltb _ _); [reflexivity|]. rewrite split_quarter.
    destruct (split2curve p1 t1 _) as [s'|]; cbn [bind answer]; [|reflexivity]. change (bt1 (fb p1)) with (bt1 p1). change (bt2 (fb p1)) with (bt2 p1).
    repeat (rewrite answer_bind; apply bind_ext; intros ? _). reflexivity.
  Qed.
  Definition outer_quarter (o : option (R * list (bezier R))) : option (R * list (bezier R)) := option_map (fun x => (fst x, map fb (snd x))) o.
  Lemma reduceOuter_quarter p1 : forall fuel t1 t2 acc, reduceOuter fuel (fb p1) t1 t2 (map fb acc) = answer outer_quarter (reduceOuter fuel p1 t1 t2 acc).
  Proof.
    induction fuel as [|n IH]; intros t1 t2 acc; [reflexivity|]. cbn [reduceOuter]. destruct (nleb t2 (nofZ 1)); [|reflexivity].
    rewrite reduceInner_quarter. destruct (reduceInner (S n) p1 t1 _) as [[|t s|]|]; cbn [bind answer inner_quarter]; [reflexivity| |reflexivity..].
    rewrite <- IH, map_app. reflexivity.
  Qed.
  Lemma pass2_quarter fuel : forall ps acc, reducePass2 fuel (map fb ps) (map fb acc) = answer (map fb) (reducePass2 fuel ps acc).
  Proof.
    induction ps as [|p1 ps IH]; intros acc; [reflexivity|]. cbn [map reducePass2].
    change (@nil (bezier R)) with (map fb []) at 1. rewrite reduceOuter_quarter. destruct (reduceOuter fuel p1 (nofZ 0) (nofZ 0) []) as [[[t l]|]|]; cbn [bind answer outer_quarter option_map fst snd]; [|reflexivity..].
    destruct (nltb t (nofZ 1)); cbn [bind].
    - rewrite split_quarter. destruct (split2curve p1 t (nofZ 1)) as [s|]; cbn [bind answer]; [|reflexivity]. change (bt1 (fb p1)) with (bt1 p1). change (bt2 (fb p1)) with (bt2 p1).
      destruct (bmap t (nofZ 0) (nofZ 1) (bt1 p1) (bt2 p1)) as [x|]; cbn [bind answer]; [|reflexivity]. rewrite <- IH, !map_app. reflexivity.
    - rewrite <- IH, !map_app. reflexivity.
  Qed.
  Lemma extrema_quarter z : (2 <= length (cps z) <= 4)%nat -> answer ex2 (extrema (fb z)) = answer ex2 (extrema z).
  Proof.
    intros L. unfold fb, turned_curve. apply (extrema_signed rnd 0 (- (1)) 1 0 false true 1 0 z L); [lia|exact quarter_c0|exact quarter_c1].
  Qed.
  Lemma reduce_ex2 fuel z : reduce fuel z = bind (answer ex2 (extrema z)) (fun e => bind (idx (addEnds e) 0) (fun t0 => bind (reducePass1 z t0 (tl (addEnds e))) (fun l => reducePass2 fuel l []))).
  Proof. unfold reduce. now destruct (extrema z). Qed.
  Theorem reduce_quarter fuel z : (2 <= length (cps z) <= 4)%nat -> reduce fuel (fb z) = answer (map fb) (reduce fuel z).
  Proof.
    intros L. rewrite !reduce_ex2. rewrite extrema_quarter by exact L. rewrite answer_bind. apply bind_ext. intros e _. rewrite answer_bind. apply bind_ext. intros t0 _.
    rewrite pass1_quarter, bind_answer, answer_bind. apply bind_ext. intros l _. exact (pass2_quarter fuel l []).
  Qed.
  (** ** Intersections *)
  Definition fine (z : bezier R) : Prop := (length (cps z) = 3 \/ length (cps z) = 4)%nat.
  Lemma fine_box z : fine z -> boundsRectangle (fb z) = answer quarter_rect (boundsRectangle z).
  Proof. intros F. apply box_quarter. destruct F; lia. Qed.
  Lemma fine_halves z : fine z -> exists l r, split1 z (1 / 2) = Ok (l, r, hull z (1 / 2)) /\ fine l /\ fine r.
  Proof.
    intros G. destruct (subc_split z z 0 1 (subc_self z G)) as (l & r & E & Sl & Sr). exists l, r. split; [exact E|].
    destruct Sl as (_ & Ll & _), Sr as (_ & Lr & _). unfold fine in *. now rewrite Ll, Lr.
  Qed.
  Lemma tiles_fine o : (length o = 3 \/ length o = 4)%nat -> forall l a z, tiles o a z l -> List.Forall fine l.
  Proof.
    intros G. induction l as [|s l IH]; intros a z T; cbn [tiles] in T; [constructor|].
    destruct T as (E1 & E2 & Ls & C & T). constructor; [unfold fine; now rewrite Ls|eapply IH, T].
  Qed.
  Lemma fine_reduce fuel z l : fine z -> (102 <= fuel)%nat -> reduce fuel z = Ok l -> List.Forall fine l.
  Proof.
    intros G F E. destruct (reduce_spec' rnd z fuel G F) as [[E' _]|(l' & E' & [->|[T _]])]; rewrite E in E'; [discriminate| |].
    - injection E' as ->. constructor.
    - injection E' as <-. eapply tiles_fine; [exact G|exact T].
  Qed.
  Lemma pmin_neg x y : @pmin R _ (- x) (- y) = - pmax x y.
  Proof. unfold pmin, pmax. numRg. destruct (Rltb_spec (- y) (- x)), (Rltb_spec x y); lra. Qed.
  Lemma pmax_neg x y : @pmax R _ (- x) (- y) = - pmin x y.
  Proof. unfold pmin, pmax. numRg. destruct (Rltb_spec (- x) (- y)), (Rltb_spec y x); lra. Qed.
  Lemma Rltb_neg x y : Rltb (- x) (- y) = Rltb y x.
  Proof. destruct (Rltb_spec (- x) (- y)), (Rltb_spec y x); auto; lra. Qed.
  Lemma overlaps_quarter x y : fine x -> fine y -> overlaps (fb x) (fb y) = overlaps x y.
  Proof.
    intros A B. unfold overlaps. rewrite (fine_box x A), (fine_box y B), bind_answer. apply bind_ext. intros r1 _. rewrite bind_answer. apply bind_ext. intros r2 _.
    f_equal. unfold intersection, quarter_rect. cbn [left right top bottom]. rewrite pmin_neg, pmax_neg. numRg. rewrite Rltb_neg. rewrite orb_comm.
    now destruct (_ || _).
  Qed.
  Definition both_quarter (pr : bezier R * bezier R) : bezier R * bezier R := (fb (fst pr), fb (snd pr)).
  Lemma pair_quarter th : forall fuel c1 c2, fine c1 -> fine c2 -> pairiteration fuel th (fb c1) (fb c2) = pairiteration fuel th c1 c2.
  Proof.
    induction fuel as [|n IH]; intros c1 c2 G1 G2; [reflexivity|]. cbn [pairiteration]. rewrite (fine_box c1 G1), (fine_box c2 G2), bind_answer.
    apply bind_ext. intros r1 _. rewrite bind_answer. apply bind_ext. intros r2 _.
    assert (S : forall r : rect R, nadd (height (quarter_rect r)) (width (quarter_rect r)) = nadd (height r) (width r)).
    { intros r. unfold height, width, quarter_rect. cbn [left right top bottom]. numRg. ring. }
    rewrite !S. destruct (_ && _)%bool; [reflexivity|].
    change (nlit 1 2) with (1 / 2). unfold fb at 1 2, turned_curve. rewrite !split1_map.
    destruct (fine_halves c1 G1) as (l1 & q1 & E1 & Gl1 & Gr1). destruct (fine_halves c2 G2) as (l2 & q2 & E2 & Gl2 & Gr2).
    rewrite E1, E2. cbn [answer bind pieces_map].
    change (mapped_curve 0 (- (1)) 1 0 (0, 0)) with fb.
    change [(fb l1, fb l2); (fb l1, fb q2); (fb q1, fb q2); (fb q1, fb l2)] with (map both_quarter [(l1, l2); (l1, q2); (q1, q2); (q1, l2)]).
    assert (G : forall x, In x [(l1, l2); (l1, q2); (q1, q2); (q1, l2)] -> fine (fst x) /\ fine (snd x)).
    { intros x [<-|[<-|[<-|[<-|[]]]]]; cbn [fst snd]; auto. }
    rewrite (filterM_answer both_quarter (fun pr => overlaps (fst pr) (snd pr))) by (intros x Ha; apply overlaps_quarter; apply G in Ha; tauto).
    destruct (filterM _ [(l1, l2); (l1, q2); (q1, q2); (q1, l2)]) as [ps|] eqn:Ef; cbn [answer bind]; [|reflexivity]. rewrite map_length.
    destruct (Nat.eqb (length ps) 0); [reflexivity|].
    rewrite (mapM_answer both_quarter (fun x => x) (fun pr => pairiteration n th (fst pr) (snd pr))).
    - rewrite (answer_ext _ (fun x => x)) by apply map_id. now rewrite answer_id.
    - intros x Ha. rewrite answer_id. apply (filterM_Ok _ _ _ Ef x) in Ha. destruct Ha as [Ha _]. apply G in Ha. apply IH; tauto.
  Qed.
  Lemma prod_quarter : forall c1 c2, list_prod (map fb c1) (map fb c2) = map both_quarter (list_prod c1 c2).
  Proof.
    induction c1 as [|x c1 IH]; intros c2; cbn [map list_prod]; [reflexivity|]. rewrite map_app, IH. f_equal. rewrite !map_map. reflexivity.
  Qed.
  Lemma curveIntersects_quarter fuel th c1 c2 : List.Forall fine c1 -> List.Forall fine c2 ->
    curveIntersects fuel th (map fb c1) (map fb c2) = curveIntersects fuel th c1 c2.
  Proof.
    intros F1 F2. rewrite List.Forall_forall in F1, F2. unfold curveIntersects. rewrite prod_quarter.
    assert (G : forall x, In x (list_prod c1 c2) -> fine (fst x) /\ fine (snd x)).
    { intros [x y] H. apply in_prod_iff in H. cbn [fst snd]. split; [apply F1|apply F2]; tauto. }
    rewrite (filterM_answer both_quarter (fun pr => overlaps (fst pr) (snd pr))) by (intros x Ha; apply overlaps_quarter; apply G in Ha; tauto).
    destruct (filterM _ (list_prod c1 c2)) as [ps|] eqn:Ef; cbn [answer bind]; [|reflexivity].
    rewrite (mapM_answer both_quarter (fun x => x) (fun pr => pairiteration fuel th (fst pr) (snd pr))).
    - rewrite (answer_ext _ (fun x => x)) by apply map_id. now rewrite answer_id.
    - intros x Ha. rewrite answer_id. apply (filterM_Ok _ _ _ Ef x) in Ha. destruct Ha as [Ha _]. apply G in Ha. apply pair_quarter; tauto.
  Qed.
  Theorem intersects_quarter rf n z oc th : (102 <= rf)%nat -> fine z -> (forall y, oc = Some y -> fine y) ->
    intersects rf n (fb z) (option_map fb oc) th = intersects rf n z oc th.
  Proof.
    intros F G Gc. assert (W : forall y, fine y -> (2 <= length (cps y) <= 4)%nat) by (intros y [Y|Y]; lia). unfold intersects. destruct oc as [y|]; cbn [option_map].
    - rewrite !reduce_quarter by auto. rewrite bind_answer. apply bind_ext. intros l1 E1. rewrite bind_answer. apply bind_ext. intros l2 E2.
      apply curveIntersects_quarter; [exact (fine_reduce rf z l1 G F E1)|exact (fine_reduce rf y l2 (Gc y eq_refl) F E2)].
    - unfold selfIntersects. rewrite reduce_quarter by auto. rewrite bind_answer. apply bind_ext. intros l E.
      pose proof (fine_reduce rf z l G F E) as Gl. rewrite map_length. f_equal. apply mapM_same. intros i _.
      rewrite !skipn_map, firstn_map. apply curveIntersects_quarter; [apply Forall_first, Forall_skip, Gl|apply Forall_skip, Gl].
  Qed.
  (** ** Contours and outlines *)
  Lemma union_quarter r s : union (quarter_rect r) (quarter_rect s) = quarter_rect (union r s).
  Proof.
    unfold union, quarter_rect. cbn [left right top bottom]. rewrite pmin_neg, pmax_neg, !BR_two. cbn [left right top bottom].
    match goal with |- mkRect (Rmin (Rmin 32768 (- ?x)) (- ?y)) _ _ _ = _ => destruct (minmax_neg x y) as [-> ->] end. reflexivity.
  Qed.
  Lemma empty_quarter : quarter_rect (BoundsRectangle []) = BoundsRectangle (T := R) [].
  Proof. unfold quarter_rect, BoundsRectangle, emptyRect. cbn [fold_left left right top bottom]. numRg. f_equal; lra. Qed.
  Definition addSegQ (st : list (bezier R) * rect R) seg : res (list (bezier R) * rect R) :=
    let* z := newBezier seg in let* r := boundsRectangle z in Ok (fst st ++ [z], union (snd st) r).
  Lemma addSeg_step st s : (2 <= length s <= 4)%nat -> addSegQ (map fb (fst st), quarter_rect (snd st)) (map f s) = answer (fun x => (map fb (fst x), quarter_rect (snd x))) (addSegQ st s).
  Proof.
    intros L. unfold addSegQ. unfold f, turned. change (map (fun p => mapped 0 (- (1)) 1 0 (0, 0) p)) with (map (mapped 0 (- (1)) 1 0 (0, 0))). rewrite new_map.
    assert (E : newBezier s = Ok (mkBez s 0 1)) by (rewrite newBezier_ok by apply (proj1 L); numRg; reflexivity). rewrite E. cbn [bind answer]. change (mapped_curve 0 (- (1)) 1 0 (0, 0)) with fb.
    rewrite box_quarter by exact L. rewrite bind_answer, answer_bind. apply bind_ext. intros r _. cbn [answer fst snd]. now rewrite union_quarter, map_app.
  Qed.
  Lemma addSegs_quarter : forall c st, (forall s, In s c -> (2 <= length s <= 4)%nat) ->
    foldM addSegQ (map (map f) c) (map fb (fst st), quarter_rect (snd st)) = answer (fun x => (map fb (fst x), quarter_rect (snd x))) (foldM addSegQ c st).
  Proof.
    induction c as [|s c IH]; intros st F; cbn [foldM map]; [reflexivity|]. rewrite addSeg_step by (apply F; now left). destruct (addSegQ st s) as [st'|]; cbn [bind answer]; [|reflexivity].
    apply IH. intros x X. apply F. now right.
  Qed.
  Lemma ends_quarter bs : contourEnds (map fb bs) = answer (fun x => (f (fst x), f (snd x))) (contourEnds bs).
  Proof.
    unfold contourEnds, bstart, bend. rewrite idx_answer, bind_answer, answer_bind. apply bind_ext. intros x _. unfold fb at 1, turned_curve at 1, mapped_curve at 1. cbn [cps].
    rewrite idx_answer, bind_answer, answer_bind. apply bind_ext. intros y _. rewrite idx_last_answer, bind_answer, answer_bind. apply bind_ext. intros l _.
    unfold fb, turned_curve, mapped_curve. cbn [cps]. rewrite idx_last_answer, bind_answer, answer_bind. apply bind_ext. reflexivity.
  Qed.
  Theorem newContour_quarter c : (forall s, In s c -> (2 <= length s <= 4)%nat) -> newContour (map (map f) c) = answer quarter_contour (newContour c).
  Proof.
    intros F. unfold newContour. change (foldM _ ?x ?y) with (foldM addSegQ x y). pose proof (addSegs_quarter c ([], BoundsRectangle []) F) as A. cbn [map fst snd] in A. rewrite empty_quarter in A.
    rewrite A, bind_answer, answer_bind. apply bind_ext. intros [bs r] _. cbn [fst snd]. rewrite ends_quarter, bind_answer, answer_bind. apply bind_ext. intros [x y] _. reflexivity.
  Qed.
  Theorem newOutline_quarter cs : (forall c s, In c cs -> In s c -> (2 <= length s <= 4)%nat) -> newOutline (map (map (map f)) cs) = answer quarter_outline (newOutline cs).
  Proof.
    unfold newOutline. 
    assert (G : forall cs bs r, (forall c s, In c cs -> In s c -> (2 <= length s <= 4)%nat) ->
      foldM (fun st c => let* bc := newContour c in Ok (fst st ++ [bc], union (snd st) (c_bounds bc))) (map (map (map f)) cs) (map quarter_contour bs, quarter_rect r) =
      answer (fun x => (map quarter_contour (fst x), quarter_rect (snd x))) (foldM (fun st c => let* bc := newContour c in Ok (fst st ++ [bc], union (snd st) (c_bounds bc))) cs (bs, r))).
    { clear cs. induction cs as [|c cs IH]; intros bs r F; cbn [foldM map]; [reflexivity|]. rewrite newContour_quarter by (intros s; apply F; now left).
      destruct (newContour c) as [bc|]; cbn [bind answer fst snd]; [|reflexivity]. change (c_bounds (quarter_contour bc)) with (quarter_rect (c_bounds bc)). rewrite union_quarter.
      change [quarter_contour bc] with (map quarter_contour [bc]). rewrite <- map_app. apply IH. intros x s X. apply F. now right. }
    intros F. specialize (G cs [] (BoundsRectangle []) F). cbn [map] in G. rewrite empty_quarter in G. rewrite G, bind_answer, answer_bind. apply bind_ext. intros [bs r] _. reflexivity.
  Qed.
End Quarter.
(** ** Turning over *)
Section Flip.
  Context (rnd : R -> R).
  #[local] Hint Extern 0 (TrigOps R) => exact (RTrig rnd) : typeclass_instances.
  Let f : pt -> pt := flipped.
  Let fb : bezier R -> bezier R := flipped_curve.
  Lemma flip_point p : f p = (fst p, - snd p).
  Proof. unfold f, flipped, mapped. cbn [fst snd]. f_equal; ring. Qed.
  Lemma flip_c0 p : coord 0 (f p) = signed true (coord 0 p).
  Proof. rewrite flip_point. reflexivity. Qed.
  Lemma flip_c1 p : coord 1 (f p) = signed false (coord 1 p).
  Proof. rewrite flip_point. reflexivity. Qed.
  Theorem box_flip z : (2 <= length (cps z) <= 4)%nat -> boundsRectangle (fb z) = answer flipped_rect (boundsRectangle z).
  Proof.
    intros L. destruct (extremaDim_signed rnd 1 0 0 (-1) true 0 0 z L flip_c0) as (l0 & l0' & E0' & E0 & M0).
    destruct (extremaDim_signed rnd 1 0 0 (-1) false 1 1 z L flip_c1) as (l1 & l1' & E1' & E1 & M1).
    unfold boundsRectangle, bbox, extrema. unfold fb, flipped_curve. rewrite E1', E0', E0, E1. cbn [bind ex0 ex1].
    rewrite (minmax_signed 1 0 0 (-1) true 0 0 z l0 l0' ltac:(lia) flip_c0 M0). rewrite (minmax_signed 1 0 0 (-1) false 1 1 z l1 l1' ltac:(lia) flip_c1 M1).
    destruct (getminmax_spec z 0 l0 ltac:(lia)) as (x0 & x1 & -> & _). destruct (getminmax_spec z 1 l1 ltac:(lia)) as (y0 & y1 & -> & _).
    cbn [answer bind signed_span fst snd]. rewrite !(BR_two). unfold flipped_rect. cbn [left right top bottom].
    destruct (minmax_neg y1 y0) as [-> ->]. reflexivity.
  Qed.
  Theorem extrema_flip z : (2 <= length (cps z) <= 4)%nat -> answer ex2 (extrema (fb z)) = answer ex2 (extrema z).
  Proof.
    intros L. destruct (extremaDim_signed rnd 1 0 0 (-1) true 0 0 z L flip_c0) as (l0 & l0' & E0' & E0 & M0).
    destruct (extremaDim_signed rnd 1 0 0 (-1) false 1 1 z L flip_c1) as (l1 & l1' & E1' & E1 & M1).
    unfold extrema. unfold fb, flipped_curve. rewrite E0', E1', E0, E1. cbn [bind answer ex2]. f_equal. apply dedup_unique. intros t. now rewrite !in_app_iff, !sorted_In, M0, M1.
  Qed.
  Lemma tangent_flip z t : tangent (fb z) t = answer f (tangent z t).
  Proof.
    unfold tangent, fb, flipped_curve. rewrite derivative_map, bind_answer, answer_bind. apply bind_ext. intros [x y] _. change (mapped 1 0 0 (-1) (0, 0)) with f. rewrite flip_point. unfold ndiv. numRg. cbn [fst snd].
    replace (x * x + - y * - y) with (x * x + y * y) by ring. destruct (Reqb_spec (sqrt (x * x + y * y)) 0) as [E|E]; cbn [bind answer]; [reflexivity|]. rewrite flip_point. cbn [fst snd].
    refine (f_equal2 (fun x y => Ok (x, y)) _ _); field; exact E.
  Qed.
  Lemma normal_flip z t : normal (fb z) t = answer (fun n => (- fst n, snd n)) (normal z t).
  Proof.
    unfold normal, fb, flipped_curve. rewrite derivative_map, bind_answer, answer_bind. apply bind_ext. intros [x y] _. change (mapped 1 0 0 (-1) (0, 0)) with f. rewrite flip_point. numRg. cbn [fst snd].
    replace (x * x + - y * - y) with (x * x + y * y) by ring. destruct (bsqrt (x * x + y * y)) as [q|]; [|reflexivity]. unfold ndiv. numRg.
    destruct (Reqb_spec q 0) as [E|E]; cbn [bind answer]; [reflexivity|]. refine (f_equal2 (fun x y => Ok (x, y)) _ _); cbn [fst snd]; field; exact E.
  Qed.
  Lemma angle_flip o p q : ~ right_behind o p q -> angle (f o) (f p) (f q) = - angle o p q.
  Proof.
    intros B. rewrite !angle_at. rewrite !flip_point. unfold vcross, vdot, vsub. cbn [fst snd]. rewrite <- atan2_opp.
    - f_equal; ring.
    - intros C. destruct (Rle_lt_dec 0 (vdot (vsub p o) (vsub q o))) as [K|K]; [exact K|]. contradiction B. split; [exact C|exact K].
  Qed.
  Lemma simple_flip z : (forall p0 p1 p2 p3, cps z = [p0; p1; p2; p3] -> ~ right_behind p0 p3 p1 /\ ~ right_behind p0 p3 p2) -> simple (fb z) = simple z.
  Proof.
    intros B. unfold simple. rewrite !normal_flip. unfold fb at 1, flipped_curve. rewrite order_map. change (mapped_curve 1 0 0 (-1) (0, 0)) with fb. change (cps (fb z)) with (map f (cps z)).
    assert (A : (if Nat.eqb (order z) 3 then bind (idx (map f (cps z)) 0) (fun p0 => bind (idx (map f (cps z)) 1) (fun p1 => bind (idx (map f (cps z)) 2) (fun p2 => bind (idx (map f (cps z)) 3) (fun p3 =>
        Ok (((nofZ 0 <? angle p0 p3 p1)%num && (angle p0 p3 p2 <? nofZ 0)%num) || ((angle p0 p3 p1 <? nofZ 0)%num && (nofZ 0 <? angle p0 p3 p2)%num)))))) else Ok false) =
      (if Nat.eqb (order z) 3 then bind (idx (cps z) 0) (fun p0 => bind (idx (cps z) 1) (fun p1 => bind (idx (cps z) 2) (fun p2 => bind (idx (cps z) 3) (fun p3 =>
        Ok (((nofZ 0 <? angle p0 p3 p1)%num && (angle p0 p3 p2 <? nofZ 0)%num) || ((angle p0 p3 p1 <? nofZ 0)%num && (nofZ 0 <? angle p0 p3 p2)%num)))))) else Ok false)).
    { destruct (Nat.eqb (order z) 3) eqn:O; [|reflexivity]. unfold order in O. apply Nat.eqb_eq in O. destruct (cps z) as [|p0 [|p1 [|p2 [|p3 [|p4 r]]]]]; cbn [length Nat.sub] in O; try lia.
      destruct (B _ _ _ _ eq_refl) as [B1 B2]. unfold idx. cbn [map nth_error bind]. f_equal. rewrite !angle_flip by assumption. numRg.
      set (x := angle p0 p3 p1). set (y := angle p0 p3 p2). destruct (Rltb_spec 0 (- x)), (Rltb_spec (- y) 0), (Rltb_spec (- x) 0), (Rltb_spec 0 (- y)), (Rltb_spec 0 x), (Rltb_spec y 0), (Rltb_spec x 0), (Rltb_spec 0 y); cbn [andb orb]; try reflexivity; lra. }
    rewrite A. apply bind_ext. intros bad _. destruct bad; [reflexivity|]. rewrite bind_answer. apply bind_ext. intros [x1 y1] _. rewrite bind_answer. apply bind_ext. intros [x2 y2] _.
    cbn [fst snd]. assert (E : forall u w : R, u = w -> bind (pyacos u) (fun ac => Ok (nabs ac <? nquot tpi (nofZ 3))%num) = bind (pyacos w) (fun ac => Ok (nabs ac <? nquot tpi (nofZ 3))%num)) by (intros u w ->; reflexivity).
    apply E. numRg. ring.
  Qed.
  Lemma clockwise_flip p : (2 <= length p)%nat -> vcross (vsub (nth (length p - 1) p (0, 0)) (nth 0 p (0, 0))) (vsub (nth 1 p (0, 0)) (nth 0 p (0, 0))) <> 0 ->
    isClockwise (map f p) = answer negb (isClockwise p).
  Proof.
    intros L B. unfold isClockwise. rewrite !(idx_nth (map f p) _ (f (0, 0))) by (rewrite map_length; lia). rewrite !(idx_nth p _ (0, 0)) by lia. unfold idx_last. rewrite !last_error_nth, map_length.
    rewrite (nth_error_nth' (map f p) (f (0, 0))) by (rewrite map_length; lia). rewrite (nth_error_nth' p (0, 0)) by lia. cbn [bind answer]. rewrite !map_nth.
    rewrite angle_flip by (intros [C _]; exact (B C)). f_equal. set (x := nth 0 p (0, 0)) in *. set (y := nth (length p - 1) p (0, 0)) in *. set (w := nth 1 p (0, 0)) in *.
    assert (N : angle x y w <> 0).
    { rewrite angle_at. destruct (Rtotal_order (vcross (vsub y x) (vsub w x)) 0) as [C|[C|C]]; [pose proof (atan2_neg _ (vdot (vsub y x) (vsub w x)) C)|contradiction|pose proof (atan2_pos _ (vdot (vsub y x) (vsub w x)) C)]; lra. }
    numRg. destruct (Rltb_spec 0 (- angle x y w)), (Rltb_spec 0 (angle x y w)); cbn [negb]; try reflexivity; lra.
  Qed.
  Definition mirror (n : pt) : pt := (- fst n, snd n).
  Lemma offset10_flip z t : offsetPoint (fb z) t 10 = bind (offsetPoint z t 10) (fun x => let '(c, n, _) := x in Ok (f c, mirror n, (fst (f c) + fst (mirror n) * 10, snd (f c) + snd (mirror n) * 10))).
  Proof.
    unfold offsetPoint. rewrite normal_flip. unfold fb, flipped_curve. rewrite get_map. destruct (get z t) as [c|]; cbn [answer bind]; [|reflexivity]. now destruct (normal z t).
  Qed.
  Theorem offset_flip z t d : offsetPoint (fb z) t (- d) = answer (fun x => let '(c, n, p) := x in (f c, mirror n, f p)) (offsetPoint z t d).
  Proof.
    unfold offsetPoint. rewrite normal_flip. unfold fb, flipped_curve. rewrite get_map. destruct (get z t) as [[x y]|]; cbn [answer bind]; [|reflexivity]. destruct (normal z t) as [[a b]|]; cbn [answer bind]; [|reflexivity].
    change (mapped 1 0 0 (-1) (0, 0)) with f. rewrite !flip_point. cbn [fst snd mirror]. numRg. f_equal. f_equal. f_equal; ring.
  Qed.
  Lemma origin_flip c0 n0 c1 n1 :
    scaleOrigin (f c0, mirror n0, (fst (f c0) + fst (mirror n0) * 10, snd (f c0) + snd (mirror n0) * 10)) (f c1, mirror n1, (fst (f c1) + fst (mirror n1) * 10, snd (f c1) + snd (mirror n1) * 10)) =
    answer f (scaleOrigin (c0, n0, (fst c0 + fst n0 * 10, snd c0 + snd n0 * 10)) (c1, n1, (fst c1 + fst n1 * 10, snd c1 + snd n1 * 10))).
  Proof.
    destruct c0 as [x0 y0], n0 as [p0 q0], c1 as [x1 y1], n1 as [p1 q1]. rewrite !flip_point. unfold scaleOrigin, lli4, lli8, mirror. numRg. cbn [fst snd].
    set (D := 100 * (p0 * q1 - q0 * p1)).
    match goal with |- context [if Reqb ?a 0 then None else Some (?b / ?a, ?c / ?a)] => replace a with (- D) by (unfold D; ring) end.
    match goal with |- context [answer _ match (if Reqb ?a 0 then _ else _) with _ => _ end] => replace a with D by (unfold D; ring) end.
    destruct (Reqb_spec D 0) as [E|E], (Reqb_spec (- D) 0) as [E'|E']; try lra; cbn [answer]; [reflexivity|]. rewrite flip_point. unfold D in *.
    refine (f_equal2 (fun x y => Ok (x, y)) _ _); cbn [fst snd]; field; lra.
  Qed.
  Lemma inner_flip p o rc : movedInner (f p) (f o) rc = answer f (movedInner p o rc).
  Proof.
    destruct p as [x y], o as [ox oy]. rewrite !flip_point. unfold movedInner, ndiv. numRg. cbn [fst snd].
    replace (- y - - oy) with (- (y - oy)) by ring. replace (- (y - oy) * - (y - oy)) with ((y - oy) * (y - oy)) by ring.
    destruct (Reqb_spec (sqrt ((x - ox) * (x - ox) + (y - oy) * (y - oy))) 0) as [E|E]; cbn [bind answer]; [reflexivity|]. rewrite flip_point. cbn [fst snd].
    refine (f_equal2 (fun x y => Ok (x, y)) _ _); field; exact E.
  Qed.
  Lemma end_flip p n d : movedEnd (f p) (mirror n) (- d) = f (movedEnd p n d).
  Proof. destruct p, n. rewrite !flip_point. unfold movedEnd, mirror. numRg. cbn [fst snd]. f_equal; ring. Qed.
  Theorem scaleNum_flip z d : (3 <= length (cps z) <= 4)%nat -> vcross (vsub (nth (length (cps z) - 1) (cps z) (0, 0)) (nth 0 (cps z) (0, 0))) (vsub (nth 1 (cps z) (0, 0)) (nth 0 (cps z) (0, 0))) <> 0 ->
    scaleNum (fb z) (- d) = answer fb (scaleNum z d).
  Proof.
    intros L B. unfold scaleNum. cbv zeta. replace (order (fb z)) with (order z) by (symmetry; apply order_map). change (cps (fb z)) with (map f (cps z)). rewrite clockwise_flip by (lia || exact B). rewrite bind_answer, answer_bind. apply bind_ext. intros cw _.
    change (@nofZ R _ 10) with 10. rewrite !offset10_flip.
    destruct (offsetPoint z (nofZ 0) 10) as [[[c0 n0] q0]|] eqn:E0; cbn [bind answer]; [|reflexivity].
    destruct (offsetPoint z (nofZ 1) 10) as [[[c1 n1] q1]|] eqn:E1; cbn [bind answer]; [|reflexivity].
    apply offset10_form in E0, E1. cbn [fst snd] in E0, E1. subst q0 q1. rewrite origin_flip, bind_answer, answer_bind. apply bind_ext. intros o _. cbn [fst snd].
    rewrite idx_answer, bind_answer, answer_bind. apply bind_ext. intros p0 _.
    rewrite idx_answer, bind_answer, answer_bind. apply bind_ext. intros pn _. rewrite !end_flip.
    replace (if negb cw then - d else nopp (- d)) with (if cw then d else nopp d) by (numRg; destruct cw; cbn [negb]; lra).
    rewrite idx_answer, bind_answer, answer_bind. apply bind_ext. intros p1 _. rewrite inner_flip, bind_answer, answer_bind. apply bind_ext. intros m1 _.
    destruct (Nat.eqb (order z) 2); [exact (new3_map 1 0 0 (-1) (0, 0) _ _ _)|].
    rewrite idx_answer, bind_answer, answer_bind. apply bind_ext. intros p2 _. rewrite inner_flip, bind_answer, answer_bind. apply bind_ext. intros m2 _.
    destruct (Nat.eqb (order z) 3) eqn:O3; [exact (new4_map 1 0 0 (-1) (0, 0) _ _ _ _)|].
    apply Nat.eqb_neq in O3. unfold order in *. replace (length (cps z) - 1 - 3)%nat with 0%nat by lia. exact (new4_map 1 0 0 (-1) (0, 0) _ _ _ _).
  Qed.
  Theorem flip_sides z o p q d p0 p1 pn r :
    (~ right_behind o p q -> angle (f o) (f p) (f q) = - angle o p q) /\
    (cps z = p0 :: p1 :: r ++ [pn] -> (length r <= 1)%nat -> vcross (vsub pn p0) (vsub p1 p0) <> 0 ->
       isClockwise (map f (cps z)) = answer negb (isClockwise (cps z)) /\ scaleNum (fb z) (- d) = answer fb (scaleNum z d)) /\
    ((forall a b c e, cps z = [a; b; c; e] -> ~ right_behind a e b /\ ~ right_behind a e c) -> simple (fb z) = simple z).
  Proof.
    split; [apply angle_flip|]. split.
    - intros E L B. assert (N : nth (length (cps z) - 1) (cps z) (0, 0) = pn).
      { rewrite E. cbn [length]. rewrite app_length. cbn [length]. replace (S (S (length r + 1)) - 1)%nat with (S (S (length r))) by lia. cbn [nth]. now rewrite app_nth2, Nat.sub_diag by lia. }
      assert (Lz : (3 <= length (cps z) <= 4)%nat) by (rewrite E; cbn [length]; rewrite app_length; cbn [length]; lia).
      assert (C : vcross (vsub (nth (length (cps z) - 1) (cps z) (0, 0)) (nth 0 (cps z) (0, 0))) (vsub (nth 1 (cps z) (0, 0)) (nth 0 (cps z) (0, 0))) <> 0) by (rewrite N, E; exact B).
      split; [apply clockwise_flip; [lia|exact C]|apply scaleNum_flip; [exact Lz|exact C]].
    - intros H. apply simple_flip. intros a b c e E. exact (H a b c e E).
  Qed.
End Flip.
Lemma simple_sides : let z := mkBez [(0, 0); (-1, 0); (5, -3); (1, 0)] 0 1 in
  @simple R _ RPy z = Ok false /\ @simple R _ RPy (flipped_curve z) = Ok true.
Proof.
  cbv zeta. unfold RPy. set (rnd := round15).
  assert (A : forall y, @angle R _ (RTrig rnd) (0, 0) (1, 0) (5, y) = Ratan2 y 5).
  { intros y. rewrite angle_at. unfold vcross, vdot, vsub. cbn [fst snd]. f_equal; ring. }
  assert (P : 0 < @angle R _ (RTrig rnd) (0, 0) (1, 0) (-1, 0)).
  { rewrite angle_at. unfold vcross, vdot, vsub. cbn [fst snd]. replace ((1 - 0) * (0 - 0) - (0 - 0) * (-1 - 0)) with 0 by ring. replace ((1 - 0) * (-1 - 0) + (0 - 0) * (0 - 0)) with (-1) by ring.
    unfold Ratan2. destruct (Rlt_dec 0 (-1)); [lra|]. destruct (Rlt_dec (-1) 0); [|lra]. destruct (Rle_dec 0 0); [|lra]. unfold Rdiv. rewrite Rmult_0_l, atan_0. pose proof PI_RGT_0. lra. }
  split.
  - unfold simple, order, idx. cbn [cps length Nat.sub Nat.eqb nth_error bind]. rewrite A. pose proof (atan2_neg (-3) 5 ltac:(lra)) as N. numR.
    rewrite (proj2 (Rltb_true 0 _) P), (proj2 (Rltb_true _ 0) N). reflexivity.
  - unfold flipped_curve, mapped_curve, mapped. cbn [map cps fst snd bt1 bt2].
    replace (1 * 0 + 0 * 0 + 0, 0 * 0 + -1 * 0 + 0) with (0, 0) by (f_equal; ring). replace (1 * -1 + 0 * 0 + 0, 0 * -1 + -1 * 0 + 0) with (-1, 0) by (f_equal; ring).
    replace (1 * 5 + 0 * -3 + 0, 0 * 5 + -1 * -3 + 0) with (5, 3) by (f_equal; ring). replace (1 * 1 + 0 * 0 + 0, 0 * 1 + -1 * 0 + 0) with (1, 0) by (f_equal; ring).
    pose proof (atan2_pos 3 5 ltac:(lra)) as N. 
    set (z := mkBez [(0, 0); (-1, 0); (5, 3); (1, 0)] 0 1).
    assert (D0 : derivative z 0 = Ok (-3, 0)).
    { unfold derivative, dcPoints, order, z. cbn. numRg. refine (f_equal2 (fun x y => Ok (x, y)) _ _); ring. }
    assert (D1 : derivative z 1 = Ok (-12, -9)).
    { unfold derivative, dcPoints, order, z. cbn. numRg. refine (f_equal2 (fun x y => Ok (x, y)) _ _); ring. }
    destruct (normal_of rnd z 0 _ D0) as [_ N0]; [intros [= E]; lra|]. destruct (normal_of rnd z 1 _ D1) as [_ N1]; [intros [= E _]; lra|]. cbn [fst snd] in N0, N1.
    replace (-3 * -3 + 0 * 0) with (3 * 3) in N0 by ring. replace (-12 * -12 + -9 * -9) with (15 * 15) in N1 by ring. rewrite sqrt_square in N0, N1 by lra.
    unfold simple. change (@nofZ R _ 0) with 0 in *. change (@nofZ R _ 1) with 1. rewrite N0, N1. unfold order, idx, z. cbn [cps length Nat.sub Nat.eqb nth_error bind]. rewrite A. numRg.
    rewrite (proj2 (Rltb_true 0 _) P), (proj2 (Rltb_false (Ratan2 3 5) 0)), (proj2 (Rltb_false _ 0)) by lra. cbn [andb orb fst snd]. unfold pyacos. numRg.
    replace (- 0 / 3 * (- -9 / 15) + -3 / 3 * (-12 / 15)) with (4 / 5) by field. rewrite (proj2 (Rltb_false (4 / 5) (-1))), (proj2 (Rltb_false 1 (4 / 5))) by lra. cbn [orb bind]. f_equal. apply acos_third; lra.
Qed.
