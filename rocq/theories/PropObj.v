(** Properties C58-C60, C63 and C64: the lookup table, the memo fields and the length of a curve
    object (Bezier.py 215-284, 318-422).
    [bhistory (p, fresh b) qs] is the state of a new object for [b], in a thread with decimal precision [p],
    after the queries [qs]; [bstep] is one more query. *)
From Coq Require Import List ZArith Bool Reals Lra Lia.
From Verif Require Import Py Inst InstFloat SpecGeom SpecOrder SpecBezier SpecCurve SpecObj MTransform MBounds MBezUtil MBezier MBezierObj
  ProofBounds ProofBezier ProofObj ProofLength ProofLut.
Import ListNotations.
Local Open Scope R_scope.
#[local] Existing Instance RPy.

(** ** C58 *)
Theorem C58_getLUT (b : bezier R) (p s : Z) (qs : list (bquery R)) : (1 <= length (cps b))%nat -> (2 <= s)%Z ->
  exists l, snd (bstep (bhistory (p, fresh b) qs) (QLut s)) = ALut (Ok l) /\ length l = Z.to_nat s /\
    (forall i, (i < Z.to_nat s)%nat -> get b (INR i / IZR (s - 1)) = Ok (nth i l (0, 0))) /\
    hd (0, 0) l = hd (0, 0) (cps b) /\ last l (0, 0) = last (cps b) (0, 0).
Proof.
  intros L S. destruct (sample_spec b s L S) as (l & E & K). exists l. split; [|exact K].
  rewrite (answers_pure _ R_order b p qs (QLut s) _ eq_refl). f_equal. exact E.
Qed.
Print Assumptions C58_getLUT.
Theorem C58_one_step_raises (b : bezier R) (p : Z) (qs : list (bquery R)) :
  snd (bstep (bhistory (p, fresh b) qs) (QLut 1)) = ALut (Err ZeroDivisionError).
Proof. rewrite (answers_pure _ R_order b p qs (QLut 1) _ eq_refl). f_equal. exact (sample_one b). Qed.
Print Assumptions C58_one_step_raises.
Theorem C58_no_steps (b : bezier R) (p s : Z) (qs : list (bquery R)) : (s <= 0)%Z ->
  snd (bstep (bhistory (p, fresh b) qs) (QLut s)) = ALut (Ok []).
Proof. intros S. rewrite (answers_pure _ R_order b p qs (QLut s) _ eq_refl). f_equal. exact (sample_none b s S). Qed.
Print Assumptions C58_no_steps.
(** Three samples of a parabola after a history that filled the table with five. *)
Example C58_case : snd (bstep (bhistory (28%Z, fresh (mkBez [(0, 0); (1, 2); (2, 0)] 0 1)) [QLut 5; QLut 1; QBbox]) (QLut 3)) = ALut (Ok [(0, 0); (1, 1); (2, 0)]).
Proof.
  rewrite (answers_pure _ R_order _ _ _ (QLut 3) _ eq_refl). f_equal.
  etransitivity; [apply sample_ok; simpl; lia|]. change (Z.to_nat 3) with 3%nat. change (3 - 1)%Z with 2%Z. cbn [seq map cps]. rewrite !curve3. cbn [fst snd INR].
  repeat f_equal; field.
Qed.

(** ** C59 *)
(** For every number type with a total order on the values at hand (reals, rationals, floats). *)
Theorem C59_history_independent {T : Type} {N : NumOps T} {Tr : TrigOps T} (D : T -> Prop) (O : TotalOrder D)
  (b : bezier T) (p : Z) (qs : list (bquery T)) (q : bquery T) (a : banswer T) :
  pure_answer b q = Some a -> snd (bstep (bhistory (p, fresh b) qs) q) = a.
Proof. exact (answers_pure D O b p qs q a). Qed.
Print Assumptions C59_history_independent.
Theorem C59_floats {Tr : TrigOps b64} (b : bezier b64) (p : Z) (qs : list (bquery b64)) (steps : Z) (fuel : nat) :
  let w := bhistory (p, fresh b) qs in
  snd (bstep w QBbox) = ABbox (bbox b) /\ snd (bstep w QBounds) = ABounds (boundsRectangle b) /\ snd (bstep w QDcPoints) = ADcPoints (dcPoints b) /\
  snd (bstep w (QLut steps)) = ALut (sampleLUT b steps) /\ snd (bstep w (QReduce fuel)) = AReduce (reduce fuel b).
Proof. intros w. 
  split; [exact (answers_pure _ float_order b p qs QBbox _ eq_refl)|].
  split; [exact (answers_pure _ float_order b p qs QBounds _ eq_refl)|].
  split; [exact (answers_pure _ float_order b p qs QDcPoints _ eq_refl)|].
  split; [exact (answers_pure _ float_order b p qs (QLut steps) _ eq_refl)|].
  exact (answers_pure _ float_order b p qs (QReduce fuel) _ eq_refl).
 Qed.
Print Assumptions C59_floats.
Example C59_case : pure_answer (mkBez [(0, 0); (1, 1)] 0 1) QBbox = Some (ABbox (bbox (mkBez [(0, 0); (1, 1)] 0 1))).
Proof. reflexivity. Qed.

(** ** C60 *)
(** Violated: for a line extrema is empty, but after bbox it contains 0 and 1. *)
Theorem C60_extrema_refuted : exists b : bezier R, forall p,
  snd (bstep (bhistory (p, fresh b) []) QExtrema) = AExtrema (Ok (mkExt [] [] [])) /\
  snd (bstep (bhistory (p, fresh b) [QBbox]) QExtrema) = AExtrema (Ok (mkExt [0; 1] [0; 1] [])) /\
  snd (bstep (bhistory (p, fresh b) [QReduce 0]) QExtrema) = AExtrema (Ok (mkExt [] [] [0; 1])).
Proof. exact line_extrema. Qed.
Print Assumptions C60_extrema_refuted.
(** The damage is limited to an added leading 0 and trailing 1... *)
Theorem C60_only_ends_added_partial {T : Type} {N : NumOps T} {Tr : TrigOps T} (D : T -> Prop) (O : TotalOrder D)
  (b : bezier T) (p : Z) (qs : list (bquery T)) :
  match snd (bstep (bhistory (p, fresh b) qs) QExtrema) with
  | AExtrema (Ok e) => exists e0, extrema b = Ok e0 /\ same_but_ends (ex0 e0) (ex0 e) /\ same_but_ends (ex1 e0) (ex1 e) /\ same_but_ends (ex2 e0) (ex2 e)
  | AExtrema (Err x) => extrema b = Err x
  | _ => False
  end.
Proof. exact (extrema_up_to_ends D O b p qs). Qed.
Print Assumptions C60_only_ends_added_partial.
(** ...and there is none before the first bbox, boundsRectangle or reduce. *)
Theorem C60_other_queries_partial {T : Type} {N : NumOps T} {Tr : TrigOps T} (D : T -> Prop) (O : TotalOrder D)
  (b : bezier T) (p : Z) (qs : list (bquery T)) : (forall q, In q qs -> reads_only q) ->
  snd (bstep (bhistory (p, fresh b) qs) QExtrema) = AExtrema (extrema b).
Proof. exact (extrema_plain D O b p qs). Qed.
Print Assumptions C60_other_queries_partial.
Example C60_case : forall q : bquery R, In q [QLut 7; QLength; QExtrema] -> reads_only q.
Proof. intros q [<-|[<-|[<-|[]]]]; exact Logic.I. Qed.

(** ** C63 *)
Theorem C63_length_nonneg (b : bezier R) : (length (cps b) = 3 \/ length (cps b) = 4)%nat -> exists l, quadrature b = Ok l /\ 0 <= l.
Proof. exact (length_nonneg round15 b). Qed.
Print Assumptions C63_length_nonneg.
(** Rotation by [a], scaling by [k] and translation by [v] multiply the length by |k|. *)
Theorem C63_length_similar (b c : bezier R) (a k : R) (v : pt) : (length (cps b) = 3 \/ length (cps b) = 4)%nat ->
  cps c = map (fun q => vadd v (vscale k (rot a q))) (cps b) ->
  exists l, quadrature b = Ok l /\ quadrature c = Ok (Rabs k * l).
Proof. exact (length_similar round15 b c a k v). Qed.
Print Assumptions C63_length_similar.
(** Between the chord and the control polygon, up to 10^-36 of the control polygon. *)
Theorem C63_length_at_most_polygon (b : bezier R) (l : R) : (length (cps b) = 3 \/ length (cps b) = 4)%nat -> quadrature b = Ok l ->
  l <= polygon_length (cps b) * (1 + / IZR (10 ^ 36)).
Proof. exact (length_polygon round15 b l). Qed.
Print Assumptions C63_length_at_most_polygon.
Theorem C63_length_at_least_chord (b : bezier R) (l : R) (p0 pn : pt) : (length (cps b) = 3 \/ length (cps b) = 4)%nat -> quadrature b = Ok l ->
  hd_error (cps b) = Some p0 -> last (cps b) (0, 0) = pn ->
  vdist p0 pn - polygon_length (cps b) * / IZR (10 ^ 36) <= l.
Proof. exact (length_chord round15 b l p0 pn). Qed.
Print Assumptions C63_length_at_least_chord.
Theorem C63_length_of_a_straight_curve (b : bezier R) (l : R) (p0 pn : pt) : (length (cps b) = 3 \/ length (cps b) = 4)%nat -> quadrature b = Ok l ->
  (forall i, (i < length (cps b))%nat -> nth i (cps b) (0, 0) = along p0 pn (INR i / INR (length (cps b) - 1))) ->
  Rabs (l - vdist p0 pn) <= / IZR (10 ^ 36) * vdist p0 pn.
Proof. exact (length_straight round15 b l p0 pn). Qed.
Print Assumptions C63_length_of_a_straight_curve.
Theorem C63_line_raises (b : bezier R) : length (cps b) = 2%nat -> quadrature b = Err IndexError.
Proof. exact (quadrature_line round15 b). Qed.
Print Assumptions C63_line_raises.
(** The answer of the length property is that sum, after any history. *)
Theorem C63_length_query (b : bezier R) (p : Z) (qs : list (bquery R)) :
  snd (bstep (bhistory (p, fresh b) qs) QLength) = ALength (quadrature b).
Proof. exact (answers_pure _ R_order b p qs QLength _ eq_refl). Qed.
Print Assumptions C63_length_query.
(** The straight cubic from (0,0) to (6,8) is ten long. *)
Example C63_case : exists l, quadrature (mkBez [(0, 0); (2, 8 / 3); (4, 16 / 3); (6, 8)] 0 1) = Ok l /\ Rabs (l - 10) <= / IZR (10 ^ 36) * 10.
Proof.
  destruct (C63_length_nonneg (mkBez [(0, 0); (2, 8 / 3); (4, 16 / 3); (6, 8)] 0 1) (or_intror eq_refl)) as (l & E & _).
  exists l. split; [exact E|].
  assert (V : vdist (0, 0) (6, 8) = 10). { unfold vdist, dist2. cbn [fst snd]. replace ((0 - 6) ^ 2 + (0 - 8) ^ 2) with (10 * 10) by ring. apply sqrt_square. lra. }
  rewrite <- V. refine (C63_length_of_a_straight_curve _ l (0, 0) (6, 8) _ E _); [right; reflexivity|]. cbn [cps length Nat.sub].
  intros i I. destruct i as [|[|[|[|i]]]]; [| | | |lia]; cbn [nth]; unfold along, vadd, vscale, vsub; cbn [fst snd INR]; f_equal; field.
Qed.

(** ** C64 *)
(** Violated: on a line the property raises and leaves the precision two higher, each time. *)
Theorem C64_length_refuted (b : bezier R) (p : Z) : length (cps b) = 2%nat ->
  let w := bhistory (p, fresh b) [QLength] in
  snd (bstep (p, fresh b) QLength) = ALength (Err IndexError) /\ fst w = (p + 2)%Z /\ fst (bhistory w [QLength]) = (p + 4)%Z.
Proof. exact (line_leaks b p). Qed.
Print Assumptions C64_length_refuted.
Example C64_case : length (cps (mkBez [(0, 0); (1, 1)] 0 1)) = 2%nat.
Proof. reflexivity. Qed.
(** Quadratic and cubic curves keep it, through any history. *)
Theorem C64_precision_kept_partial (b : bezier R) (p : Z) (qs : list (bquery R)) : (length (cps b) = 3 \/ length (cps b) = 4)%nat ->
  fst (bhistory (p, fresh b) qs) = p.
Proof. exact (precision_kept b p qs). Qed.
Print Assumptions C64_precision_kept_partial.
