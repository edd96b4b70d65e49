(** Property C140: when control points are edited everything computed from them follows. *)
From Coq Require Import List ZArith Bool Reals Lra Lia.
From Verif Require Import Py Inst SpecGeom SpecBezier SpecCurve SpecConvex SpecEdit MBounds MTransform MBezUtil MBezier MBezierObj MContour ProofBezier ProofEdit ProofEdit2.
Import ListNotations.
Local Open Scope R_scope.
Local Notation top := MBounds.top.
#[local] Existing Instance RPy.

(** A mixture of edits no longer than [r] is no longer than [r]. *)
Theorem C140_mixtures_are_small (es : list pt) (v : pt) (r : R) : 0 <= r -> (forall e, In e es -> vdist (0, 0) e <= r) -> in_hull es v -> vdist (0, 0) v <= r.
Proof. exact (hull_norm es v r). Qed.
Print Assumptions C140_mixtures_are_small.

(** ** C140.  Points of the curve, of its de Casteljau scheme and of its table move by mixtures of the edits, for curves of every order. *)
Theorem C140_get (b c : bezier R) (t : R) (p q : pt) : length (cps b) = length (cps c) -> 0 <= t <= 1 -> get b t = Ok p -> get c t = Ok q ->
  in_hull (edits (cps b) (cps c)) (vsub q p).
Proof. exact (fun L => get_follows b c L t p q). Qed.
Print Assumptions C140_get.
Theorem C140_scheme (b c : bezier R) (t : R) : length (cps b) = length (cps c) -> 0 <= t <= 1 -> follows (edits (cps b) (cps c)) (hull b t) (hull c t).
Proof. exact (fun L => hull_follows b c L t). Qed.
Print Assumptions C140_scheme.
Theorem C140_table (b c : bezier R) (s : Z) (l l' : list pt) : length (cps b) = length (cps c) -> getLUT b s = Ok l -> getLUT c s = Ok l' ->
  follows (edits (cps b) (cps c)) l l'.
Proof. exact (lut_follows b c s l l'). Qed.
Print Assumptions C140_table.

(** ** C140.  So do the control points of pieces and of raised curves. *)
Theorem C140_split1 (b c : bezier R) (t : R) (l r l' r' : bezier R) (h h' : list pt) : length (cps b) = length (cps c) -> 0 <= t <= 1 ->
  split1 b t = Ok (l, r, h) -> split1 c t = Ok (l', r', h') ->
  let es := edits (cps b) (cps c) in follows es (cps l) (cps l') /\ follows es (cps r) (cps r') /\ follows es h h'.
Proof. exact (fun L => split1_follows b c L t l r h l' r' h'). Qed.
Print Assumptions C140_split1.
Theorem C140_split2 (b c : bezier R) (t1 t2 : R) s s' : length (cps b) = length (cps c) -> 0 <= t1 -> t1 <= t2 -> t2 <= 1 ->
  split2 b t1 t2 = Ok s -> split2 c t1 t2 = Ok s' ->
  let es := edits (cps b) (cps c) in
  match s, s' with
  | SCurve k, SCurve k' => follows es (cps k) (cps k')
  | STriple l r h, STriple l' r' h' => follows es (cps l) (cps l') /\ follows es (cps r) (cps r') /\ follows es h h'
  | _, _ => False
  end.
Proof. exact (split2_follows b c t1 t2 s s'). Qed.
Print Assumptions C140_split2.
Theorem C140_raiseOrder (b c b' c' : bezier R) : (2 <= length (cps b))%nat -> length (cps b) = length (cps c) -> raiseOrder b = Ok b' -> raiseOrder c = Ok c' ->
  follows (edits (cps b) (cps c)) (cps b') (cps c').
Proof. exact (raise_follows b c b' c'). Qed.
Print Assumptions C140_raiseOrder.

(** ** C140.  Velocities change by a mixture of the legs of the edits; the length by at most twice the degree times the longest edit. *)
Theorem C140_derivative (b c : bezier R) (t : R) (d d' : pt) : (length (cps b) = 3 \/ length (cps b) = 4)%nat -> length (cps b) = length (cps c) -> 0 <= t <= 1 ->
  derivative b t = Ok d -> derivative c t = Ok d' -> in_hull (legs (edits (cps b) (cps c))) (vsub d' d).
Proof. exact (derivative_follows b c t d d'). Qed.
Print Assumptions C140_derivative.
Theorem C140_length (b c : bezier R) (l l' r : R) : (length (cps b) = 3 \/ length (cps b) = 4)%nat -> length (cps b) = length (cps c) -> 0 <= r ->
  (forall e, In e (edits (cps b) (cps c)) -> vdist (0, 0) e <= r) -> quadrature b = Ok l -> quadrature c = Ok l' ->
  Rabs (l' - l) <= 2 * INR (order b) * r * (1 + / IZR (10 ^ 36)).
Proof. exact (length_follows b c l l' r). Qed.
Print Assumptions C140_length.

(** ** C140.  Edges of boxes move no further than the edits. *)
Theorem C140_bbox (b c : bezier R) (xl xh yl yh : R) : (2 <= length (cps b) <= 4)%nat -> length (cps b) = length (cps c) ->
  (forall q, In q (cps b) -> safe_point q) -> (forall q, In q (cps c) -> safe_point q) ->
  (forall e, In e (edits (cps b) (cps c)) -> xl <= fst e <= xh /\ yl <= snd e <= yh) ->
  exists x0 x1 y0 y1 x0' x1' y0' y1', bbox b = Ok ((x0, x1), (y0, y1)) /\ bbox c = Ok ((x0', x1'), (y0', y1')) /\
    xl <= x0' - x0 <= xh /\ xl <= x1' - x1 <= xh /\ yl <= y0' - y0 <= yh /\ yl <= y1' - y1 <= yh.
Proof. exact (bbox_follows b c xl xh yl yh). Qed.
Print Assumptions C140_bbox.
Theorem C140_points (ps qs : list pt) (e : R) : 0 <= e -> length ps = length qs ->
  (forall d, In d (edits ps qs) -> Rabs (fst d) <= e /\ Rabs (snd d) <= e) ->
  let r := BoundsRectangle ps in let r' := BoundsRectangle qs in
  Rabs (left r' - left r) <= e /\ Rabs (right r' - right r) <= e /\ Rabs (bottom r' - bottom r) <= e /\ Rabs (top r' - top r) <= e.
Proof. exact (points_follow ps qs e). Qed.
Print Assumptions C140_points.

(** ** C140.  The distance to the nearest sample changes no more than the samples move. *)
Theorem C140_nearest (l l' : list pt) (x : pt) (es : list pt) (r : R) (k k' : nat) : 0 <= r -> (forall e, In e es -> vdist (0, 0) e <= r) -> follows es l l' ->
  findClosest x l = Z.of_nat k -> findClosest x l' = Z.of_nat k' -> Rabs (vdist (nth k' l' (0, 0)) x - vdist (nth k l (0, 0)) x) <= r.
Proof. exact (closest_follows l l' x es r k k'). Qed.
Print Assumptions C140_nearest.

(** One control point of four raised by 4: the middle of the curve rises by 3/2, not by 4. *)
Example C140_case : let b := mkBez [(0, 0); (0, 4); (4, 4); (4, 0)] 0 1 in let c := mkBez [(0, 0); (0, 8); (4, 4); (4, 0)] 0 1 in
  edits (cps b) (cps c) = [(0, 0); (0, 4); (0, 0); (0, 0)] /\ get b (/ 2) = Ok (2, 3) /\ get c (/ 2) = Ok (2, 9 / 2) /\
  in_hull [(0, 0); (0, 4); (0, 0); (0, 0)] (0, 3 / 2) /\ ~ in_hull [(0, 0); (0, 4); (0, 0); (0, 0)] (0, 5) /\
  (forall q, In q (cps b) \/ In q (cps c) -> safe_point q).
Proof.
  cbv zeta. cbn [cps]. assert (E : edits [(0, 0); (0, 4); (4, 4); (4, 0)] [(0, 0); (0, 8); (4, 4); (4, 0)] = [(0, 0); (0, 4); (0, 0); (0, 0)]) by (unfold edits, vsub; cbn [combine map fst snd]; repeat (apply (f_equal2 cons); [apply f_equal2; ring|]); reflexivity).
  split; [exact E|]. assert (B : get (mkBez [(0, 0); (0, 4); (4, 4); (4, 0)] 0 1) (/ 2) = Ok (2, 3)) by (rewrite get_ok by (simpl; lia); cbn [cps]; rewrite curve4; cbn [fst snd]; apply f_equal, f_equal2; field).
  assert (C : get (mkBez [(0, 0); (0, 8); (4, 4); (4, 0)] 0 1) (/ 2) = Ok (2, 9 / 2)) by (rewrite get_ok by (simpl; lia); cbn [cps]; rewrite curve4; cbn [fst snd]; apply f_equal, f_equal2; field).
  split; [exact B|]. split; [exact C|]. split.
  { rewrite <- E. replace (0, 3 / 2) with (vsub (2, 9 / 2) (2, 3)) by (unfold vsub; cbn [fst snd]; f_equal; field). exact (C140_get (mkBez [(0, 0); (0, 4); (4, 4); (4, 0)] 0 1) (mkBez [(0, 0); (0, 8); (4, 4); (4, 0)] 0 1) (/ 2) _ _ eq_refl ltac:(lra) B C). }
  split. { intros H. specialize (H 0 1 4). cbn [fst snd] in H. assert (0 * 0 + 1 * 5 <= 4); [|lra]. apply H. intros p [<-|[<-|[<-|[<-|[]]]]]; cbn [fst snd]; lra. }
  intros q [I|I]; cbn [In] in I; decompose [or] I; try contradiction; subst q; unfold safe_point; cbn [fst snd]; split; apply Rabs_le; lra.
Qed.
