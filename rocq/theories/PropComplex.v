(** Property C114: points given as complex numbers. *)
From Coq Require Import List ZArith QArith Bool String.
From Verif Require Import Py Inst MTransform MBounds MBezUtil MPathUtil MPlotter MComplex SpecComplex ProofComplex.
Import ListNotations.

(** ** C114 *)
(** The measuring functions do not see the difference, even in a list that mixes the two. *)
Theorem C114_measures (T : Type) (N : NumOps T) (Tr : TrigOps T) (s : list (anypoint T)) (ps : segment T) :
  Forall2 stands ps s ->
  isVerticalLineA s = isVerticalLine ps /\ isHorizontalLineA s = isHorizontalLine ps /\
  isDiagonalLineA s = isDiagonalLine ps /\ seglengthA s = seglength ps /\ slopeA s = slope ps /\
  slopeAngleA s = slopeAngle ps /\ rawSlopeAngleA s = rawSlopeAngle ps /\ midpointA s = midpoint ps.
Proof. exact (measures_same s ps). Qed.
Print Assumptions C114_measures.
(** Everything else takes pairs... *)
Theorem C114_pairs (T : Type) (N : NumOps T) (Tr : TrigOps T) (s1 s2 : list (anypoint T)) (l1 l2 : segment T) (x y : T) (t : matrix T) :
  all_pairs s1 l1 -> all_pairs s2 l2 ->
  BoundsRectangleA s1 = Ok (BoundsRectangle l1) /\ intersectionPointA s1 s2 = intersectionPoint l1 l2 /\
  pointOnLineA (APair (x, y)) s1 = pointOnLine (x, y) l1 /\ applyToSegmentA t s1 = applyToSegment t l1.
Proof. exact (pairs_same s1 l1 s2 l2 x y t). Qed.
Print Assumptions C114_pairs.
(** ... and raises on a complex number wherever it is. *)
Theorem C114_complex_raises (T : Type) (N : NumOps T) (Tr : TrigOps T) (s : list (anypoint T)) (x y : T) (t : matrix T) :
  (has_complex s -> BoundsRectangleA s = Err TypeError /\ (forall c, In s c -> fromContourA c = Err TypeError) /\
     (forall p, pointOnLineA p s = Err TypeError) /\ (forall q, applyToSegmentA t s <> Ok q)) /\
  (forall line, pointOnLineA (AComplex x y) line = Err TypeError) /\
  applyToPointA t (AComplex x y) = Err TypeError /\
  (forall a b c d, has_complex [a; b; c; d] -> intersectionPointA [a; b] [c; d] = Err TypeError).
Proof. exact (complex_rejected s x y t). Qed.
Print Assumptions C114_complex_raises.
(** Drawing circles: one kind throughout gives the same drawing... *)
Theorem C114_circles (T : Type) (N : NumOps T) (V : Type) (truthy : V -> bool) (s : plotter) (l : list (anypoint T))
  (ps : list (point T)) (radius : T) (colors : list V) (fill : bool) : all_pairs l ps \/ all_complex l ps ->
  drawPointsAsCirclesA truthy s l radius colors fill = drawPointsAsCircles truthy s ps radius colors fill.
Proof. exact (circles_same truthy s l ps radius colors fill). Qed.
Print Assumptions C114_circles.
(** ... a mixed list raises at the first point of the other kind, after drawing the ones before it, and leaves the
    pushed stroke attributes on the stack. *)
Theorem C114_circles_mixed (T : Type) (N : NumOps T) (V : Type) (truthy : V -> bool) (s : plotter) (l1 l2 : list (anypoint T))
  (a : anypoint T) (ps : list (point T)) (radius : T) (colors : list V) (fill : bool) : ps <> [] ->
  (all_pairs l1 ps /\ (exists x y, a = AComplex x y) \/ all_complex l1 ps /\ (exists p, a = APair p)) ->
  exists s' new, drawPointsAsCirclesA truthy s (l1 ++ a :: l2) radius colors fill =
      (s', Some (match a with AComplex _ _ => TypeError | APair _ => AttributeError end)) /\
    pl_content s' = pl_content s ++ new /\
    map (fun it => match it with ICircle p _ _ _ _ => Some p | _ => None end) new = map Some ps /\
    pl_strokeStack s' = (if fill then [] else match colors with [] => [] | _ => [pl_stroke s] end) ++ pl_strokeStack s.
Proof. exact (circles_mixed truthy s l1 a l2 ps radius colors fill). Qed.
Print Assumptions C114_circles_mixed.

(** A line from 1+2j to the pair (5, 4): its middle; and the complex start has no bounds. *)
Local Open Scope Q_scope.
Example C114_case : midpointA [AComplex 1 2; APair (5, 4)] = Ok (3, 3) /\
  BoundsRectangleA [AComplex 1 2; APair (5, 4)] = Err TypeError /\
  Forall2 stands [(1, 2); (5, 4)] [AComplex 1 2; APair (5, 4)].
Proof. split; [reflexivity|]. split; [reflexivity|]. repeat constructor. Qed.
