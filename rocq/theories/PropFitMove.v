(** Property C134: fits of points sent through an affine map, points taken in the opposite order, points of a curve.
    [mapped_columns] maps every control point of a fit, [backward_columns] turns their order round,
    [backward_times] sees the parameters from the other end (SpecFitMove.v).  [answer f] applies [f] to a
    result and keeps an error. *)
From Coq Require Import List ZArith Bool Reals QArith Lra Lia.
From Verif Require Import Py Inst SpecGeom SpecMatrix SpecFit SpecMove SpecTurn SpecFitMove MMatrix MCurveFit ProofFit ProofFitMove.
Import ListNotations.
Local Open Scope R_scope.
#[local] Hint Extern 0 (TrigOps R) => exact RPy : typeclass_instances.

(** ** C134 *)
(** The best fit of mapped points is the mapped best fit; that of the points backwards is the fit backwards. *)
Theorem C134_best_fit (calls : list (nat * nat)) (P : list pt) (s : list R) (n : nat) (a b c d : R) (v : pt) :
  (0 < n)%nat -> (0 < length P)%nat -> length s = length P ->
  exists lut' m, basisMatrix (binomialHistory calls) n = Ok (lut', m) /\
    bestFitN (map (mapped a b c d v) P) m s n = answer (mapped_columns a b c d v) (bestFitN P m s n) /\
    bestFitN (rev P) m (backward_times s) n = answer backward_columns (bestFitN P m s n).
Proof. exact (bestFit_affine_basis calls P s n a b c d v). Qed.
Print Assumptions C134_best_fit.
(** Points taken from a curve give its control points back. *)
Theorem C134_reproduces (calls : list (nat * nat)) (s : list R) (Q : list pt) : Q <> [] ->
  (exists l, NoDup l /\ length l = length Q /\ incl l s) ->
  exists lut' m, basisMatrix (binomialHistory calls) (length Q) = Ok (lut', m) /\
    bestFitN (map (curve_through Q) s) m s (length Q) = Ok (columns Q).
Proof. exact (bestFit_reproduces_basis calls s Q). Qed.
Print Assumptions C134_reproduces.
(** The parameters depend on the number of points only, or on the shape of the polygon but not on where it is, how it is turned and how large. *)
Theorem C134_parameters (p : list pt) (n : nat) (a b c d : R) (v : pt) :
  computeTimeValuesN (map (mapped a b c d v) p) n false = computeTimeValuesN p n false /\
  (forall k, similarity a b c d k -> computeTimeValuesN (map (mapped a b c d v) p) n true = computeTimeValuesN p n true) /\
  (p <> [] -> forall polygonal, computeTimeValues (rev p) polygonal = answer backward_times (computeTimeValues p polygonal)).
Proof.
  split; [apply times_uniform_any, map_length|]. split; [exact (fun k K => times_similar round15 a b c d k v p n K)|].
  exact (fun N poly => times_back round15 p poly N).
Qed.
Print Assumptions C134_parameters.
(** The whole of [fit]: same table, same matrix, mapped control points. *)
Theorem C134_fit (calls : list (nat * nat)) (P : list pt) (polygonal : bool) (a b c d : R) (v : pt) :
  (polygonal = true -> exists k, similarity a b c d k) ->
  fit (binomialHistory calls) (map (mapped a b c d v) P) polygonal =
    answer (on_fit (fun s => s) (mapped_columns a b c d v)) (fit (binomialHistory calls) P polygonal).
Proof. exact (fit_moved round15 _ a b c d v P polygonal (proj1 (history_good calls))). Qed.
Print Assumptions C134_fit.
Theorem C134_fit_backward (calls : list (nat * nat)) (P : list pt) (polygonal : bool) :
  fit (binomialHistory calls) (rev P) polygonal = answer (on_fit backward_times backward_columns) (fit (binomialHistory calls) P polygonal).
Proof. exact (fit_back round15 _ P polygonal (proj1 (history_good calls))). Qed.
Print Assumptions C134_fit_backward.
(** The hypotheses are met: a turn with enlargement, parameters enough; and a fit that succeeds. *)
Example C134_case : similarity 3 (-4) 4 3 5 /\
  (exists l, NoDup l /\ length l = length [(0, 0); (1, 2); (4, 3)]%R /\ incl l [0; 1 / 4; 1 / 4; 1]%R) /\
  (exists lut m Cx Cy, basisMatrix (T := Q) (binomialHistory []) 2 = Ok (lut, m) /\
    bestFitN (T := Q) [(0, 0); (1, 2); (2, 1)]%Q m [0; 1 # 2; 1]%Q 2 = Ok (Cx, Cy) /\
    map (map Qred) Cx = [[0]; [2]]%Q /\ map (map Qred) Cy = [[1 # 2]; [3 # 2]]%Q /\
    exists Dx Dy, bestFitN (T := Q) [(5, 6); (0, 16); (7, 17)]%Q m [0; 1 # 2; 1]%Q 2 = Ok (Dx, Dy) /\
      map (map Qred) Dx = [[3]; [5]]%Q /\ map (map Qred) Dy = [[15 # 2]; [37 # 2]]%Q).
Proof.
  split; [unfold similarity; lra|]. split.
  - exists [0; 1 / 4; 1]. split; [|split; [reflexivity|intros x [<-|[<-|[<-|[]]]]; simpl; auto]].
    repeat constructor; simpl; intuition lra.
  - do 4 eexists. split; [vm_compute; reflexivity|]. split; [vm_compute; reflexivity|]. split; [reflexivity|]. split; [reflexivity|].
    do 2 eexists. split; [vm_compute; reflexivity|]. split; reflexivity.
Qed.
(** Without equal enlargement in all directions the parameters of a polygon do change: (0,0), (3,0), (3,4), then twice as high. *)
Example C134_stretched : computeTimeValues [(0, 0); (3, 0); (3, 4)] true = Ok [0; 3 / 7; 1] /\
  computeTimeValues (map (mapped 1 0 0 2 (0, 0)) [(0, 0); (3, 0); (3, 4)]) true = Ok [0; 3 / 11; 1].
Proof.
  assert (X : forall x h, 0 < x -> 0 < h -> forall p q r : pt, p = (0, 0) -> q = (x, 0) -> r = (x, h) ->
    computeTimeValues [p; q; r] true = Ok [0; x / (x + h); 1]).
  { intros x h Hx Hh p q r -> -> ->.
    assert (D1 : dist (T := R) (0, 0) (x, 0) = x).
    { rewrite (dist_vdist round15). unfold vdist, dist2; cbn [fst snd]. replace (_ + _) with (x * x) by ring. apply sqrt_square. lra. }
    assert (D2 : dist (T := R) (x, 0) (x, h) = h).
    { rewrite (dist_vdist round15). unfold vdist, dist2; cbn [fst snd]. replace (_ + _) with (h * h) by ring. apply sqrt_square. lra. }
    unfold computeTimeValues, computeTimeValuesN, chordLengths. unfold orLen, idx. cbn [length Nat.eqb Nat.sub seq foldM nth_error bind app].
    rewrite D1, D2. cbn [mapM]. numRg. rewrite !ndivR by lra. cbn [bind]. f_equal. f_equal; [field; lra|]. f_equal; [field; lra|]. f_equal. field. lra. }
  split.
  - rewrite (X 3 4) by (reflexivity || lra). do 3 f_equal. lra.
  - cbn [map]. rewrite (X 3 8) by (lra || (unfold mapped; cbn [fst snd]; f_equal; lra)). do 3 f_equal. lra.
Qed.
