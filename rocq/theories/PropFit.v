(** Properties C27, C28, C30, C31, C86: CurveFitting.py (binomial over integers, the rest over exact reals). *)
From Coq Require Import List ZArith QArith Bool Reals Lra Lia Binomial Factorial.
From Verif Require Import Py Inst SpecGeom SpecMatrix SpecFit MTransform MMatrix MCurveFit ProofMatrix ProofFit ProofLsq.
Import ListNotations.
Local Open Scope R_scope.
(** Trigonometry and square roots are the real functions; rounding as in the code. *)
#[local] Existing Instance RPy.

(** ** C27.  [binomialHistory calls] is the module's table after the calls [calls], starting from the
    table in the source. *)
Theorem C27_pascal (calls : list (nat * nat)) (n k : nat) : (k <= n)%nat ->
  exists b, snd (binomial (binomialHistory calls) n k) = Ok b /\
    (b * Z.of_nat (fact k) * Z.of_nat (fact (n - k)) = Z.of_nat (fact n))%Z.
Proof. exact (binomial_any_history calls n k). Qed.
Print Assumptions C27_pascal.
Theorem C27_outside (calls : list (nat * nat)) (n k : nat) : (1 <= n < k)%nat ->
  snd (binomial (binomialHistory calls) n k) = Err IndexError.
Proof. exact (binomial_outside calls n k). Qed.
Print Assumptions C27_outside.
Theorem C27_table_grows (calls : list (nat * nat)) (n k : nat) :
  let lut := binomialHistory calls in let lut' := fst (binomial lut n k) in
  (exists more, lut' = lut ++ more) /\ pascal_table lut' /\ (exists more, lut' = binomialCoefficients ++ more).
Proof. exact (binomial_table calls n k). Qed.
Print Assumptions C27_table_grows.
Example C27_case : snd (binomial (binomialHistory [(9, 2); (3, 1); (0, 5)]%nat) 10 3) = Ok 120%Z /\
  length (binomialHistory [(9, 2); (3, 1); (0, 5)]%nat) = 10%nat /\
  snd (binomial (binomialHistory []) 4 5) = Err IndexError /\ snd (binomial (binomialHistory []) 0 5) = Ok 1%Z.
Proof. repeat split. Qed.

(** ** C28 *)
Theorem C28_bernstein_basis (calls : list (nat * nat)) (n : nat) :
  exists lut' m, basisMatrix (binomialHistory calls) n = Ok (lut', m) /\ shape n n m /\
    (forall i j, (i < j)%nat -> (j < n)%nat -> entry m i j = 0) /\
    (forall c t, (c < n)%nat -> rsum n (fun r => t ^ r * entry m r c) = bernstein (n - 1) c t).
Proof. exact (basisMatrix_any calls n). Qed.
Print Assumptions C28_bernstein_basis.
Example C28_case : exists lut', basisMatrix (T := Q) binomialCoefficients 4 =
  Ok (lut', [[1; 0; 0; 0]; [-3; 3; 0; 0]; [3; -6; 3; 0]; [-1; 3; -3; 1]]%Q).
Proof. eexists. vm_compute. reflexivity. Qed.

(** ** C30 *)
Theorem C30_polygonal (p : list pt) : (exists i, (i < length p)%nat /\ ptn p i <> ptn p 0) ->
  exists s, computeTimeValues p true = Ok s /\ length s = length p /\
    nth 0 s 0 = 0 /\ nth (length p - 1) s 0 = 1 /\
    (forall i, (S i < length p)%nat -> nth i s 0 <= nth (S i) s 0) /\
    (forall i, (S i < length p)%nat -> nth i s 0 < nth (S i) s 0 <-> ptn p i <> ptn p (S i)) /\
    (* proportional to the distance travelled along the polygon *)
    forall i, (i < length p)%nat ->
      nth i s 0 * rsum (length p - 1) (fun k => vdist (ptn p k) (ptn p (S k))) = rsum i (fun k => vdist (ptn p k) (ptn p (S k))).
Proof. exact (times_polygonal round15 p). Qed.
Print Assumptions C30_polygonal.
Theorem C30_coinciding_points_raise (p : list pt) : (forall i, (i < length p)%nat -> ptn p i = ptn p 0) ->
  computeTimeValues p true = Err ZeroDivisionError.
Proof. exact (times_coincide round15 p). Qed.
Print Assumptions C30_coinciding_points_raise.
Theorem C30_uniform (p : list pt) :
  (length p = 1%nat -> computeTimeValues p false = Err ZeroDivisionError) /\
  ((2 <= length p)%nat -> computeTimeValues p false = Ok (map (fun i => INR i / INR (length p - 1)) (seq 0 (length p)))).
Proof. exact (times_uniform round15 p). Qed.
Print Assumptions C30_uniform.
(** With an explicit number of points [n]. *)
Theorem C30_given_n (p : list pt) (n : nat) : (0 < n)%nat ->
  (forall b, (n <= length p)%nat -> computeTimeValuesN p n b = computeTimeValues (firstn n p) b) /\
  ((2 <= n)%nat -> (length p < n)%nat -> computeTimeValuesN p n true = Err IndexError) /\
  ((2 <= n)%nat -> computeTimeValuesN p n false = Ok (map (fun i => INR i / INR (n - 1)) (seq 0 n))).
Proof. exact (timesN round15 p n). Qed.
Print Assumptions C30_given_n.
Example C30_case : let p := [(0, 0); (3, 4); (3, 4); (3, 0)] in
  (exists i, (i < length p)%nat /\ ptn p i <> ptn p 0) /\ ~ ptn p 0 = ptn p 1 /\ ptn p 1 = ptn p 2 /\ vdist (ptn p 0) (ptn p 1) = 5.
Proof.
  cbv zeta. split; [exists 1%nat; split; [simpl; lia|]|split; [|split]].
  - intros E; injection E; lra.
  - intros E; injection E; lra.
  - reflexivity.
  - unfold vdist, dist2; simpl. replace (_ + _) with (5 * 5) by lra. apply sqrt_square. lra.
Qed.

(** ** C31 *)
Theorem C31_interpolates (calls : list (nat * nat)) (P : list pt) (b : bool) lut' m s Cx Cy :
  fit (binomialHistory calls) P b = Ok (lut', (m, s, (Cx, Cy))) ->
  length s = length P /\ shape (length P) 1 Cx /\ shape (length P) 1 Cy /\
  forall i, (i < length P)%nat ->
    bezier_at (length P - 1) (fun c => entry Cx c 0) (nth i s 0) = fst (ptn P i) /\
    bezier_at (length P - 1) (fun c => entry Cy c 0) (nth i s 0) = snd (ptn P i).
Proof. exact (fun E => proj2 (fit_interpolates round15 _ P b lut' m s Cx Cy (proj1 (history_good calls)) E)). Qed.
Print Assumptions C31_interpolates.
Theorem C31_succeeds (calls : list (nat * nat)) (P : list pt) (b : bool) : (2 <= length P)%nat ->
  (b = true -> forall i, (S i < length P)%nat -> ptn P i <> ptn P (S i)) ->
  exists r, fit (binomialHistory calls) P b = Ok r.
Proof. exact (fit_succeeds round15 _ P b (proj1 (history_good calls))). Qed.
Print Assumptions C31_succeeds.
(** The parameters the interpolation refers to are those of C30. *)
Theorem C31_parameters (calls : list (nat * nat)) (P : list pt) (b : bool) lut' m s Cx Cy :
  fit (binomialHistory calls) P b = Ok (lut', (m, s, (Cx, Cy))) -> computeTimeValues P b = Ok s.
Proof. exact (fit_parameters round15 _ P b lut' m s Cx Cy). Qed.
Print Assumptions C31_parameters.
(** The hypotheses are met by a closed triangle (first and last point equal, consecutive ones distinct). *)
Example C31_case : let P := [(0, 0); (1, 0); (1, 1); (0, 0)] in
  (2 <= length P)%nat /\ forall i, (S i < length P)%nat -> ptn P i <> ptn P (S i).
Proof.
  cbv zeta. split; [simpl; lia|]. intros [|[|[|i]]] Hi E; simpl in *; try lia; unfold ptn in E; simpl in E; injection E; lra.
Qed.

(** ** C86.  bestFit with [n] control points for [length P] data points at the parameters [s]. *)
Theorem C86_least_squares (calls : list (nat * nat)) (P : list pt) (s : list R) (n : nat) :
  (0 < n)%nat -> (0 < length P)%nat -> length s = length P ->
  exists lut' m, basisMatrix (binomialHistory calls) n = Ok (lut', m) /\
    (* no control points do better, and none but these do as well *)
    (forall Cx Cy, bestFitN P m s n = Ok (Cx, Cy) -> shape n 1 Cx /\ shape n 1 Cy /\
      forall f g, let best := fit_error P s (n - 1) (fun c => entry Cx c 0) (fun c => entry Cy c 0) in
        best <= fit_error P s (n - 1) f g /\
        (fit_error P s (n - 1) f g = best -> forall c, (c < n)%nat -> f c = entry Cx c 0 /\ g c = entry Cy c 0)) /\
    (* it succeeds when there are [n] different parameters, and raises TypeError otherwise *)
    ((exists l, NoDup l /\ length l = n /\ incl l s) -> exists c, bestFitN P m s n = Ok c) /\
    ((forall l, NoDup l -> incl l s -> (length l < n)%nat) -> bestFitN P m s n = Err TypeError).
Proof. exact (fitN_basis calls P s n). Qed.
Print Assumptions C86_least_squares.
(** The best straight line for three points, and four control points asked of three parameters. *)
Example C86_case :
  let P := [(0, 0); (1, 2); (2, 1)]%Q in let s := [0; 1 # 2; 1]%Q in
  (exists l m Cx Cy, basisMatrix (T := Q) (binomialHistory []) 2 = Ok (l, m) /\ bestFitN P m s 2 = Ok (Cx, Cy) /\
    map (map Qred) Cx = [[0]; [2]]%Q /\ map (map Qred) Cy = [[1 # 2]; [3 # 2]]%Q) /\
  (exists l m, basisMatrix (T := Q) (binomialHistory []) 4 = Ok (l, m) /\ bestFitN P m s 4 = Err TypeError) /\
  (exists l, NoDup l /\ length l = 2%nat /\ incl l [0; 1 / 2; 1]%R).
Proof.
  split; [|split].
  - do 4 eexists. split; [vm_compute; reflexivity|]. vm_compute. repeat split.
  - do 2 eexists. split; [vm_compute; reflexivity|]. vm_compute. reflexivity.
  - exists [0; 1]. split; [|split; [reflexivity|intros x [<-|[<-|[]]]; simpl; auto]].
    repeat constructor; simpl; intuition lra.
Qed.
