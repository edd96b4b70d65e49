(** Property C137: hulls, ABC points, their ratios and raised polygons (Bezier.py, BezierUtilities.py) in IEEE double precision.  [ulp1] is 2^-53, [tiny] 2^-1075. *)
From Coq Require Import List ZArith Bool Reals Lra Lia.
From Flocq Require Import Core BinarySingleNaN.
From Verif Require Import Py InstFloat SpecGeom SpecBezier SpecDouble MBezUtil MBezier MContour ProofDouble ProofDouble2 ProofDouble21.
Import ListNotations.
Local Open Scope R_scope.

(** ** C137.  The hull of a curve of any order is, point by point, within [e] of the exact de Casteljau scheme of the values of the
    control points: the control points, then n-1 points each dividing two neighbours at t, and so on to the point on the curve. *)
Theorem C137_hull (b : bezier b64) (t : b64) (M : R) : (1 <= length (cps b))%nat -> INR (order b) <= 2 ^ 40 -> Forall (sized M) (cps b) -> M <= 2 ^ 1020 ->
  fin t -> 0 <= val t <= 1 ->
  let n := length (cps b) in let e := 7 * INR (order b) * ulp1 * M + 5 * INR (order b) * tiny in
  exists lv : list (list pt), Forall2 (off e) (hull b t) (concat lv) /\ length lv = n /\ nth 0 lv [] = map vpt (cps b) /\
    (forall k, (k < n)%nat -> length (nth k lv []) = (n - k)%nat) /\
    (forall k i, (S k < n)%nat -> (i < n - S k)%nat ->
       nth i (nth (S k) lv []) (0, 0) = along (nth i (nth k lv []) (0, 0)) (nth (S i) (nth k lv []) (0, 0)) (val t)) /\
    off e (last (hull b t) (bofZ 0, bofZ 0)) (curve (map vpt (cps b)) (val t)).
Proof. exact (hull_double b t M). Qed.
Print Assumptions C137_hull.

(** The ratio of a quadratic never raises ZeroDivisionError and is right to 32 units of rounding for every t from 0 to 1. *)
Theorem C137_quadraticRatio (t : b64) : fin t -> 0 <= val t <= 1 ->
  exists r, quadraticRatio t = Ok r /\ fin r /\ let s := val t in Rabs (val r - (2 * s * (1 - s)) / (1 - 2 * s * (1 - s))) <= 32 * ulp1.
Proof. exact (quad_ratio t). Qed.
Print Assumptions C137_quadraticRatio.
(** That of a cubic to 140. *)
Theorem C137_cubicRatio (t : b64) : fin t -> 0 <= val t <= 1 ->
  exists r, cubicRatio t = Ok r /\ fin r /\ let s := val t in Rabs (val r - (1 - s ^ 3 - (1 - s) ^ 3) / (s ^ 3 + (1 - s) ^ 3)) <= 140 * ulp1.
Proof. exact (cubic_ratio t). Qed.
Print Assumptions C137_cubicRatio.

(** getABC: the result never is an exception.  B is the point of the curve, A the control point of a quadratic itself and the
    middle of the hull of a cubic; C is where the line through A and B meets that through the ends of the curve. *)
Theorem C137_getABC (b : bezier b64) (t : b64) (M : R) : (length (cps b) = 3 \/ length (cps b) = 4)%nat -> Forall (sized M) (cps b) -> M <= 2 ^ 1020 ->
  fin t -> 0 <= val t <= 1 ->
  let s := val t in let e := 21 * ulp1 * M + 15 * tiny in
  exists A B r p0 pn, getABC b t = Ok (A, B, lli4 A B p0 pn, r, hull b t) /\ bstart b = Ok p0 /\ bend b = Ok pn /\
    off e B (curve (map vpt (cps b)) s) /\ fin r /\
    (length (cps b) = 3%nat -> A = nth 1 (cps b) A /\ Rabs (val r - (2 * s * (1 - s)) / (1 - 2 * s * (1 - s))) <= 32 * ulp1) /\
    (length (cps b) = 4%nat -> off e A (along (vpt (nth 1 (cps b) A)) (vpt (nth 2 (cps b) A)) s) /\ Rabs (val r - (1 - s ^ 3 - (1 - s) ^ 3) / (s ^ 3 + (1 - s) ^ 3)) <= 140 * ulp1).
Proof. exact (abc_double b t M). Qed.
Print Assumptions C137_getABC.

(** raiseOrder: the ends are kept as they are, the start is repeated exactly, and each other point divides two neighbours. *)
Theorem C137_raiseOrder (b : bezier b64) (M : R) : (2 <= length (cps b))%nat -> (Z.of_nat (length (cps b)) < 2 ^ 53)%Z -> Forall (sized M) (cps b) -> M <= 2 ^ 1020 ->
  exists c, raiseOrder b = Ok c /\ length (cps c) = (length (cps b) + 2)%nat /\ bstart c = bstart b /\ bend c = bend b /\
    vpt (nth 1 (cps c) (bofZ 0, bofZ 0)) = vpt (nth 0 (cps b) (bofZ 0, bofZ 0)) /\
    forall i, (i < length (cps b))%nat -> let l := INR i / INR (length (cps b)) in
      off (4 * ulp1 * M + 4 * tiny) (nth (S i) (cps c) (bofZ 0, bofZ 0))
        (vadd (vscale (1 - l) (nth i (map vpt (cps b)) (0, 0))) (vscale l (nth (i - 1) (map vpt (cps b)) (0, 0)))).
Proof. exact (raise_double b M). Qed.
Print Assumptions C137_raiseOrder.

(** A curve and a parameter that is no binary fraction: 1/3 rounded. *)
Definition crest : bezier b64 := mkBez [(bofZ 0, bofZ 0); (bofZ 30, bofZ 120); (bofZ 210, bofZ (-90)); (bofZ 301, bofZ 7)] (bofZ 0) (bofZ 1).
Example C137_case : let t := nquot (bofZ 1) (bofZ 3) in
  length (cps crest) = 4%nat /\ INR (order crest) <= 2 ^ 40 /\ Forall (sized 301) (cps crest) /\ 301 <= 2 ^ 1020 /\ fin t /\ 0 <= val t <= 1 /\
  length (hull crest t) = 10%nat.
Proof.
  intros t. split; [reflexivity|]. split; [cbn; lra|]. split; [cbn [crest cps]; repeat (apply Forall_cons; [apply (sized_int 301); lia|]); apply Forall_nil|].
  assert (P : 2 ^ 9 <= 2 ^ 1020) by (apply Rle_pow; [lra | lia]). split; [simpl (2 ^ 9) in P; lra|].
  destruct (weight 1 3) as (F & R & _); [lia | lia | lia|]. split; [exact F|]. split; [exact R|]. reflexivity.
Qed.
