(** Properties C32-C36: BezierUtilities.py, over exact reals (C35: any type). *)
From Coq Require Import List ZArith Bool Reals Lra.
From Verif Require Import Py Inst SpecGeom SpecUtil MBezUtil ProofUtil.
Import ListNotations.
Local Open Scope R_scope.
(** Trigonometry and square roots are the real functions; rounding as in the code. *)
#[local] Existing Instance RPy.

(** ** C32 *)
Theorem C32_none_iff_parallel (p1 p2 p3 p4 : pt) : lli4 p1 p2 p3 p4 = None <-> parallel p1 p2 p3 p4.
Proof. exact (lli4_None p1 p2 p3 p4). Qed.
Print Assumptions C32_none_iff_parallel.
Theorem C32_meets_both_lines (p1 p2 p3 p4 p : pt) : lli4 p1 p2 p3 p4 = Some p <->
  ~ parallel p1 p2 p3 p4 /\ on_line p1 p2 p /\ on_line p3 p4 p.
Proof. exact (lli4_Some p1 p2 p3 p4 p). Qed.
Print Assumptions C32_meets_both_lines.
Theorem C32_unique (p1 p2 p3 p4 q r : pt) : ~ parallel p1 p2 p3 p4 ->
  on_line p1 p2 q -> on_line p3 p4 q -> on_line p1 p2 r -> on_line p3 p4 r -> q = r.
Proof. exact (lines_meet_once p1 p2 p3 p4 q r). Qed.
Print Assumptions C32_unique.
Example C32_case : let p := (5, 3) in
  ~ parallel (0, -2) (1, -1) (5, 0) (5, 1) /\ on_line (0, -2) (1, -1) p /\ on_line (5, 0) (5, 1) p /\
  parallel (0, 0) (1, 2) (7, 0) (9, 4).
Proof.
  unfold parallel, vcross, on_line, along, vadd, vscale, vsub; cbn [fst snd].
  split; [lra|]. split; [exists 5|split; [exists 3|lra]]; f_equal; lra.
Qed.

(** ** C33 *)
Theorem C33_quadratic (a b c t : R) : ~ (a = 0 /\ b = 0 /\ c = 0) ->
  In (Some t) (droots [a; b; c]) <-> bern2 a b c t = 0.
Proof. exact (droots2 round15 a b c t). Qed.
Print Assumptions C33_quadratic.
Theorem C33_linear (a b t : R) : ~ (a = 0 /\ b = 0) -> In (Some t) (droots [a; b]) <-> bern1 a b t = 0.
Proof. exact (droots1 round15 a b t). Qed.
Print Assumptions C33_linear.
Theorem C33_other_lengths (p : list R) : length p <> 2%nat -> length p <> 3%nat -> droots p = [].
Proof. exact (droots_other round15 p). Qed.
Print Assumptions C33_other_lengths.
(** NaN appears only for a quadratic without real roots. *)
Theorem C33_nan (a b c : R) : In None (droots [a; b; c]) <-> a - 2 * b + c <> 0 /\ b * b - a * c < 0.
Proof. exact (droots_nan round15 a b c). Qed.
Print Assumptions C33_nan.
Example C33_case : bern2 3 (-5) 3 (1 / 4) = 0 /\ bern2 1 1 2 (1 / 4) <> 0 /\ bern1 1 (-3) (1 / 4) = 0.
Proof. unfold bern2, bern1. lra. Qed.

(** ** C34 *)
Theorem C34_cube (v x : R) : crt v ^ 3 = v /\ (x ^ 3 = v <-> x = crt v).
Proof. exact (conj (crt_cube round15 v) (crt_unique round15 v x)). Qed.
Print Assumptions C34_cube.
Theorem C34_odd (v : R) : crt (- v) = - crt v.
Proof. exact (crt_odd round15 v). Qed.
Print Assumptions C34_odd.
Theorem C34_monotone (u v : R) : u < v <-> crt u < crt v.
Proof. exact (crt_lt round15 u v). Qed.
Print Assumptions C34_monotone.
Theorem C34_sign (v : R) : (0 < v <-> 0 < crt v) /\ (v < 0 <-> crt v < 0) /\ (v = 0 <-> crt v = 0).
Proof. exact (crt_sign round15 v). Qed.
Print Assumptions C34_sign.
Example C34_case : crt (-27) = -3.
Proof. symmetry. apply C34_cube. ring. Qed.

(** ** C35 *)
Theorem C35_first_occurrences (A : Type) (eqb : A -> A -> bool) (l : list A) :
  (forall x, eqb x x = true) -> (forall x y, eqb x y = eqb y x) ->
  (forall x y z, eqb x y = true -> eqb y z = true -> eqb x z = true) ->
  let r := removeDuplicates eqb l in
  r = first_occurrences eqb l /\ ForallOrdPairs (fun x y => eqb x y = false) r /\
  (forall x, In x r -> In x l) /\ (forall x, In x l -> exists y, In y r /\ eqb y x = true) /\
  removeDuplicates eqb r = r.
Proof. exact (removeDuplicates_full eqb l). Qed.
Print Assumptions C35_first_occurrences.
(** For an equality that is Leibniz equality the same values remain, without repetition. *)
Theorem C35_same_values (A : Type) (eqb : A -> A -> bool) (l : list A) :
  (forall x y, eqb x y = true <-> x = y) ->
  NoDup (removeDuplicates eqb l) /\ (forall x, In x (removeDuplicates eqb l) <-> In x l).
Proof. exact (removeDuplicates_NoDup eqb l). Qed.
Print Assumptions C35_same_values.
Example C35_case : removeDuplicates Z.eqb [3; 1; 3; 2; 1; 3]%Z = [3; 1; 2]%Z /\
  (forall x y, Z.eqb x y = true <-> x = y).
Proof. split; [reflexivity | exact Z.eqb_eq]. Qed.

(** ** C36 *)
Theorem C36_lerp (r : R) (a b : pt) : lerp 0 a b = a /\ lerp 1 a b = b /\ lerp r a b = along a b r /\
  lerp r a b = vadd (vscale (1 - r) a) (vscale r b).
Proof. exact (lerp_spec r a b). Qed.
Print Assumptions C36_lerp.
Theorem C36_map (v ds de ts te : R) :
  (ds = de -> bmap v ds de ts te = Err ZeroDivisionError) /\
  (ds <> de -> exists w, bmap v ds de ts te = Ok w /\ w = ts + (te - ts) * ((v - ds) / (de - ds)) /\
     (v = ds -> w = ts) /\ (v = de -> w = te) /\
     (ts <> te -> bmap w ts te ds de = Ok v)).
Proof. exact (bmap_spec v ds de ts te). Qed.
Print Assumptions C36_map.
Example C36_case : bmap (1 / 4) 0 1 (-1) 1 = Ok (- (1 / 2)).
Proof.
  destruct (C36_map (1 / 4) 0 1 (-1) 1) as [_ K]. destruct K as (w & -> & -> & _); [lra|]. f_equal. lra.
Qed.
