(** Property C148: curves sampled by Bezier.getLUT and fitted again by CurveFitting.fit, and points fitted and sampled again.
    [columns Q] are the two columns of coordinates that fit returns for the control points [Q] (SpecFitMove.v). *)
From Coq Require Import List ZArith Bool Reals Lra Lia.
From Verif Require Import Py Inst SpecGeom SpecMatrix SpecFit SpecFitMove SpecBezier MMatrix MCurveFit MBezUtil MBezier ProofFit ProofResample.
Import ListNotations.
Local Open Scope R_scope.
#[local] Hint Extern 0 (TrigOps R) => exact RPy : typeclass_instances.

(** ** C148.  A table with at least as many points as the curve has control points is fitted by the curve itself. *)
Theorem C148_table_fit (calls : list (nat * nat)) (b : bezier R) (n : nat) (some : (1 <= length (cps b))%nat) (two : (2 <= n)%nat) (enough : (length (cps b) <= n)%nat) :
  exists l lut' m ts Q, getLUT b (Z.of_nat n) = Ok l /\ fit (binomialHistory calls) l false = Ok (lut', (m, ts, columns Q)) /\ length Q = n /\
    (forall t, get (mkBez Q 0 1) t = get b t) /\ (length (cps b) = n -> Q = cps b).
Proof. exact (table_fit calls b n some two enough). Qed.
Print Assumptions C148_table_fit.
(** The least-squares fit with as many control points as the curve has gives them back. *)
Theorem C148_best_fit (calls : list (nat * nat)) (b : bezier R) (n : nat) (some : (1 <= length (cps b))%nat) (two : (2 <= n)%nat) (enough : (length (cps b) <= n)%nat) :
  exists l ts lut' m, getLUT b (Z.of_nat n) = Ok l /\ computeTimeValues l false = Ok ts /\ basisMatrix (binomialHistory calls) (length (cps b)) = Ok (lut', m) /\
    bestFitN l m ts (length (cps b)) = Ok (columns (cps b)).
Proof. exact (table_best_fit calls b n some two enough). Qed.
Print Assumptions C148_best_fit.
(** A table tells a curve from all others with no more control points than it has points. *)
Theorem C148_tables_tell (a b : bezier R) (n : nat) (La : (1 <= length (cps a) <= n)%nat) (Lb : (1 <= length (cps b) <= n)%nat) (two : (2 <= n)%nat)
  (same : getLUT a (Z.of_nat n) = getLUT b (Z.of_nat n)) : (forall t, get a t = get b t) /\ (length (cps a) = length (cps b) -> cps a = cps b).
Proof. exact (tables_tell a b n La Lb two same). Qed.
Print Assumptions C148_tables_tell.
(** Points that are fitted are the table of the curve found. *)
Theorem C148_fit_table (calls : list (nat * nat)) (P : list pt) (two : (2 <= length P)%nat) :
  exists lut' m ts Q b, fit (binomialHistory calls) P false = Ok (lut', (m, ts, columns Q)) /\ newBezier Q = Ok b /\ cps b = Q /\ getLUT b (Z.of_nat (length P)) = Ok P.
Proof. exact (fit_table calls P two). Qed.
Print Assumptions C148_fit_table.
(** On straight lines both choices of the parameters give the line back; on curves chord lengths need not. *)
Theorem C148_line (calls : list (nat * nat)) (p q : pt) (n : nat) (apart : p <> q) (two : (2 <= n)%nat) :
  exists l lut' m ts Q, getLUT (mkBez [p; q] 0 1) (Z.of_nat n) = Ok l /\ fit (binomialHistory calls) l true = Ok (lut', (m, ts, columns Q)) /\
    fit (binomialHistory calls) l false = Ok (lut', (m, ts, columns Q)) /\ length Q = n /\ forall t, get (mkBez Q 0 1) t = get (mkBez [p; q] 0 1) t.
Proof. exact (line_fit calls p q n apart two). Qed.
Print Assumptions C148_line.
Theorem C148_chords_not_enough (calls : list (nat * nat)) : let b := mkBez [(0, 0); (0, 0); (1, 0)] 0 1 in
  exists l lut' m ts Q, getLUT b 3 = Ok l /\ fit (binomialHistory calls) l true = Ok (lut', (m, ts, columns Q)) /\ length Q = 3%nat /\
    get (mkBez Q 0 1) (1 / 2) <> get b (1 / 2).
Proof. exact (chords_not_enough calls). Qed.
Print Assumptions C148_chords_not_enough.

(** A cubic with four samples and with nine; two curves of different order with the same table. *)
Example C148_cubic : let b := mkBez [(0, 0); (1, 3); (2, -1); (4, 0)] 0 1 in (1 <= length (cps b))%nat /\ (length (cps b) <= 4)%nat /\ (length (cps b) <= 9)%nat.
Proof. cbn. lia. Qed.
Example C148_same_table : let a := mkBez [(0, 0); (2, 2)] 0 1 in let b := mkBez [(0, 0); (1, 1); (2, 2)] 0 1 in
  (1 <= length (cps a) <= 3)%nat /\ (1 <= length (cps b) <= 3)%nat /\ getLUT a (Z.of_nat 3) = getLUT b (Z.of_nat 3) /\ cps a <> cps b.
Proof.
  cbv zeta. split; [cbn; lia|]. split; [cbn; lia|]. split; [|discriminate]. rewrite !table_points by (cbn; lia). f_equal. apply map_ext. intros t. cbn [cps].
  rewrite ProofBezier.curve2, ProofBezier.curve3. cbn [fst snd]. f_equal; ring.
Qed.
