(** Property C141: a curve crosses a line no more often than its control polygon does. *)
From Coq Require Import List ZArith Bool Reals Lra Lia.
From Verif Require Import Py Inst SpecGeom SpecBezier SpecCurve SpecConvex SpecCross MTransform MBezUtil MBezier ProofBezier ProofCross ProofCross2.
Import ListNotations.
Local Open Scope R_scope.
#[local] Existing Instance RExact.

(** ** C141.  Curves of every order and every line a x + b y = c: [ts] are any distinct parameters strictly between 0 and 1 at which the curve is on the line. *)
Theorem C141_get (a b c : R) (z : bezier R) (ts : list R) : (exists q, In q (cps z) /\ side a b c q <> 0) -> NoDup ts ->
  (forall t, In t ts -> 0 < t < 1 /\ exists q, get z t = Ok q /\ side a b c q = 0) -> (length ts <= crossings a b c (cps z))%nat.
Proof. exact (get_crossings a b c z ts). Qed.
Print Assumptions C141_get.

(** ** C141.  Parameters reported by [roots] and [lineIntersects] against the line through [a] and [z]. *)
Theorem C141_quadratic_roots (a z : pt) (b : bezier R) (l ts : list R) : a <> z -> length (cps b) = 3%nat -> roots b (Some [a; z]) = Ok l ->
  NoDup ts -> incl ts l -> (forall t, In t ts -> 0 < t < 1) -> (length ts <= line_crossings a z (cps b))%nat.
Proof. exact (fun N => quadratic_crossings a z N b l ts). Qed.
Print Assumptions C141_quadratic_roots.
Theorem C141_cubic_roots (a z : pt) (b : bezier R) (l ts : list R) : a <> z -> length (cps b) = 4%nat ->
  let y := fun i => vcross (vsub z a) (vsub (nth i (cps b) (0, 0)) a) / vdist a z in cubic_clear (y 0%nat) (y 1%nat) (y 2%nat) (y 3%nat) ->
  roots b (Some [a; z]) = Ok l -> NoDup ts -> incl ts l -> (forall t, In t ts -> 0 < t < 1) -> (length ts <= line_crossings a z (cps b))%nat.
Proof. exact (fun N => cubic_crossings a z N b l ts). Qed.
Print Assumptions C141_cubic_roots.
Theorem C141_lineIntersects (a z : pt) (b : bezier R) (l : list R) : lineIntersects b a z = Ok l -> exists l', roots b (Some [a; z]) = Ok l' /\ incl l l'.
Proof. exact (intersects_sub a z b l). Qed.
Print Assumptions C141_lineIntersects.

(** ** C141.  The curve turns back in a direction no more often than its control polygon does. *)
Theorem C141_turns (b : bezier R) (x y : R) (ts : list R) : (length (cps b) = 3 \/ length (cps b) = 4)%nat ->
  (exists v, In v (legs (cps b)) /\ side x y 0 v <> 0) -> NoDup ts ->
  (forall t, In t ts -> 0 < t < 1 /\ exists d, derivative b t = Ok d /\ side x y 0 d = 0) -> (length ts <= crossings x y 0 (legs (cps b)))%nat.
Proof. exact (velocity_crossings b x y ts). Qed.
Print Assumptions C141_turns.

(** A polygon that crosses the x axis three times, as does its curve; an arch crosses the line y = 1 twice and y = 5 never. *)
Ltac count := unfold crossings, changes, side; cbn [map changes_from fst snd]; repeat match goal with
  | |- context [Req_EM_T ?u ?v] => destruct (Req_EM_T u v); try (exfalso; lra)
  | |- context [Rlt_dec ?u ?v] => destruct (Rlt_dec u v); try (exfalso; lra) end; reflexivity.
Example C141_wave : let b := mkBez [(0, -6); (1, 26 / 3); (2, -26 / 3); (3, 6)] 0 1 in
  crossings 0 1 0 (cps b) = 3%nat /\ NoDup [/ 4; / 2; 3 / 4] /\ forall t, In t [/ 4; / 2; 3 / 4] -> 0 < t < 1 /\ exists q, get b t = Ok q /\ side 0 1 0 q = 0.
Proof.
  intros b. split; [unfold b; cbn [cps]; count|]. split.
  - repeat constructor; cbn [In]; intros K; decompose [or] K; try contradiction; lra.
  - intros t I. assert (G : get b t = Ok (curve (cps b) t)) by (apply get_ok; simpl; lia).
    cbn [In] in I. destruct I as [<-|[<-|[<-|[]]]]; (split; [lra|]); eexists; (split; [exact G|]); unfold b; cbn [cps]; rewrite curve4; unfold side; cbn [fst snd]; field.
Qed.
Example C141_arch : let p := [(0, 0); (0, 4); (4, 4); (4, 0)] in crossings 0 1 1 p = 2%nat /\ crossings 0 1 5 p = 0%nat /\ crossings 1 0 2 p = 1%nat.
Proof. intros p. unfold p. repeat split; count. Qed.
