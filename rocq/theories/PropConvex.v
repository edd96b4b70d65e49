(** Property C139: a curve and everything cut from it stay in the convex hull of the control points. *)
From Coq Require Import List ZArith Bool Reals Lra Lia.
From Verif Require Import Py Inst SpecGeom SpecBezier SpecConvex MBezier ProofBezier ProofCurve ProofConvex.
Import ListNotations.
Local Open Scope R_scope.

(** The half planes of [in_hull] pin a point down: for two points the hull is the line between them. *)
Theorem C139_hull_of_two (p q r : pt) : in_hull [p; q] r -> exists w, 0 <= w <= 1 /\ r = ((1 - w) * fst p + w * fst q, (1 - w) * snd p + w * snd q).
Proof. exact (hull_two p q r). Qed.
Print Assumptions C139_hull_of_two.

(** ** C139.  Points of the curve, of its de Casteljau scheme and of its table are in the hull, for curves of every order. *)
Theorem C139_get (b : bezier R) (t : R) (q : pt) : 0 <= t <= 1 -> get b t = Ok q -> in_hull (cps b) q.
Proof. exact (get_hull b t q). Qed.
Print Assumptions C139_get.
Theorem C139_scheme (b : bezier R) (t : R) (q : pt) : 0 <= t <= 1 -> In q (hull b t) -> in_hull (cps b) q.
Proof. exact (hull_hull b t q). Qed.
Print Assumptions C139_scheme.
Theorem C139_table (b : bezier R) (s : Z) (l : list pt) : getLUT b s = Ok l -> forall q, In q l -> in_hull (cps b) q.
Proof. exact (lut_hull b s l). Qed.
Print Assumptions C139_table.

(** ** C139.  Control points of pieces are in the hull. *)
Theorem C139_split1 (b : bezier R) (t : R) (l r : bezier R) (h : list pt) : 0 <= t <= 1 -> split1 b t = Ok (l, r, h) ->
  forall q, In q (cps l) \/ In q (cps r) -> in_hull (cps b) q.
Proof. exact (split1_hull b t l r h). Qed.
Print Assumptions C139_split1.
Theorem C139_split2 (b : bezier R) (t1 t2 : R) s : 0 <= t1 -> t1 <= t2 -> t2 <= 1 -> split2 b t1 t2 = Ok s ->
  match s with
  | SCurve c => forall q, In q (cps c) -> in_hull (cps b) q
  | STriple l r _ => forall q, In q (cps l) \/ In q (cps r) -> in_hull (cps b) q
  end.
Proof. exact (split2_hull b t1 t2 s). Qed.
Print Assumptions C139_split2.
Theorem C139_reduce (rnd : R -> R) (b : bezier R) (fuel : nat) (l : list (bezier R)) : (length (cps b) = 3 \/ length (cps b) = 4)%nat ->
  @reduce R _ (RTrig rnd) fuel b = Ok l -> forall c q, In c l -> In q (cps c) -> in_hull (cps b) q.
Proof. exact (@reduce_hull rnd b fuel l). Qed.
Print Assumptions C139_reduce.
Theorem C139_raiseOrder (b c : bezier R) : (2 <= length (cps b))%nat -> raiseOrder b = Ok c -> forall q, In q (cps c) -> in_hull (cps b) q.
Proof. exact (raise_hull b c). Qed.
Print Assumptions C139_raiseOrder.

(** ** C139.  Velocities are in the hull of the legs of the control polygon, and a curve runs forward wherever its polygon does. *)
Theorem C139_derivative (b : bezier R) (t : R) (d : pt) : (length (cps b) = 3 \/ length (cps b) = 4)%nat -> 0 <= t <= 1 ->
  derivative b t = Ok d -> in_hull (legs (cps b)) d.
Proof. exact (velocity_hull b t d). Qed.
Print Assumptions C139_derivative.
Theorem C139_forward (b : bezier R) (x y s t : R) (p q : pt) : runs x y (cps b) -> 0 <= s -> s <= t -> t <= 1 ->
  get b s = Ok p -> get b t = Ok q -> x * fst p + y * snd p <= x * fst q + y * snd q.
Proof. exact (get_runs b x y s t p q). Qed.
Print Assumptions C139_forward.

(** An arch runs to the right and has its middle in the hull; its top control points are not on it, and past the end it leaves the hull. *)
Definition arch : bezier R := mkBez [(0, 0); (0, 4); (4, 4); (4, 0)] 0 1.
Example C139_arch : runs 1 0 (cps arch) /\ get arch (/ 2) = Ok (2, 3) /\ in_hull (cps arch) (2, 3) /\ ~ in_hull (cps arch) (2, 5) /\
  exists q, get arch 2 = Ok q /\ ~ in_hull (cps arch) q.
Proof.
  assert (G : forall t, get arch t = Ok (curve (cps arch) t)) by (intros t; apply get_ok; simpl; lia).
  assert (M : curve (cps arch) (/ 2) = (2, 3)) by (cbn [arch cps]; rewrite curve4; cbn [fst snd]; f_equal; field).
  split. { intros i Hi. cbn [arch cps length] in Hi. destruct i as [|[|[|i]]]; cbn [arch cps nth fst snd]; try lra. lia. }
  split; [rewrite G, M; reflexivity|]. split; [rewrite <- M; apply (get_hull arch (/ 2)); [lra | apply G]|].
  split. { intros H. specialize (H 0 1 4). cbn [fst snd] in H. assert (0 * 2 + 1 * 5 <= 4); [|lra]. apply H. intros p [<-|[<-|[<-|[<-|[]]]]]; cbn [fst snd]; lra. }
  eexists. split; [apply G|]. cbn [arch cps]. rewrite curve4. cbn [fst snd]. intros H. specialize (H 0 (-1) 0). cbn [fst snd] in H.
  match type of H with _ -> ?A => assert A as K; [apply H; intros p [<-|[<-|[<-|[<-|[]]]]]; cbn [fst snd]; lra|] end. lra.
Qed.
