(** Properties C48, C49, C50 and C61: roots, line intersections and alignment (Bezier.py). *)
From Coq Require Import List ZArith Bool Reals Lra Lia.
From Verif Require Import Py Inst SpecGeom SpecBezier SpecCurve MTransform MBezUtil MBezier SpecUtil ProofBezier ProofAlign ProofRoots.
Import ListNotations.
Local Open Scope R_scope.
#[local] Existing Instance RExact.

(** ** C48 *)
(** Against the x axis ([roots()] and [roots(())]). *)
Theorem C48_quadratic_roots (b : bezier R) (seg : option (segment R)) : length (cps b) = 3%nat -> seg = None \/ seg = Some [] ->
  (exists q, In q (cps b) /\ snd q <> 0) ->
  exists l, roots b seg = Ok l /\ forall t, In t l <-> snd (curve (cps b) t) = 0 /\ near_unit t.
Proof. exact (roots_quadratic (fun x => x) b seg). Qed.
Print Assumptions C48_quadratic_roots.
(** Against the line through [a] and [z]. *)
Theorem C48_quadratic_roots_on_a_line (a z : pt) (b : bezier R) : a <> z -> length (cps b) = 3%nat ->
  (exists q, In q (cps b) /\ ~ on_line a z q) ->
  exists l, roots b (Some [a; z]) = Ok l /\ forall t, In t l <-> on_line a z (curve (cps b) t) /\ near_unit t.
Proof. exact (fun N => roots_line_quadratic a z N b). Qed.
Print Assumptions C48_quadratic_roots_on_a_line.
(** The excluded cases: a curve inside the line has no roots, a straight line raises. *)
Theorem C48_inside (a z : pt) (b : bezier R) : a <> z -> (length (cps b) = 3 \/ length (cps b) = 4)%nat ->
  (forall q, In q (cps b) -> on_line a z q) -> roots b (Some [a; z]) = Ok [].
Proof. exact (fun N => roots_in_line a z N b). Qed.
Print Assumptions C48_inside.
Theorem C48_line_raises (b : bezier R) : length (cps b) = 2%nat -> roots b None = Err IndexError.
Proof. exact (roots_line_raises (fun x => x) b). Qed.
Print Assumptions C48_line_raises.
(** The parabola y = 2t(1-t)*8 - 3 has the roots 1/4 and 3/4. *)
Example C48_case : let b := mkBez [(0, -3); (1, 5); (2, -3)] 0 1 in (exists q, In q (cps b) /\ snd q <> 0) /\
  exists l, roots b None = Ok l /\ In (1 / 4) l /\ In (3 / 4) l /\ ~ In (1 / 2) l.
Proof.
  intros b. assert (N : exists q, In q (cps b) /\ snd q <> 0) by (exists (0, -3); split; [now left|cbn [snd]; lra]). split; [exact N|].
  destruct (C48_quadratic_roots b None eq_refl (or_introl eq_refl) N) as (l & E & H). exists l. split; [exact E|].
  rewrite !H. unfold b; cbn [cps]. rewrite !curve3. cbn [fst snd]. unfold near_unit.
  split; [split; [unfold bern2; lra|left; lra]|]. split; [split; [unfold bern2; lra|left; lra]|]. intros [K _]. unfold bern2 in K; lra.
Qed.
(** The same parabola against the line y = -3 + 3x through (0,-3) and (1,0): roots 0 and 5/8. *)
Example C48_line_case : let b := mkBez [(0, -3); (1, 5); (2, -3)] 0 1 in exists l, roots b (Some [(0, -3); (1, 0)]) = Ok l /\ In 0 l /\ In (5 / 8) l.
Proof.
  intros b. destruct (C48_quadratic_roots_on_a_line (0, -3) (1, 0) b) as (l & E & H).
  - intros K. injection K. lra.
  - reflexivity.
  - exists (1, 5). split; [right; now left|]. intros (s & K). unfold along, vadd, vscale, vsub in K; cbn [fst snd] in K. injection K. lra.
  - exists l. split; [exact E|]. rewrite !H. unfold b; cbn [cps]. rewrite !curve3. cbn [fst snd]. unfold near_unit, on_line, along, vadd, vscale, vsub, bern2; cbn [fst snd].
    split; (split; [|left; lra]).
    + exists 0. f_equal; lra.
    + exists (5 / 4). f_equal; lra.
Qed.

(** ** C49 *)
Theorem C49_cubic_roots (b : bezier R) (seg : option (segment R)) : length (cps b) = 4%nat -> seg = None \/ seg = Some [] ->
  (exists q, In q (cps b) /\ snd q <> 0) -> cubic_clear (cy (cps b) 0) (cy (cps b) 1) (cy (cps b) 2) (cy (cps b) 3) ->
  exists l, roots b seg = Ok l /\ forall t, In t l <-> snd (curve (cps b) t) = 0 /\ near_unit t.
Proof. exact (roots_cubic (fun x => x) b seg). Qed.
Print Assumptions C49_cubic_roots.
(** Against the line through [a] and [z]; [y i] is the signed distance of control point [i] from the line. *)
Theorem C49_cubic_roots_on_a_line (a z : pt) (b : bezier R) : a <> z -> length (cps b) = 4%nat -> (exists q, In q (cps b) /\ ~ on_line a z q) ->
  let y := fun i => vcross (vsub z a) (vsub (nth i (cps b) (0, 0)) a) / vdist a z in cubic_clear (y 0%nat) (y 1%nat) (y 2%nat) (y 3%nat) ->
  exists l, roots b (Some [a; z]) = Ok l /\ forall t, In t l <-> on_line a z (curve (cps b) t) /\ near_unit t.
Proof. exact (fun N => roots_line_cubic a z N b). Qed.
Print Assumptions C49_cubic_roots_on_a_line.
(** y = 64 (t - 1/4) (t - 1/2) (t - 3/4) = -6 + 44 t - 96 t^2 + 64 t^3: three roots. *)
Example C49_case : let b := mkBez [(0, -6); (1, 26 / 3); (2, -26 / 3); (3, 6)] 0 1 in
  cubic_clear (-6) (26 / 3) (-26 / 3) 6 /\ exists l, roots b None = Ok l /\ In (1 / 4) l /\ In (1 / 2) l /\ In (3 / 4) l.
Proof.
  intros b. assert (C : cubic_clear (-6) (26 / 3) (-26 / 3) 6).
  { unfold cubic_clear, clear. cbv zeta.
    assert (A3 : k3 (-6) (26 / 3) (-26 / 3) 6 = 64) by (unfold k3; lra).
    assert (A2 : k2 (-6) (26 / 3) (-26 / 3) 6 = -96) by (unfold k2; lra).
    assert (A1 : k1 (-6) (26 / 3) (-26 / 3) 6 = 44) by (unfold k1; lra). rewrite A3, A2, A1.
    split; [right; rewrite Rabs_pos_eq; lra|]. split; [lra|]. intros _. left. unfold cardano. lra. }
  split; [exact C|]. destruct (C49_cubic_roots b None eq_refl (or_introl eq_refl)) as (l & E & H).
  - exists (0, -6). split; [now left|cbn [snd]; lra].
  - exact C.
  - exists l. split; [exact E|]. rewrite !H. unfold b; cbn [cps]. rewrite !curve4. cbn [fst snd]. unfold near_unit, bern3.
    repeat (split; [split; [lra|left; lra]|]). split; [lra|left; lra].
Qed.

(** ** C50 *)
Theorem C50_quadratic_line_intersections (a z : pt) (b : bezier R) : a <> z -> length (cps b) = 3%nat ->
  exists l, lineIntersects b a z = Ok l /\
    (forall t, In t l -> near_unit t /\ on_line a z (curve (cps b) t) /\ near_box a z (curve (cps b) t)) /\
    ((exists q, In q (cps b) /\ ~ on_line a z q) -> forall t, 0 <= t <= 1 -> on_segment a z (curve (cps b) t) -> In t l).
Proof. exact (fun N => lineIntersects_quadratic a z N b). Qed.
Print Assumptions C50_quadratic_line_intersections.
Theorem C50_cubic_line_intersections (a z : pt) (b : bezier R) : a <> z -> length (cps b) = 4%nat -> (exists q, In q (cps b) /\ ~ on_line a z q) ->
  let y := fun i => vcross (vsub z a) (vsub (nth i (cps b) (0, 0)) a) / vdist a z in cubic_clear (y 0%nat) (y 1%nat) (y 2%nat) (y 3%nat) ->
  exists l, lineIntersects b a z = Ok l /\
    (forall t, In t l -> near_unit t /\ on_line a z (curve (cps b) t) /\ near_box a z (curve (cps b) t)) /\
    (forall t, 0 <= t <= 1 -> on_segment a z (curve (cps b) t) -> In t l).
Proof. exact (fun N => lineIntersects_cubic a z N b). Qed.
Print Assumptions C50_cubic_line_intersections.
(** intersectWithLine reports a crossing whenever there is one, up to the root tolerance. *)
Theorem C50_intersectWithLine (a z : pt) (b l : bezier R) : a <> z -> length (cps b) = 3%nat -> cps l = [a; z] ->
  (exists q, In q (cps b) /\ ~ on_line a z q) ->
  (intersectWithLine b l = Ok None /\ forall t, 0 <= t <= 1 -> ~ on_line a z (curve (cps b) t)) \/
  (exists t r, intersectWithLine b l = Ok (Some (curve (cps b) t)) /\ 0 <= t <= 1 /\ Rabs (t - r) <= 1 / 1000000 /\ on_line a z (curve (cps b) r)).
Proof. exact (fun N => intersectWithLine_quadratic a z N b l). Qed.
Print Assumptions C50_intersectWithLine.
(** The parabola through (1,1) at its apex meets the segment (0,1)-(2,1) at t = 1/2. *)
Example C50_case : let b := mkBez [(0, 0); (1, 2); (2, 0)] 0 1 in exists l, lineIntersects b (0, 1) (2, 1) = Ok l /\ In (1 / 2) l.
Proof.
  intros b. destruct (C50_quadratic_line_intersections (0, 1) (2, 1) b) as (l & E & _ & H).
  - intros K. injection K. lra.
  - reflexivity.
  - exists l. split; [exact E|]. apply H; [|lra|].
    + exists (0, 0). split; [now left|]. intros (s & K). unfold along, vadd, vscale, vsub in K; cbn [fst snd] in K. injection K. lra.
    + unfold b; cbn [cps]. rewrite curve3. exists (1 / 2). split; [lra|]. unfold along, vadd, vscale, vsub, bern2; cbn [fst snd]. f_equal; lra.
Qed.

(** ** C61 *)
(** Without a segment, or with an empty one, the curve is laid along its own chord. *)
Theorem C61_align (b : bezier R) (seg : option (segment R)) : (2 <= length (cps b))%nat -> seg = None \/ seg = Some [] ->
  let p0 := nth 0 (cps b) (0, 0) in let pn := nth (length (cps b) - 1) (cps b) (0, 0) in
  exists c f, align b seg = Ok c /\ cps c = map f (cps b) /\ f p0 = (0, 0) /\ f pn = (vdist p0 pn, 0) /\
    (forall p q, vdist (f p) (f q) = vdist p q) /\ forall t x, get b t = Ok x -> get c t = Ok (f x).
Proof. exact (align_spec b seg). Qed.
Print Assumptions C61_align.
Theorem C61_align_to_a_segment (b : bezier R) (s : segment R) : (2 <= length (cps b))%nat -> s <> [] ->
  let s0 := nth 0 s (0, 0) in let sn := nth (length s - 1) s (0, 0) in
  exists c f, align b (Some s) = Ok c /\ cps c = map f (cps b) /\ f s0 = (0, 0) /\ f sn = (vdist s0 sn, 0) /\
    (forall p q, vdist (f p) (f q) = vdist p q) /\ forall t x, get b t = Ok x -> get c t = Ok (f x).
Proof. exact (align_line_spec b s). Qed.
Print Assumptions C61_align_to_a_segment.
(** The line from (1,1) to (4,5) goes to (0,0), (5,0). *)
Example C61_case : exists c, align (mkBez [(1, 1); (4, 5)] 0 1) None = Ok c /\ cps c = [(0, 0); (5, 0)].
Proof.
  destruct (C61_align (mkBez [(1, 1); (4, 5)] 0 1) None) as (c & f & E & P & A & B & _); [simpl; lia|now left|].
  exists c. split; [exact E|]. rewrite P. cbn [cps map length nth Nat.sub] in *. rewrite A, B. do 3 f_equal.
  unfold vdist, dist2; cbn [fst snd]. replace ((1 - 4) ^ 2 + (1 - 5) ^ 2) with (5 * 5) by ring. apply sqrt_square. lra.
Qed.
