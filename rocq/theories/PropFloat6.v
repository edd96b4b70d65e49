(** Property C121: crossings of straight lines and points on a line, for whole-number coordinates, in IEEE double
    precision.  Nothing is asked of the C library. *)
From Coq Require Import List ZArith Bool Reals Lra Lia.
From Flocq Require Import Core BinarySingleNaN.
From Verif Require Import Py InstFloat SpecGeom SpecUtil SpecDouble SpecDouble3 MBezUtil MPathUtil ProofDouble ProofDouble2 ProofDouble15.
Import ListNotations.
Local Open Scope R_scope.

(** ** C121 *)
Theorem C121_line_crossing (TO : TrigOps b64) (a b c d : point b64) :
  on_grid 0 (2 ^ 16) a -> on_grid 0 (2 ^ 16) b -> on_grid 0 (2 ^ 16) c -> on_grid 0 (2 ^ 16) d ->
  (parallel (vpt a) (vpt b) (vpt c) (vpt d) -> lli [a; b] [c; d] = Ok None) /\
  (~ parallel (vpt a) (vpt b) (vpt c) (vpt d) -> exists q x, lli [a; b] [c; d] = Ok (Some q) /\
    on_line (vpt a) (vpt b) x /\ on_line (vpt c) (vpt d) x /\ nearest_double (fst x) (fst q) /\ nearest_double (snd x) (snd q)).
Proof. exact (grid_crossing a b c d). Qed.
Print Assumptions C121_line_crossing.
Theorem C121_intersection_point (TO : TrigOps b64) (a b c d : point b64) :
  on_grid 0 (2 ^ 15) a -> on_grid 0 (2 ^ 15) b -> on_grid 0 (2 ^ 15) c -> on_grid 0 (2 ^ 15) d ->
  (exists r, intersectionPoint [a; b] [c; d] = Ok r) /\
  (forall x, ~ parallel (vpt a) (vpt b) (vpt c) (vpt d) -> on_segment (vpt a) (vpt b) x -> on_segment (vpt c) (vpt d) x ->
    exists q, intersectionPoint [a; b] [c; d] = Ok (Some q) /\ nearest_double (fst x) (fst q) /\ nearest_double (snd x) (snd q)) /\
  (forall q, intersectionPoint [a; b] [c; d] = Ok (Some q) -> ~ parallel (vpt a) (vpt b) (vpt c) (vpt d) /\
    exists x, on_segment (vpt a) (vpt b) x /\ on_segment (vpt c) (vpt d) x /\ nearest_double (fst x) (fst q) /\ nearest_double (snd x) (snd q)).
Proof. exact (grid_intersection a b c d). Qed.
Print Assumptions C121_intersection_point.
Theorem C121_point_on_line (TO : TrigOps b64) (p a b : point b64) : on_grid 0 (2 ^ 15) p -> on_grid 0 (2 ^ 15) a -> on_grid 0 (2 ^ 15) b ->
  vpt p <> vpt a \/ val (fst a) = val (fst b) ->
  exists r, pointOnLine p [a; b] = Ok r /\ (r = true <-> on_segment (vpt a) (vpt b) (vpt p)).
Proof. exact (grid_on_line p a b). Qed.
Print Assumptions C121_point_on_line.
(** Two segments with whole coordinates that cross at (1/3, 1/3), which is not a double. *)
Lemma whole (x y N : Z) : (Z.abs x <= N)%Z -> (Z.abs y <= N)%Z -> (N < 2 ^ 53)%Z -> on_grid 0 N (bofZ x, bofZ y).
Proof. intros X Y L. exists x, y. cbn [fst snd]. repeat split; auto; cbn [pow]; rewrite ?Rinv_1, ?Rmult_1_r; apply val_int; lia. Qed.
Example C121_case : let a := (bofZ 0, bofZ 0) in let b := (bofZ 5, bofZ 5) in let c := (bofZ 0, bofZ 1) in let d := (bofZ 1, bofZ (-1)) in
  on_grid 0 (2 ^ 15) a /\ on_grid 0 (2 ^ 15) b /\ on_grid 0 (2 ^ 15) c /\ on_grid 0 (2 ^ 15) d /\ ~ parallel (vpt a) (vpt b) (vpt c) (vpt d) /\
  on_segment (vpt a) (vpt b) (1 / 3, 1 / 3) /\ on_segment (vpt c) (vpt d) (1 / 3, 1 / 3).
Proof.
  intros a b c d. repeat (split; [apply whole; lia|]).
  destruct (val_int 0 ltac:(lia)) as [_ V0]. destruct (val_int 1 ltac:(lia)) as [_ V1]. destruct (val_int 5 ltac:(lia)) as [_ V5]. destruct (val_int (-1) ltac:(lia)) as [_ V9].
  unfold vpt, a, b, c, d. cbn [fst snd]. rewrite V0, V1, V5, V9. split; [unfold parallel, vcross, vsub; cbn [fst snd]; lra|].
  split; [exists (1 / 15) | exists (1 / 3)]; (split; [lra|]); unfold along, vadd, vscale, vsub; cbn [fst snd]; f_equal; field.
Qed.
(** A point on a sloping line other than its start, and one beside it. *)
Example C121_on_line_case : let p := (bofZ 4, bofZ 6) in let r := (bofZ 4, bofZ 7) in let a := (bofZ 0, bofZ 0) in let b := (bofZ 10, bofZ 15) in
  on_grid 0 (2 ^ 15) p /\ on_grid 0 (2 ^ 15) r /\ on_grid 0 (2 ^ 15) a /\ on_grid 0 (2 ^ 15) b /\ vpt p <> vpt a /\ vpt r <> vpt a /\
  on_segment (vpt a) (vpt b) (vpt p) /\ ~ on_segment (vpt a) (vpt b) (vpt r).
Proof.
  intros p r a b. repeat (split; [apply whole; lia|]).
  destruct (val_int 0 ltac:(lia)) as [_ V0]. destruct (val_int 4 ltac:(lia)) as [_ V4]. destruct (val_int 6 ltac:(lia)) as [_ V6]. destruct (val_int 7 ltac:(lia)) as [_ V7]. destruct (val_int 10 ltac:(lia)) as [_ V10]. destruct (val_int 15 ltac:(lia)) as [_ V15].
  unfold vpt, p, r, a, b. cbn [fst snd]. rewrite V0, V4, V6, V7, V10, V15. split; [intros K; apply pair_equal_spec in K as [K _]; lra|]. split; [intros K; apply pair_equal_spec in K as [K _]; lra|]. split.
  - exists (2 / 5). split; [lra|]. unfold along, vadd, vscale, vsub; cbn [fst snd]. f_equal; field.
  - intros (s & _ & K). unfold along, vadd, vscale, vsub in K; cbn [fst snd] in K. apply pair_equal_spec in K as [K1 K2]. lra.
Qed.
(** Whole coordinates are needed: with tenths, two segments that share an end point do not meet. *)
Theorem C121_fractions_can_fail (TO : TrigOps b64) : exists a b c : point b64, sized 1 a /\ sized 1 b /\ sized 1 c /\
  ~ parallel (vpt a) (vpt b) (vpt b) (vpt c) /\ on_segment (vpt a) (vpt b) (vpt b) /\ on_segment (vpt b) (vpt c) (vpt b) /\
  intersectionPoint [a; b] [b; c] = Ok None.
Proof. exact shared_end_missed. Qed.
Print Assumptions C121_fractions_can_fail.
