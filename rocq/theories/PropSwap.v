(** Property C131: results do not depend on the order of the arguments or on the direction of drawing. *)
From Coq Require Import List Bool ZArith Reals Lra Lia Permutation.
From Verif Require Import Py Inst SpecGeom SpecBezier SpecMove SpecSwap MTransform MBounds MBezUtil MPathUtil MBezier MTables MBezierObj
  ProofBezier ProofInter ProofSwap ProofReverse.
Import ListNotations.
Local Open Scope R_scope.

#[local] Hint Extern 0 (TrigOps R) => exact RPy : typeclass_instances.
(** Intersections of two curves: the same pairs of parameters, each the other way round. *)
Theorem C131_exchanged_intersections (b c : bezier R) (threshold : R) (rfuel fuel : nat) :
  (length (cps b) = 3 \/ length (cps b) = 4)%nat -> (length (cps c) = 3 \/ length (cps c) = 4)%nat -> (102 <= rfuel)%nat ->
  exchanged (intersects rfuel fuel b (Some c) threshold) (intersects rfuel fuel c (Some b) threshold).
Proof. exact (intersects_swap round15 rfuel fuel b c threshold). Qed.
Print Assumptions C131_exchanged_intersections.
Example C131_case : let b := mkBez [(0, 0); (100, 200); (200, 0)] 0 1 in let c := mkBez [(0, 90); (50, 120); (150, 10); (200, 80)] 0 1 in
  (length (cps b) = 3 \/ length (cps b) = 4)%nat /\ (length (cps c) = 3 \/ length (cps c) = 4)%nat /\
  exchanged (Ok [(1/4, 1/3); (3/4, 2/3)]) (Ok [(2/3, 3/4); (1/3, 1/4)]).
Proof. split; [now left|]. split; [now right|]. apply perm_swap. Qed.
(** Two lines or two segments: the same crossing, whichever is named first and whichever way each is drawn. *)
Theorem C131_exchanged_lines (a b c d : R * R) :
  lli4 c d a b = lli4 a b c d /\ lli4 b a c d = lli4 a b c d /\
  intersectionPoint [c; d] [a; b] = intersectionPoint [a; b] [c; d] /\ intersectionPoint [b; a] [c; d] = intersectionPoint [a; b] [c; d].
Proof. exact (conj (lli4_swap a b c d) (conj (lli4_rev a b c d) (conj (crossing_swap a b c d) (crossing_rev a b c d)))). Qed.
Print Assumptions C131_exchanged_lines.
(** Two boxes: the relation seen from the other side. *)
Theorem C131_exchanged_boxes (a b : rect R) : a <> b ->
  relationTo b a = match relationTo a b with relationEnclosed => relationEncloses | relationEncloses => relationEnclosed | x => x end.
Proof. exact (relation_swap a b). Qed.
Print Assumptions C131_exchanged_boxes.
Example C131_boxes_case : mkRect 0 2 2 0 <> mkRect 0 1 1 0.
Proof. intros [= E _]. lra. Qed.
(** A curve drawn backwards passes the same points, and moves the other way through them. *)
Theorem C131_backwards_points (b : bezier R) (t : R) : (length (cps b) = 3 \/ length (cps b) = 4)%nat ->
  get (reversed b) t = get b (1 - t) /\
  derivative (reversed b) t = answer (fun d => (- fst d, - snd d)) (derivative b (1 - t)).
Proof. intros L. split; [apply get_rev; lia|exact (derivative_rev b t L)]. Qed.
Print Assumptions C131_backwards_points.
(** It has the same box and the same length. *)
Theorem C131_backwards_sizes (b : bezier R) : (length (cps b) = 3 \/ length (cps b) = 4)%nat ->
  boundsRectangle (reversed b) = boundsRectangle b /\ quadrature (reversed b) = quadrature b.
Proof. intros L. split; [apply (bounds_rev round15); lia|exact (length_rev round15 b L)]. Qed.
Print Assumptions C131_backwards_sizes.
(** Its two parts at the same point are the two parts of the curve, drawn backwards and exchanged. *)
Theorem C131_backwards_parts (b : bezier R) (t : R) : (length (cps b) = 3 \/ length (cps b) = 4)%nat ->
  exists l r q l' r' q', split1 b t = Ok (l, r, q) /\ split1 (reversed b) (1 - t) = Ok (l', r', q') /\
    cps l' = rev (cps r) /\ cps r' = rev (cps l).
Proof. exact (split_rev_ok b t). Qed.
Print Assumptions C131_backwards_parts.
Example C131_backwards_case : let b := mkBez [(0, 0); (100, 200); (200, 50)] 0 1 in (length (cps b) = 3 \/ length (cps b) = 4)%nat /\
  cps (reversed b) = [(200, 50); (100, 200); (0, 0)] /\ get (reversed b) (1 / 4) = Ok (150, 825 / 8).
Proof.
  split; [now left|]. split; [reflexivity|]. rewrite get_rev by (simpl; lia). rewrite get_ok by (simpl; lia). cbn [cps]. rewrite curve3. cbn [fst snd].
  refine (f_equal2 (fun x y => Ok (x, y)) _ _); lra.
Qed.
