(** Property C149: the named transforms compose like their parameters; determinants and areas (Transform.py), over the real numbers. *)
From Coq Require Import List ZArith Bool Reals Lra Lia.
From Verif Require Import Py Inst SpecGeom SpecMatrix SpecUndo SpecArea MTransform MMatrix ProofArea.
Import ListNotations.
Local Open Scope R_scope.
(** Rotations with exact sines and cosines. *)
Local Notation turn := (@_rotationMatrix R _ RExact).

(** ** C149.  Compositions of two transforms of the same kind. *)
Theorem C149_moves (a b c d : pt) : mkTransform [_translateMatrix a b; _translateMatrix c d] = Ok (_translateMatrix (fst a + fst c, snd a + snd c) (fst b + fst d, snd b + snd d)).
Proof. exact (compose_move a b c d). Qed.
Print Assumptions C149_moves.
Theorem C149_scalings (a b c d : R) : mkTransform [_scaleMatrix a b; _scaleMatrix c d] = Ok (_scaleMatrix (a * c) (b * d)).
Proof. exact (compose_scale a b c d). Qed.
Print Assumptions C149_scalings.
Theorem C149_shears (a b : R) : mkTransform [_shearMatrix a 0; _shearMatrix b 0] = Ok (_shearMatrix (a + b) 0) /\ mkTransform [_shearMatrix 0 a; _shearMatrix 0 b] = Ok (_shearMatrix 0 (a + b)).
Proof. exact (compose_shear a b). Qed.
Print Assumptions C149_shears.
Theorem C149_perspectives (a b c d : R) : mkTransform [_perspectiveMatrix a b 1; _perspectiveMatrix c d 1] = Ok (_perspectiveMatrix (a + c) (b + d) 1).
Proof. exact (compose_perspective a b c d). Qed.
Print Assumptions C149_perspectives.
Theorem C149_mirrors (a b c d : bool) : mkTransform [_mirrorMatrix a b; _mirrorMatrix c d] = Ok (@_mirrorMatrix R _ (xorb a c) (xorb b d)).
Proof. exact (compose_mirror a b c d). Qed.
Print Assumptions C149_mirrors.
Theorem C149_rotations (a b : R) (ccw : bool) : mkTransform [turn a ccw; turn b ccw] = Ok (turn (a + b) ccw) /\ turn (- a) ccw = turn a (negb ccw) /\ turn 180 ccw = _mirrorMatrix true true.
Proof. exact (conj (compose_rotation a b ccw) (conj (turn_signs a ccw) (half_turn ccw))). Qed.
Print Assumptions C149_rotations.
(** moveAndRotate and rotateAndMove undo each other. *)
Theorem C149_move_and_rotate (a b : pt) (d : R) : exists t u, @moveAndRotate R _ RExact a b d = Ok t /\ @rotateAndMove R _ RExact b a (- d) = Ok u /\
  matrixInvert t = Ok (Some u) /\ matrixInvert u = Ok (Some t).
Proof. exact (undo_move_rotate a b d). Qed.
Print Assumptions C149_move_and_rotate.
(** Determinants multiply along a composition of any length. *)
Theorem C149_determinants (ms : list (list (list R))) (t : list (list R)) (S : List.Forall (shape 3 3) ms) (composed : mkTransform ms = Ok t) : det3 t = fold_right Rmult 1 (map det3 ms).
Proof. exact (det_chain ms t S composed). Qed.
Print Assumptions C149_determinants.
Theorem C149_named (a b : pt) (sx sy p q s d : R) (ccw x y : bool) : det3 (_translateMatrix a b) = 1 /\ det3 (_scaleMatrix sx sy) = sx * sy /\ det3 (_shearMatrix sx sy) = 1 - sx * sy /\
  det3 (_mirrorMatrix x y) = (if xorb x y then -1 else 1) /\ det3 (turn d ccw) = 1 /\ det3 (_perspectiveMatrix p q s) = s.
Proof. exact (det_named a b sx sy p q s d ccw x y). Qed.
Print Assumptions C149_named.
(** All but the perspectives, and all compositions of them, are affine; these apply to every polygon and multiply its signed area by the determinant. *)
Theorem C149_affine (a b : pt) (sx sy d : R) (ccw x y : bool) : List.Forall affine [_translateMatrix a b; _scaleMatrix sx sy; _shearMatrix sx sy; _mirrorMatrix x y; turn d ccw] /\
  forall ms t, List.Forall affine ms -> mkTransform ms = Ok t -> affine t.
Proof. exact (conj (affine_named a b sx sy d ccw x y) affine_chain). Qed.
Print Assumptions C149_affine.
Theorem C149_area (m : list (list R)) (l : list pt) (A : affine m) : exists l', applyToSegment m l = Ok l' /\ twice_area l' = det3 m * twice_area l.
Proof. destruct (polygon_applies m l A) as (l' & E). exact (ex_intro _ l' (conj E (polygon_area m l l' A E))). Qed.
Print Assumptions C149_area.
(** Perspectives divide by the third coordinates of the corners. *)
Theorem C149_triangle (m : list (list R)) (p q r p' q' r' : pt) (S : shape 3 3 m) (P : applyToPoint m p = Ok p') (Q : applyToPoint m q = Ok q') (R0 : applyToPoint m r = Ok r') :
  twice_area [p'; q'; r'] * (weight m p * weight m q * weight m r) = det3 m * twice_area [p; q; r] /\ weight m p * weight m q * weight m r <> 0.
Proof. exact (triangle_area m p q r p' q' r' S P Q R0). Qed.
Print Assumptions C149_triangle.

(** A pentagon scaled and mirrored; a triangle in perspective. *)
Example C149_pentagon : let m := [[-2; 0; 0]; [0; 3; 0]; [5; 1; 1]] in affine m /\ det3 m = -6 /\ twice_area [(0, 0); (4, 0); (5, 2); (2, 4); (0, 3)] = 30.
Proof. cbv zeta. split; [do 6 eexists; reflexivity|]. split; [unfold det3, entry; cbn [nth]; lra|unfold twice_area, round_trip, wedge; cbn [fst snd]; lra]. Qed.
Example C149_in_perspective : applyToPoint (_perspectiveMatrix 1 0 1) (1, 2) = Ok (1 / 2, 1) /\ weight (_perspectiveMatrix 1 0 1) (1, 2) = 2.
Proof.
  split; [|unfold weight, _perspectiveMatrix, _matrix; cbn [fst snd]; lra]. unfold _perspectiveMatrix, _matrix. numR. rewrite apply9. destruct (Reqb_spec (1 * 1 + 2 * 0 + 1 * 1) 0) as [Z|Z]; [lra|]. do 2 f_equal; field.
Qed.
