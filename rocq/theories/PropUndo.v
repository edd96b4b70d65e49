(** Property C147: inverse matrices undo transforms (MatrixInversion.py, CurveFitting.py and Transform.py together), over the real numbers. *)
From Coq Require Import List ZArith Bool Reals Lra Lia.
From Verif Require Import Py Inst SpecGeom SpecMatrix SpecUndo MTransform MMatrix MCurveFit ProofUndo.
Import ListNotations.
Local Open Scope R_scope.

(** ** C147.  The algebra of matrixInvert, for square matrices of any size. *)
Theorem C147_twice (n : nat) (M I : list (list R)) (Hn : (0 < n)%nat) (square : shape n n M) (inverse : matrixInvert M = Ok (Some I)) : matrixInvert I = Ok (Some M).
Proof. exact (invert_twice n M I Hn square inverse). Qed.
Print Assumptions C147_twice.
Theorem C147_product (n : nat) (A B I J : list (list R)) (Hn : (0 < n)%nat) (SA : shape n n A) (SB : shape n n B)
  (EA : matrixInvert A = Ok (Some I)) (EB : matrixInvert B = Ok (Some J)) : exists P Q, multiply A B = Ok P /\ multiply J I = Ok Q /\ matrixInvert P = Ok (Some Q).
Proof. exact (invert_product n A B I J Hn SA SB EA EB). Qed.
Print Assumptions C147_product.
Theorem C147_transpose (n : nat) (M I : list (list R)) (Hn : (0 < n)%nat) (square : shape n n M) (inverse : matrixInvert M = Ok (Some I)) :
  exists Mt It, transpose M = Ok Mt /\ transpose I = Ok It /\ matrixInvert Mt = Ok (Some It).
Proof. exact (invert_transpose n M I Hn square inverse). Qed.
Print Assumptions C147_transpose.
(** Whatever inverts a matrix, from either side, is what matrixInvert finds. *)
Theorem C147_found (n : nat) (M X : list (list R)) (Hn : (0 < n)%nat) (SM : shape n n M) (SX : shape n n X) (inverse : inverse_of n M X \/ inverse_of n X M) : matrixInvert M = Ok (Some X).
Proof. exact (invert_is n M X Hn SM SX inverse). Qed.
Print Assumptions C147_found.
(** The matrices of transforms: the two ways of multiplying agree, and there is no inverse exactly when the determinant is zero. *)
Theorem C147_products_agree (m1 m2 : list (list R)) (S1 : shape 3 3 m1) (S2 : shape 3 3 m2) : multiplyMatrixByMatrix m1 m2 = multiply m1 m2.
Proof. exact (two_products m1 m2 S1 S2). Qed.
Print Assumptions C147_products_agree.
Theorem C147_determinant (m : list (list R)) (S : shape 3 3 m) : matrixInvert m = Ok None <-> det3 m = 0.
Proof. exact (none_iff_det m S). Qed.
Print Assumptions C147_determinant.
(** Applying the inverse brings a point back wherever the transform, affine or perspective, could be applied; so with segments and contours. *)
Theorem C147_point (m I : list (list R)) (p q : pt) (S : shape 3 3 m) (inverse : matrixInvert m = Ok (Some I)) (moved : applyToPoint m p = Ok q) : applyToPoint I q = Ok p.
Proof. exact (undo_point m I p q S inverse moved). Qed.
Print Assumptions C147_point.
Theorem C147_contours (m I : list (list R)) (S : shape 3 3 m) (inverse : matrixInvert m = Ok (Some I)) :
  (forall s s', applyToSegment m s = Ok s' -> applyToSegment I s' = Ok s) /\ (forall c c', applyToContour m c = Ok c' -> applyToContour I c' = Ok c) /\
  (forall l l', applyToContours m l = Ok l' -> applyToContours I l' = Ok l).
Proof. exact (undo_contours m I S inverse). Qed.
Print Assumptions C147_contours.
(** A composed transform is undone by the inverses in the opposite order. *)
Theorem C147_chain (ms invs : list (list (list R))) (some : ms <> []) (S : List.Forall (shape 3 3) ms) (inverses : Forall2 (fun m i => matrixInvert m = Ok (Some i)) ms invs) :
  exists t u, mkTransform ms = Ok t /\ shape 3 3 t /\ mkTransform (rev invs) = Ok u /\ matrixInvert t = Ok (Some u).
Proof. exact (undo_chain ms invs some S inverses). Qed.
Print Assumptions C147_chain.
(** The inverses of the transforms the library names; angles with exact sines and cosines. *)
Theorem C147_named :
  (forall a b : pt, matrixInvert (_translateMatrix a b) = Ok (Some (_translateMatrix b a))) /\
  (forall sx sy : R, sx <> 0 -> sy <> 0 -> matrixInvert (_scaleMatrix sx sy) = Ok (Some (_scaleMatrix (/ sx) (/ sy)))) /\
  (forall x y, matrixInvert (_mirrorMatrix x y) = Ok (Some (@_mirrorMatrix R _ x y))) /\
  (forall s : R, matrixInvert (_shearMatrix s 0) = Ok (Some (_shearMatrix (- s) 0)) /\ matrixInvert (_shearMatrix 0 s) = Ok (Some (_shearMatrix 0 (- s)))) /\
  (forall (d : R) (ccw : bool), matrixInvert (@_rotationMatrix R _ RExact d ccw) = Ok (Some (@_rotationMatrix R _ RExact d (negb ccw)))) /\
  (forall p q s : R, s <> 0 -> matrixInvert (_perspectiveMatrix p q s) = Ok (Some (_perspectiveMatrix (- p / s) (- q / s) (/ s)))).
Proof. exact undo_named. Qed.
Print Assumptions C147_named.
Theorem C147_flattening (sx sy p q s : R) : (matrixInvert (_scaleMatrix sx sy) = Ok None <-> sx = 0 \/ sy = 0) /\
  (matrixInvert (_shearMatrix sx sy) = Ok None <-> sx * sy = 1) /\ (matrixInvert (_perspectiveMatrix p q s) = Ok None <-> s = 0).
Proof. exact (no_undo_named sx sy p q s). Qed.
Print Assumptions C147_flattening.
Theorem C147_about (about : pt) (d p q : R) (ccw x y : bool) :
  (exists t u, @rotationAbout R _ RExact about d ccw = Ok t /\ @rotationAbout R _ RExact about d (negb ccw) = Ok u /\ matrixInvert t = Ok (Some u)) /\
  (exists t, mirrorAround about x y = Ok t /\ matrixInvert t = Ok (Some t)) /\
  (exists t u, perspectiveFrom about p q = Ok t /\ perspectiveFrom about (- p) (- q) = Ok u /\ matrixInvert t = Ok (Some u)).
Proof. exact (undo_about about d p q ccw x y). Qed.
Print Assumptions C147_about.

(** A matrix whose first pivot is zero and its inverse. *)
Example C147_pivot : shape 2 2 [[0; 2]; [1; 1]] /\ matrixInvert [[0; 2]; [1; 1]] = Ok (Some [[-1 / 2; 1]; [1 / 2; 0]]).
Proof.
  assert (S : forall a b c d : R, shape 2 2 [[a; b]; [c; d]]) by (intros; split; [reflexivity|repeat constructor]).
  split; [apply S|]. apply (invert_is 2); [lia|apply S|apply S|left].
  intros i j Hi Hj. unfold prod_entry, entry. cbn [rsum]. destruct i as [|[|]]; try lia; destruct j as [|[|]]; try lia; cbn [nth Nat.eqb]; lra.
Qed.
(** A scaling followed by a perspective: the point (1, 2) is brought back. *)
Example C147_back : exists t u q, mkTransform [_scaleMatrix 2 4; _perspectiveMatrix 1 0 2] = Ok t /\ mkTransform [_perspectiveMatrix (- 1 / 2) (- 0 / 2) (/ 2); _scaleMatrix (/ 2) (/ 4)] = Ok u /\
  applyToPoint t (1, 2) = Ok q /\ applyToPoint u q = Ok (1, 2).
Proof.
  destruct (undo_chain [_scaleMatrix 2 4; _perspectiveMatrix 1 0 2] [_scaleMatrix (/ 2) (/ 4); _perspectiveMatrix (- 1 / 2) (- 0 / 2) (/ 2)]) as (t & u & A & S & B & C);
    [discriminate|repeat constructor|constructor; [apply undo_scale; lra|constructor; [apply undo_perspective; lra|constructor]]|].
  destruct (applyToPoint t (1, 2)) as [q|e] eqn:E.
  - exists t, u, q. split; [exact A|]. split; [exact B|]. split; [exact E|]. exact (undo_point t u (1, 2) q S C E).
  - exfalso. injection A as <-. unfold applyToPoint in E. cbn [multiplyRowByMatrix unpack3 bind idx nth_error mapM map] in E. unfold ndiv in E. numR.
    match type of E with context [Reqb ?w 0] => assert (K : w <> 0) by lra; apply Reqb_false in K; rewrite K in E end. cbn [bind] in E. discriminate E.
Qed.
