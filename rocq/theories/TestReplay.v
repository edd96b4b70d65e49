(** The tests of the repository (tests/test_*.py), replayed on the model: over the rationals and,
    with the same text, over binary64 floats.  They check the model, not the code. *)
From Coq Require Import List ZArith QArith Bool Reals Lra.
From Flocq Require Import IEEE754.BinarySingleNaN.
From Verif Require Import Py Inst InstFloat SpecGeom SpecTransform MTransform MBounds MBezUtil MPathUtil MMatrix MCurveFit ProofTransform.
Import ListNotations.
Local Open Scope Z_scope.
#[local] Existing Instances prec_gt_0 prec_lt_emax.

Section Replay.
  Context {T : Type} {N : NumOps T}.
  Fixpoint list_eqb {A} (e : A -> A -> bool) (a b : list A) : bool :=
    match a, b with [], [] => true | x :: a, y :: b => e x y && list_eqb e a b | _, _ => false end.
  Definition is_ok {A} (e : A -> A -> bool) (r : res A) (a : A) : bool := match r with Ok x => e x a | Err _ => false end.
  Definition pt_eqb (p q : point T) : bool := neqb (fst p) (fst q) && neqb (snd p) (snd q).
  Definition opt_eqb {A} (e : A -> A -> bool) (a b : option A) : bool :=
    match a, b with Some x, Some y => e x y | None, None => true | _, _ => false end.
  Definition mat_eqb : matrix T -> matrix T -> bool := list_eqb (list_eqb neqb).
  Definition P (x y : Z) : point T := (nofZ x, nofZ y).
  Definition M (m : list (list Z)) : matrix T := map (map nofZ) m.

  (** tests/test_curveFitting.py *)
  Definition test_multiply : bool :=
    let m := M [[-1; 0; 0]; [0; -1; 0]; [0; 0; 1]] in
    is_ok mat_eqb (multiply m (M [[100]; [200]; [1]])) (M [[-100]; [-200]; [1]]) &&
    is_ok mat_eqb (multiply (M [[100; 200; 1]]) m) (M [[-100; -200; 1]]).
  Definition test_transpose : bool :=
    is_ok mat_eqb (transpose (M [[1; 2; 3; 4]; [5; 6; 7; 8]; [9; 10; 11; 12]]))
      (M [[1; 5; 9]; [2; 6; 10]; [3; 7; 11]; [4; 8; 12]]).

  (** tests/test_matrixInvert.py *)
  Definition test_matrixInversion : bool :=
    let m := M [[1; 3; 3]; [1; 4; 3]; [1; 3; 4]] in
    let inv := M [[7; -3; -3]; [-1; 1; 0]; [-1; 0; 1]] in
    is_ok (opt_eqb mat_eqb) (matrixInvert m) (Some inv) &&
    is_ok mat_eqb (let* o := matrixInvert m in match o with Some i => multiply m i | None => Err TypeError end)
      (M [[1; 0; 0]; [0; 1; 0]; [0; 0; 1]]).

  (** tests/test_pathUtilities.py *)
  Definition p0 := P 0 0. Definition p1 := P 300 0. Definition p2 := P 300 400.
  Definition l0 := [p0; p1]. Definition l1 := [p1; p2]. Definition l2 := [p0; p2].
  Definition l3 := [P 0 0; P 100 100]. Definition l4 := [P 50 200; P 200 50].
  Definition test_slope : bool :=
    let s := nquot (nofZ 4) (nofZ 3) in
    is_ok slopeeqb (slope l0) (SFin (nofZ 0)) && is_ok slopeeqb (slope l1) SInf &&
    is_ok slopeeqb (slope l2) (SFin s) && is_ok slopeeqb (slope [p2; p0]) (SFin s).
  Definition test_midpoint : bool :=
    is_ok pt_eqb (midpoint l0) (P 150 0) && is_ok pt_eqb (midpoint l1) (P 300 200) && is_ok pt_eqb (midpoint l2) (P 150 200).
  Definition test_intersectionPoint : bool :=
    let ok := is_ok (opt_eqb pt_eqb) in
    ok (intersectionPoint [P 0 1; P 4 5] [P 4 2; P 0 4]) (Some (P 2 3)) && ok (intersectionPoint l0 l1) (Some (P 300 0)) &&
    ok (intersectionPoint l0 l2) (Some (P 0 0)) && ok (intersectionPoint l1 l2) (Some (P 300 400)) &&
    ok (intersectionPoint l3 l4) None.
  Definition test_pointOnLine : bool :=
    is_ok Bool.eqb (pointOnLine (P 150 200) l2) true && is_ok Bool.eqb (pointOnLine (P (-300) (-400)) l2) false.
  Definition test_length {Tr : TrigOps T} : bool :=
    is_ok neqb (seglength l0) (nofZ 300) && is_ok neqb (seglength l1) (nofZ 400) && is_ok neqb (seglength l2) (nofZ 500).

  (** tests/test_transforms.py, the part without trigonometry *)
  Definition m1 := M [[1; 0; 0]; [0; 1; 0]; [-4; -3; 1]].
  Definition m2 := M [[0; 1; 0]; [-1; 0; 0]; [0; 0; 1]].
  Definition m3 := M [[1; 0; 0]; [0; 1; 0]; [4; 3; 1]].
  Definition test_transform : bool :=
    is_ok mat_eqb (translate (P 4 3) (P 0 0)) m1 && is_ok mat_eqb (translate (P 0 0) (P 4 3)) m3 &&
    is_ok pt_eqb (let* t := mkTransform [m1; m2; m3] in applyToPoint t (P 8 6)) (P 1 7).

  Definition replay : bool :=
    test_multiply && test_transpose && test_matrixInversion && test_slope && test_midpoint && test_intersectionPoint &&
    test_pointOnLine && test_transform.
End Replay.

Example replay_rational : replay (T := Q) = true.
Proof. vm_compute. reflexivity. Qed.
Example replay_float : replay (T := b64) = true.
Proof. vm_compute. reflexivity. Qed.
(** math.hypot as the square root of the sum of the squares (exact on these arguments). *)
Example replay_length : test_length (T := b64) (Tr := FTrig (fun x => x) (fun x => x) (fun x => x) (fun x _ => x)
  (fun x y => Bsqrt mode_NE (nadd (nmul x x) (nmul y y))) (fun x _ => x) (bofZ 3) (fun x => x)) = true.
Proof. vm_compute. reflexivity. Qed.
(** The rotation by 90 degrees, with real sine and cosine. *)
Example replay_rotation : let tr := RPy in
  rotation 90%R true = Ok (m2 (T := R)) /\ rotationAbout (4, 3)%R 90%R true = mkTransform [m1; m2; m3].
Proof.
  cbv zeta. assert (S : tf_sin (H0 := RPy) 90%R = 1%R /\ tf_cos (H0 := RPy) 90%R = 0%R).
  { unfold tf_sin, tf_cos, radians. numR. replace (90 * (PI / 180))%R with (PI / 2)%R by field. rewrite sin_PI2, cos_PI2. split; [apply (round15_IZR 1)|apply (round15_IZR 0)]. }
  destruct S as [S C]. split.
  - unfold rotation, mkTransform, _rotationMatrix. rewrite S, C. reflexivity.
  - unfold rotationAbout, mkTransform, _rotationMatrix. rewrite S, C.
    assert (A : _translateMatrix (4, 3)%R origin = m1 (T := R)) by (unfold _translateMatrix, origin, _matrix, m1, M; cbn [map]; numR; repeat (f_equal; try lra)).
    assert (B : _translateMatrix origin (4, 3)%R = m3 (T := R)) by (unfold _translateMatrix, origin, _matrix, m3, M; cbn [map]; numR; repeat (f_equal; try lra)).
    rewrite A, B. reflexivity.
Qed.
