(** Model of PathLib/Transform.py. *)
From Coq Require Import List ZArith Bool.
From Verif Require Import Py.
Import ListNotations.
Local Open Scope num_scope.

(** Transform.py:12-13 — Row and Matrix are lists; nothing forces them to be 3x3. *)
Notation row T := (list T).
Notation matrix T := (list (list T)).

Section Transform.
  Context {T : Type} `{NumOps T} `{TrigOps T}.

  (** Tuple unpacking [x1, x2, x3 = l] (ValueError unless exactly three items). *)
  Definition unpack3 {A : Type} (l : list A) : res (A * A * A) :=
    match l with [a; b; c] => Ok (a, b, c) | _ => Err ValueError end.

  (** Transform.py:20-30 multiplyRowByMatrix. *)
  Definition multiplyRowByMatrix (r : row T) (m : matrix T) : res (row T) :=
    let* (r1, r2, r3) := unpack3 r in
    let* (m1, m2, m3) := unpack3 m in
    let* (m11, m12, m13) := unpack3 m1 in
    let* (m21, m22, m23) := unpack3 m2 in
    let* (m31, m32, m33) := unpack3 m3 in
    Ok [r1 * m11 + r2 * m21 + r3 * m31; r1 * m12 + r2 * m22 + r3 * m32;
        r1 * m13 + r2 * m23 + r3 * m33].

  (** Transform.py:33-41 multiplyMatrixByMatrix. *)
  Definition multiplyMatrixByMatrix (m1 m2 : matrix T) : res (matrix T) :=
    mapM (fun r => multiplyRowByMatrix r m2) m1.

  (** Transform.py:44-52 concatenateMatrices ([matrices[0]] raises IndexError when empty). *)
  Definition concatenateMatrices (ms : list (matrix T)) : res (matrix T) :=
    match ms with
    | [] => Err IndexError
    | m :: rest => foldM multiplyMatrixByMatrix rest m
    end.

  (** Transform.py:55-61, 64-70 sin and cos of degrees, rounded to 15 places.
      math.radians(d) is d * (pi / 180), in that order. *)
  Definition radians (d : T) : T := d * nquot tpi (nofZ 180).
  Definition tf_sin (degrees : T) : T := tround15 (tsin (radians degrees)).
  Definition tf_cos (degrees : T) : T := tround15 (tcos (radians degrees)).

  (** Transform.py:72-76 __init__: a Transform is its matrix. *)
  Definition mkTransform (ms : list (matrix T)) : res (matrix T) := concatenateMatrices ms.

  (** Transform.py:79-86 _matrix (argument order a b c d m n p q s). *)
  Definition _matrix (a b c d m n p q s : T) : matrix T := [[a; b; p]; [c; d; q]; [m; n; s]].

  (** Transform.py:89-93. *)
  Definition _identityMatrix : matrix T :=
    _matrix (nofZ 1) (nofZ 0) (nofZ 0) (nofZ 1) (nofZ 0) (nofZ 0) (nofZ 0) (nofZ 0) (nofZ 1).
  (** Transform.py:96-100. *)
  Definition _scaleMatrix (sx sy : T) : matrix T :=
    _matrix sx (nofZ 0) (nofZ 0) sy (nofZ 0) (nofZ 0) (nofZ 0) (nofZ 0) (nofZ 1).
  (** Transform.py:103-112. *)
  Definition _translateMatrix (fromPoint toPoint : point T) : matrix T :=
    let (fpx, fpy) := fromPoint in
    let (tpx, tpy) := toPoint in
    let tx := tpx - fpx in
    let ty := tpy - fpy in
    _matrix (nofZ 1) (nofZ 0) (nofZ 0) (nofZ 1) tx ty (nofZ 0) (nofZ 0) (nofZ 1).
  (** Transform.py:115-119 (b = sy, c = sx). *)
  Definition _shearMatrix (sx sy : T) : matrix T :=
    _matrix (nofZ 1) sy sx (nofZ 1) (nofZ 0) (nofZ 0) (nofZ 0) (nofZ 0) (nofZ 1).
  (** Transform.py:122-128. *)
  Definition _mirrorMatrix (xAxis yAxis : bool) : matrix T :=
    let a := if yAxis then nofZ (-1) else nofZ 1 in
    let d := if xAxis then nofZ (-1) else nofZ 1 in
    _matrix a (nofZ 0) (nofZ 0) d (nofZ 0) (nofZ 0) (nofZ 0) (nofZ 0) (nofZ 1).
  (** Transform.py:131-139. *)
  Definition _rotationMatrix (degrees : T) (ccw : bool) : matrix T :=
    let st := tf_sin degrees in
    let ct := tf_cos degrees in
    if ccw
    then _matrix ct st (- st) ct (nofZ 0) (nofZ 0) (nofZ 0) (nofZ 0) (nofZ 1)
    else _matrix ct (- st) st ct (nofZ 0) (nofZ 0) (nofZ 0) (nofZ 0) (nofZ 1).
  (** Transform.py:142-146. *)
  Definition _perspectiveMatrix (p q s : T) : matrix T :=
    _matrix (nofZ 1) (nofZ 0) (nofZ 0) (nofZ 1) (nofZ 0) (nofZ 0) p q s.

  (** Transform.py:156-202: translate, scale, shear, mirror, rotation, perspective. *)
  Definition translate (a b : point T) : res (matrix T) := mkTransform [_translateMatrix a b].
  Definition scale (sx sy : T) : res (matrix T) := mkTransform [_scaleMatrix sx sy].
  Definition shear (sx sy : T) : res (matrix T) := mkTransform [_shearMatrix sx sy].
  Definition mirror (xAxis yAxis : bool) : res (matrix T) := mkTransform [_mirrorMatrix xAxis yAxis].
  Definition rotation (degrees : T) (ccw : bool) : res (matrix T) :=
    mkTransform [_rotationMatrix degrees ccw].
  Definition perspective (p q s : T) : res (matrix T) := mkTransform [_perspectiveMatrix p q s].

  (** Transform.py:205-208 moveAndRotate. *)
  Definition moveAndRotate (a b : point T) (degrees : T) : res (matrix T) :=
    mkTransform [_translateMatrix a b; _rotationMatrix degrees true].
  (** Transform.py:211-214 rotateAndMove. *)
  Definition rotateAndMove (a b : point T) (degrees : T) : res (matrix T) :=
    mkTransform [_rotationMatrix degrees true; _translateMatrix a b].

  Definition origin : point T := (nofZ 0, nofZ 0).

  (** Transform.py:217-232 rotationAbout. *)
  Definition rotationAbout (about : point T) (degrees : T) (ccw : bool) : res (matrix T) :=
    mkTransform [_translateMatrix about origin; _rotationMatrix degrees ccw;
                 _translateMatrix origin about].

  (** Transform.py:235-254 mirrorAround. *)
  Definition mirrorAround (centerPoint : point T) (xAxis yAxis : bool) : res (matrix T) :=
    let (cx, cy) := centerPoint in
    let ty := if xAxis then cy else nofZ 0 in
    let tx := if yAxis then cx else nofZ 0 in
    let mirrorPoint := (cx - tx, cy - ty) in
    mkTransform [_translateMatrix centerPoint mirrorPoint; _mirrorMatrix xAxis yAxis;
                 _translateMatrix mirrorPoint centerPoint].

  (** Transform.py:257-273 perspectiveFrom. *)
  Definition perspectiveFrom (centerPoint : point T) (p q : T) : res (matrix T) :=
    mkTransform [_translateMatrix centerPoint origin; _perspectiveMatrix p q (nofZ 1);
                 _translateMatrix origin centerPoint].

  (** Transform.py:275-296 applyToPoint (commented-out complex branch not modelled). *)
  Definition applyToPoint (t : matrix T) (pt : point T) : res (point T) :=
    let (px, py) := pt in
    let* rp := multiplyRowByMatrix [px; py; nofZ 1] t in
    let* rp0 := idx rp 0 in
    let* rp1 := idx rp 1 in
    let* rp2 := idx rp 2 in
    let* rx := ndiv rp0 rp2 in
    let* ry := ndiv rp1 rp2 in
    Ok (rx, ry).

  (** Transform.py:298-306, 309-317, 320-328. *)
  Definition applyToSegment (t : matrix T) (s : segment T) : res (segment T) :=
    mapM (applyToPoint t) s.
  Definition applyToContour (t : matrix T) (c : contour T) : res (contour T) :=
    mapM (applyToSegment t) c.
  Definition applyToContours (t : matrix T) (cs : list (contour T)) : res (list (contour T)) :=
    mapM (applyToContour t) cs.
End Transform.

