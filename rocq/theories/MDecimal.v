(** Model of the Decimal arithmetic of PathLib/Bezier.py:174-203, 391-397, 408-422 (_derivative on a Decimal,
    _arcfun, length).  A Decimal is a real number; every operation rounds its exact result to the precision of
    the thread's context, halves to even (the default context of the module decimal).  The exponent limits of
    that context, 10^-999999 and 10^999999, are not modelled: numbers of double size do not come near them. *)
From Coq Require Import List ZArith Bool Reals.
From Flocq Require Import Core BinarySingleNaN.
From Verif Require Import Py InstFloat SpecGeom MTables MTransform MBezUtil MBezier.
Import ListNotations.
Local Open Scope R_scope.

Definition ten : radix := Build_radix 10 eq_refl.

(** Operations in a context of precision [prec]. *)
Section Context.
  Context (prec : Z).
  Definition drnd (x : R) : R := round ten (FLX_exp prec) ZnearestE x.
  Definition dadd (x y : R) : R := drnd (x + y).
  Definition dsub (x y : R) : R := drnd (x - y).
  Definition dmul (x y : R) : R := drnd (x * y).
  (** [x.fma(y, z)] rounds once. *)
  Definition dfma (x y z : R) : R := drnd (x * y + z).
  (** [x.sqrt()] is correctly rounded. *)
  Definition dsqrt (x : R) : R := drnd (sqrt x).
  (** [+x]. *)
  Definition dpos (x : R) : R := drnd x.

  (** Bezier.py:174-203 _derivative(t: Decimal), from the control points [dc] of the derivatives; the integers 0, 1 and 2
      and the coordinates become Decimals exactly. *)
  Definition decDerivative (dc : list (list pt)) (ord : nat) (t : R) : res pt :=
    let* p := idx dc 0 in
    let mt := dsub 1 t in
    let* p0 := idx p 0 in
    let* p1 := idx p 1 in
    let* (a, b, c, p2) :=
      (if Nat.eqb ord 2 then Ok (mt, t, 0, (0, 0))
       else let* p2 := idx p 2 in Ok (dmul mt mt, dmul (dmul mt t) 2, dmul t t, p2)) in
    Ok (dadd (dadd (dmul a (fst p0)) (dmul b (fst p1))) (dmul c (fst p2)),
        dadd (dadd (dmul a (snd p0)) (dmul b (snd p1))) (dmul c (snd p2))).

  (** Bezier.py:391-397 _arcfun. *)
  Definition decArcfun (dc : list (list pt)) (ord : nat) (t : R) : res R :=
    let* (dx, dy) := decDerivative dc ord t in
    Ok (dsqrt (dadd (dmul dx dx) (dmul dy dy))).

  (** Bezier.py:410-418: the sum [z * sum]; [prec] is already raised. *)
  Definition decSum (dc : list (list pt)) (ord : nat) : res R :=
    let z := 1 / 2 in
    let* sum := foldM (fun sum (tc : Z * Z) =>
      let t := dfma (IZR (fst tc) / IZR tableScale) z z in
      let* a := decArcfun dc ord t in
      Ok (dfma (IZR (snd tc) / IZR tableScale) a sum)) (combine tValuesZ cValuesZ) 0 in
    Ok (dmul z sum).
End Context.

(** Bezier.py:408-422 length without the memo: the loop runs with two more digits, [+length] with [prec]. *)
Definition decLength (prec : Z) (dc : list (list pt)) (ord : nat) : res R :=
  let* length := decSum (prec + 2) dc ord in Ok (dpos prec length).

(** [Decimal(x)] of a float is exact.  Infinities and NaN are not modelled. *)
Definition decOf (x : b64) : res R := if is_finite x then Ok (B2R x) else Err NotImplementedError.
Definition decPoint (p : point b64) : res pt := let* x := decOf (fst p) in let* y := decOf (snd p) in Ok (x, y).

(** [length] of a curve with float coordinates: the control points of the derivatives are floats
    (Bezier.py:318-337); only the first list of them is read and converted. *)
Definition lengthF (prec : Z) (b : bezier b64) : res R :=
  let* dc := mapM (mapM decPoint) (firstn 1 (dcPoints b)) in decLength prec dc (order b).
