(** Model of PathLib/CurveFitting.py. *)
From Coq Require Import List ZArith Bool.
From Verif Require Import Py MTransform MMatrix.
Import ListNotations.
Local Open Scope num_scope.

(** CurveFitting.py:19-26: the module-level table, a global list that binomial extends. *)
Definition lutT : Type := list (list Z).
Definition binomialCoefficients : lutT :=
  [[1]; [1; 1]; [1; 2; 1]; [1; 3; 3; 1]; [1; 4; 6; 4; 1]; [1; 5; 10; 10; 5; 1];
   [1; 6; 15; 20; 15; 6; 1]]%Z.

(** CurveFitting.py:40-45: the next row of the table. *)
Definition nextRow (lut : lutT) : list Z :=
  let prev := nth (length lut - 1) lut [] in
  ([1] ++ map (fun i => nth (i - 1) prev 0 + nth i prev 0) (seq 1 (length lut - 1)) ++ [1])%Z.

(** CurveFitting.py:39-45: [while n >= len(lut)].  Each round appends one row, so n+1 rounds
    suffice whatever the table is. *)
Fixpoint growLut (fuel n : nat) (lut : lutT) : lutT :=
  match fuel with
  | O => lut
  | S f => if Nat.leb (length lut) n then growLut f n (lut ++ [nextRow lut]) else lut
  end.

(** CurveFitting.py:36-46 binomial, for non-negative n and k; threads the global table. *)
Definition binomial (lut : lutT) (n k : nat) : lutT * res Z :=
  if Nat.eqb n 0 then (lut, Ok 1%Z)
  else
    let lut' := growLut (S n) n lut in
    (lut', let* r := idx lut' n in idx r k).

Section CurveFitting.
  Context {T : Type} `{NumOps T} `{TrigOps T}.

  (** CurveFitting.py:28-34 dist. *)
  Definition dist (p1 p2 : point T) : T := thypot (fst p1 - fst p2) (snd p1 - snd p2).

  (** CurveFitting.py:48-49 getPointValuesColumn for v = 0 and v = 1. *)
  Definition pointXs (ps : list (point T)) : matrix T := map (fun p => [fst p]) ps.
  Definition pointYs (ps : list (point T)) : matrix T := map (fun p => [snd p]) ps.

  (** CurveFitting.py:55-57: cumulative chord lengths, d[0] = 0; the index i runs over range(1,n). *)
  Definition chordLengths (p : list (point T)) (n : nat) : res (list T) :=
    foldM (fun d i =>
      let* di := idx d (i - 1) in
      let* a := idx p (i - 1) in
      let* b := idx p i in
      Ok (d ++ [di + dist a b])) (seq 1 (n - 1)) [nofZ 0].

  (** [if not n: n = len(x)] (CurveFitting.py:52, 118, 169): an omitted n and n = 0 both select the length. *)
  Definition orLen (n len : nat) : nat := if Nat.eqb n 0 then len else n.

  (** CurveFitting.py:51-62 computeTimeValues; an omitted n is 0 here.
      [d[n-1]] for n = 0 is [d[-1]], the last (only) element. *)
  Definition computeTimeValuesN (p : list (point T)) (n : nat) (polygonal : bool) : res (list T) :=
    let n := orLen n (length p) in
    if polygonal then
      let* d := chordLengths p n in
      let* len := (match n with O => idx_last d | S k => idx d k end) in
      mapM (fun v => ndiv v len) d
    else
      mapM (fun i => ndiv (nofZ (Z.of_nat i)) (nofZ (Z.of_nat n - 1))) (seq 0 n).
  (** The call [computeTimeValues(p, polygonal=polygonal)] of CurveFitting.py:186. *)
  Definition computeTimeValues (p : list (point T)) (polygonal : bool) : res (list T) := computeTimeValuesN p 0 polygonal.

  (** CurveFitting.py:65-66 raiseRowPower. *)
  Definition raiseRowPower (r : row T) (i : nat) : row T := map (fun v => npown v i) r.

  (** CurveFitting.py:68-105 basisMatrix.  Threads the binomial table. *)
  Definition zeroMatrix (n : nat) : matrix T := repeat (repeat (nofZ 0) n) n.
  Definition basisDiag (n : nat) (st : lutT * matrix T) : res (lutT * matrix T) :=
    foldM (fun (st : lutT * matrix T) i =>
      let (lut, m) := st in
      let (lut, b) := binomial lut (n - 1) i in
      let* b := b in
      Ok (lut, mset m i i (nofZ b))) (seq 0 n) st.
  Definition basisLower (n : nat) (st : lutT * matrix T) : res (lutT * matrix T) :=
    foldM (fun (st : lutT * matrix T) c =>
      foldM (fun (st : lutT * matrix T) r =>
        let (lut, m) := st in
        let sign : T := if Nat.even (r + c) then nofZ 1 else nofZ (-1) in
        let (lut, b) := binomial lut r c in
        let* b := b in
        let value := nofZ b * mget m r r in
        Ok (lut, mset m r c (sign * value))) (seq (c + 1) (n - (c + 1))) st) (seq 0 n) st.
  Definition basisMatrix (lut : lutT) (n : nat) : res (lutT * matrix T) :=
    let* st := basisDiag n (lut, zeroMatrix n) in
    basisLower n st.

  (** CurveFitting.py:107-115 transpose. *)
  Definition transpose (m : matrix T) : res (matrix T) :=
    let* m0 := idx m 0 in
    mapM (fun column =>
      mapM (fun row => let* r := idx m row in idx r column) (seq 0 (length m)))
      (seq 0 (length m0)).

  (** CurveFitting.py:117-125 formTMatrix; an omitted n is 0 here. *)
  Definition formTMatrix (s : row T) (n : nat) : res (matrix T * matrix T) :=
    let n := orLen n (length s) in
    let tp := map (fun i => raiseRowPower s i) (seq 0 n) in
    let* t := transpose tp in
    Ok (tp, t).

  (** CurveFitting.py:130-131 col. *)
  Definition col (m : matrix T) (i : nat) : res (list T) := mapM (fun r => idx r i) m.

  (** CurveFitting.py:150-166 multiply.  [M2[0]] is evaluated once per row of M1. *)
  Definition multiply (M1 M2 : matrix T) : res (matrix T) :=
    mapM (fun r =>
      let* _row := idx M1 r in
      let* c0 := idx M2 0 in
      mapM (fun c =>
        let* _col := col M2 c in
        foldM (fun a i =>
          let* x := idx _col i in
          let* y := idx _row i in
          Ok (a + x * y)) (seq 0 (length _row)) (nofZ 0)) (seq 0 (length c0)))
      (seq 0 (length M1)).

  (** [matrixInvert] returning None makes the next multiply raise TypeError (len(None)). *)
  Definition needMatrix (o : option (matrix T)) : res (matrix T) :=
    match o with Some m => Ok m | None => Err TypeError end.

  (** CurveFitting.py:168-181 bestFit; an omitted n is 0 here.  The first [multiply(M1, step1)] is where a
      None inverse of M would raise, but the None inverse of Tt*T raises earlier; both are TypeError. *)
  Definition bestFitN (P : list (point T)) (M : matrix T) (S : list T) (n : nat) : res (matrix T * matrix T) :=
    let n := orLen n (length P) in
    let* (Tt, Tm) := formTMatrix S n in
    let* M1o := matrixInvert M in
    let* TtT := multiply Tt Tm in
    let* TtT1o := matrixInvert TtT in
    let* TtT1 := needMatrix TtT1o in
    let* step1 := multiply TtT1 Tt in
    let* M1 := needMatrix M1o in
    let* step2 := multiply M1 step1 in
    let* Cx := multiply step2 (pointXs P) in
    let* Cy := multiply step2 (pointYs P) in
    Ok (Cx, Cy).
  (** The call [bestFit(points, m, s)] of CurveFitting.py:187. *)
  Definition bestFit (P : list (point T)) (M : matrix T) (S : list T) : res (matrix T * matrix T) := bestFitN P M S 0.

  (** CurveFitting.py:183-189 fit; returns (m, s, c) and the table (points is returned as is). *)
  Definition fit (lut : lutT) (points : list (point T)) (polygonal : bool)
    : res (lutT * (matrix T * list T * (matrix T * matrix T))) :=
    let n := length points in
    let* (lut, m) := basisMatrix lut n in
    let* s := computeTimeValues points polygonal in
    let* c := bestFit points m s in
    Ok (lut, (m, s, c)).
End CurveFitting.
