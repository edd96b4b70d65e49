(** Model of PathLib/MatrixInversion.py.

    The Python code updates two lists of lists in place, element by element; here every element
    assignment is [mset] and every loop a fold over its index range, in the same order. *)
From Coq Require Import List ZArith Bool.
From Verif Require Import Py MTransform.
Import ListNotations.
Local Open Scope num_scope.

Section MatrixInversion.
  Context {T : Type} `{NumOps T}.

  (** [m[i][j]] and [m[i][j] = v].  Used on C and I only, which are n x n by construction, so the
      out-of-range default is never observed. *)
  Definition mget (m : matrix T) (i j : nat) : T := nth j (nth i m []) (nofZ 0).

  Fixpoint upd {A : Type} (l : list A) (i : nat) (v : A) : list A :=
    match l, i with
    | [], _ => []
    | _ :: r, O => v :: r
    | x :: r, S k => x :: upd r k v
    end.
  Definition mset (m : matrix T) (i j : nat) (v : T) : matrix T :=
    upd m i (upd (nth i m []) j v).

  (** MatrixInversion.py:37-46: identity I and copy C ([M[row][col]] may raise IndexError). *)
  Definition identityRows (n : nat) : matrix T :=
    map (fun row => map (fun col => if Nat.eqb row col then nofZ 1 else nofZ 0) (seq 0 n)) (seq 0 n).
  Definition copyRows (M : matrix T) (n : nat) : res (matrix T) :=
    mapM (fun row => mapM (fun col => let* r := idx M row in idx r col) (seq 0 n)) (seq 0 n).

  Definition CI : Type := (matrix T * matrix T)%type.

  (** MatrixInversion.py:60-66: exchange rows i and ii of C and I, column by column. *)
  Definition swapStep (i ii : nat) (s : CI) (j : nat) : CI :=
    let (C, I) := s in
    let e := mget C i j in
    let C := mset C i j (mget C ii j) in
    let C := mset C ii j e in
    let e := mget I i j in
    let I := mset I i j (mget I ii j) in
    let I := mset I ii j e in
    (C, I).
  Definition swapRows (n i ii : nat) (s : CI) : CI := fold_left (swapStep i ii) (seq 0 n) s.

  (** MatrixInversion.py:56-69: the first lower row with a non-zero in column i, if any. *)
  Fixpoint findSwap (n i : nat) (iis : list nat) (s : CI) : CI :=
    match iis with
    | [] => s
    | ii :: r => if mget (fst s) ii i != nofZ 0 then swapRows n i ii s else findSwap n i r s
    end.

  (** MatrixInversion.py:76-78: divide row i by e. *)
  Definition scaleRow (n i : nat) (e : T) (s : CI) : CI :=
    fold_left (fun (s : CI) j =>
      let (C, I) := s in
      (mset C i j (nquot (mget C i j) e), mset I i j (nquot (mget I i j) e))) (seq 0 n) s.

  (** MatrixInversion.py:94-96: subtract e times row i from row ii. *)
  Definition subRow (n i ii : nat) (e : T) (s : CI) : CI :=
    fold_left (fun (s : CI) j =>
      let (C, I) := s in
      (mset C ii j (mget C ii j - e * mget C i j),
       mset I ii j (mget I ii j - e * mget I i j))) (seq 0 n) s.

  (** MatrixInversion.py:83-96: clear column i in all other rows. *)
  Definition eliminate (n i : nat) (s : CI) : CI :=
    fold_left (fun (s : CI) ii =>
      if Nat.eqb ii i then s
      else let e := mget (fst s) ii i in subRow n i ii e s) (seq 0 n) s.

  (** MatrixInversion.py:49-96: body of the main loop; [None] is [return None]. *)
  Definition pivotStep (n i : nat) (s : CI) : option CI :=
    let e := mget (fst s) i i in
    if e =? nofZ 0 then
      let s := findSwap n i (seq (i + 1) (n - (i + 1))) s in
      let e := mget (fst s) i i in
      if e =? nofZ 0 then None
      else Some (eliminate n i (scaleRow n i e s))
    else Some (eliminate n i (scaleRow n i e s)).

  Fixpoint pivotLoop (n : nat) (is : list nat) (s : CI) : option CI :=
    match is with
    | [] => Some s
    | i :: r => match pivotStep n i s with None => None | Some s' => pivotLoop n r s' end
    end.

  (** MatrixInversion.py:15-100 matrixInvert. *)
  Definition matrixInvert (M : matrix T) : res (option (matrix T)) :=
    let* r0 := idx M 0 in
    if negb (Nat.eqb (length M) (length r0)) then Ok None
    else
      let n := length M in
      let I := identityRows n in
      let* C := copyRows M n in
      match pivotLoop n (seq 0 n) (C, I) with
      | None => Ok None
      | Some (_, I') => Ok (Some I')
      end.
End MatrixInversion.
Arguments CI T : clear implicits.
