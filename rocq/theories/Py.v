(** Python-level vocabulary shared by every model file: exceptions as values, list indexing,
    numbers as operations.  Nothing in this file is specific to PathLib. *)
From Coq Require Import List ZArith Bool.
Import ListNotations.

(** Exceptions the modelled code can raise.  [OutOfFuel] is not a Python exception: it marks
    that the fuel given to a model loop was too small; theorems bound or exclude it. *)
Inductive exn : Set :=
| IndexError | ZeroDivisionError | TypeError | ValueError | AttributeError
| KeyError | RecursionError | NotImplementedError | OverflowError | OutOfFuel.

Inductive res (A : Type) : Type := Ok (a : A) | Err (e : exn).
Arguments Ok {A} a.
Arguments Err {A} e.

Definition bind {A B : Type} (x : res A) (k : A -> res B) : res B :=
  match x with Ok a => k a | Err e => Err e end.

Notation "'let*' x ':=' e 'in' k" := (bind e (fun x => k))
  (at level 200, x pattern, e at level 100, k at level 200, right associativity).

(** [l[i]] for a non-negative index. *)
Definition idx {A : Type} (l : list A) (i : nat) : res A :=
  match nth_error l i with Some a => Ok a | None => Err IndexError end.

(** [l[-1]]. *)
Fixpoint last_error {A : Type} (l : list A) : option A :=
  match l with [] => None | [a] => Some a | _ :: r => last_error r end.

Definition idx_last {A : Type} (l : list A) : res A :=
  match last_error l with Some a => Ok a | None => Err IndexError end.

(** [[f(x) for x in l]], stopping at the first exception. *)
Fixpoint mapM {A B : Type} (f : A -> res B) (l : list A) : res (list B) :=
  match l with
  | [] => Ok []
  | a :: r => let* b := f a in let* bs := mapM f r in Ok (b :: bs)
  end.

(** A [for] loop over [l] with loop-carried state, stopping at the first exception. *)
Fixpoint foldM {A S : Type} (f : S -> A -> res S) (l : list A) (s : S) : res S :=
  match l with [] => Ok s | a :: r => let* s' := f s a in foldM f r s' end.

(** [list(filter(f, l))] where [f] may raise. *)
Fixpoint filterM {A : Type} (f : A -> res bool) (l : list A) : res (list A) :=
  match l with
  | [] => Ok []
  | a :: r => let* b := f a in let* bs := filterM f r in Ok (if b then a :: bs else bs)
  end.

(** Numbers: operations only, no laws.  [nquot x y] is the value of [x / y] for [y <> 0];
    [nofZ] converts an integer literal. *)
Class NumOps (T : Type) : Type := {
  nofZ : Z -> T;
  nadd : T -> T -> T;
  nsub : T -> T -> T;
  nmul : T -> T -> T;
  nquot : T -> T -> T;
  nopp : T -> T;
  nabs : T -> T;
  nleb : T -> T -> bool;
  nltb : T -> T -> bool;
  neqb : T -> T -> bool
}.

(** [math.*] and [round(.., 15)]: operations only.  [tsqrt] is used on non-negative arguments
    only, [tpow] is [math.pow]. *)
Class TrigOps (T : Type) : Type := {
  tsin : T -> T;
  tcos : T -> T;
  tacos : T -> T;
  tatan2 : T -> T -> T;
  thypot : T -> T -> T;
  tsqrt : T -> T;
  tpow : T -> T -> T;
  tpi : T;
  tround15 : T -> T
}.

Declare Scope num_scope.
Delimit Scope num_scope with num.
Infix "+" := nadd : num_scope.
Infix "-" := nsub : num_scope.
Infix "*" := nmul : num_scope.
Notation "- x" := (nopp x) : num_scope.
Infix "<=?" := nleb : num_scope.
Infix "<?" := nltb : num_scope.
Infix "=?" := neqb : num_scope.
Notation "x != y" := (negb (neqb x y)) (at level 70) : num_scope.

(** Points, segments and contours (PathUtilities.py docstrings) are plain tuples and lists. *)
Notation point T := (T * T)%type.
Notation segment T := (list (T * T)%type).
Notation contour T := (list (list (T * T)%type)).

Section Num.
  Context {T : Type} `{NumOps T}.

  (** Python's [x / y]: raises ZeroDivisionError for a zero divisor (ints and floats alike). *)
  Definition ndiv (x y : T) : res T :=
    if neqb y (nofZ 0) then Err ZeroDivisionError else Ok (nquot x y).

  (** Python's two-argument [min] and [max]: the first argument is kept on ties. *)
  Definition pmin (a b : T) : T := if nltb b a then b else a.
  Definition pmax (a b : T) : T := if nltb a b then b else a.

  (** A decimal literal p/q, q a non-zero power of ten. *)
  Definition nlit (p q : Z) : T := nquot (nofZ p) (nofZ q).

  (** Tuple equality [p == q]. *)
  Definition pteqb (p q : point T) : bool := neqb (fst p) (fst q) && neqb (snd p) (snd q).

  (** [sorted(l)]: stable insertion sort. *)
  Fixpoint insert (x : T) (l : list T) : list T :=
    match l with
    | [] => [x]
    | y :: r => if nltb x y then x :: l else y :: insert x r
    end.
  Definition sorted (l : list T) : list T := fold_left (fun acc x => insert x acc) l [].

  (** [x in l]. *)
  Definition nmem (x : T) (l : list T) : bool := existsb (fun y => neqb x y) l.

  (** [math.pow(v, i)] for a non-negative integer exponent, as an iterated product. *)
  Fixpoint npown (v : T) (i : nat) : T :=
    match i with O => nofZ 1 | S k => nmul v (npown v k) end.
End Num.

