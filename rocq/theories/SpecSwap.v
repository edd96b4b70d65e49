(** Vocabulary of property C131: exchanged curves and curves drawn backwards. *)
From Coq Require Import List Reals Permutation.
From Verif Require Import Py Inst MBezier.
Import ListNotations.

Definition exchange {A B : Type} (p : A * B) : B * A := (snd p, fst p).
(** The same pairs the other way round, in any order; or the same exception. *)
Definition exchanged (r r' : res (list (R * R))) : Prop :=
  match r, r' with Ok l, Ok l' => Permutation (map exchange l) l' | Err e, Err e' => e = e' | _, _ => False end.
(** The same control points from last to first. *)
Definition reversed (b : bezier R) : bezier R := mkBez (rev (cps b)) (bt1 b) (bt2 b).
