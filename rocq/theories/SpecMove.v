(** Vocabulary of property C130: drawings moved and resized. *)
From Coq Require Import List Reals.
From Verif Require Import Py Inst MBounds MBezier.
Import ListNotations.
Local Open Scope R_scope.

(** The point drawn [k] times as large and then moved by [v]. *)
Definition placed (k : R) (v p : R * R) : R * R := (k * fst p + fst v, k * snd p + snd v).
(** A curve with every control point so treated; the recorded interval stays. *)
Definition placed_curve (k : R) (v : R * R) (b : bezier R) : bezier R := mkBez (map (placed k v) (cps b)) (bt1 b) (bt2 b).
(** A box with every corner so treated. *)
Definition placed_rect (k : R) (v : R * R) (r : rect R) : rect R :=
  mkRect (k * left r + fst v) (k * right r + fst v) (k * top r + snd v) (k * bottom r + snd v).
(** The same answer, changed by [f]; the same exception. *)
Definition answer {A B : Type} (f : A -> B) (r : res A) : res B :=
  match r with Ok a => Ok (f a) | Err e => Err e end.
