(** How often a polygon crosses a line. *)
From Coq Require Import List Reals.
From Verif Require Import SpecGeom.
Import ListNotations.
Local Open Scope R_scope.

(** Changes of sign in a list of numbers, zeros passed over; [s] is the last number other than zero, or zero. *)
Fixpoint changes_from (s : R) (l : list R) : nat :=
  match l with
  | [] => 0
  | x :: r => if Req_EM_T x 0 then changes_from s r else ((if Rlt_dec (s * x) 0 then 1 else 0) + changes_from x r)%nat
  end.
Definition changes (l : list R) : nat := changes_from 0 l.
(** The side of the line a x + b y = c on which a point lies, by sign. *)
Definition side (a b c : R) (p : pt) : R := a * fst p + b * snd p - c.
(** How often the polygon [ps] changes sides. *)
Definition crossings (a b c : R) (ps : list pt) : nat := changes (map (side a b c) ps).
(** How often the polygon changes sides of the line through [a] and [z]. *)
Definition line_crossings (a z : pt) (ps : list pt) : nat := changes (map (fun q => vcross (vsub z a) (vsub q a)) ps).
