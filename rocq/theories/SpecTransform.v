(** Vocabulary of the Transform properties. *)
From Coq Require Import List ZArith Reals.
From Verif Require Import Py Inst SpecGeom MTransform.
Import ListNotations.
Local Open Scope R_scope.

Notation mat := (matrix R).

(** 3x3 matrices. *)
Definition wf3 {T} (m : matrix T) : Prop := length m = 3%nat /\ Forall (fun r => length r = 3%nat) m.

(** Applying transforms one after the other. *)
Fixpoint apply_each (ms : list mat) (p : point R) : res (point R) :=
  match ms with
  | [] => Ok p
  | m :: r => let* t := mkTransform [m] in let* q := applyToPoint t p in apply_each r q
  end.

(** Third homogeneous coordinate of the image of (x, y). *)
Definition third_coordinate (m : mat) (p : pt) : R :=
  fst p * nth 2 (nth 0 m []) 0 + snd p * nth 2 (nth 1 m []) 0 + nth 2 (nth 2 m []) 0.
