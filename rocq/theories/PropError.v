(** Property C146: which calls on curves and transforms raise, and what.  The theorems hold for numbers of any kind and whatever their values,
    NaNs and infinities included; where a number must be known to be zero or not, the hypothesis is named and C146_numbers discharges it. *)
From Coq Require Import List ZArith Bool Reals Lia.
From Verif Require Import Py Inst InstFloat SpecError MTransform MBounds MBezUtil MBezier ProofError.
Import ListNotations.

(** ** C146.  A curve can be made of two points or more. *)
Theorem C146_new (T : Type) (N : NumOps T) (p : list (point T)) : returns_iff (2 <= length p)%nat IndexError (newBezier p).
Proof. exact (new_when p). Qed.
Print Assumptions C146_new.
(** Points are found for every parameter, derivatives only on curves of three points or more. *)
Theorem C146_get (T : Type) (N : NumOps T) (b : bezier T) (t : T) : returns_iff (1 <= length (cps b))%nat IndexError (get b t).
Proof. exact (get_when b t). Qed.
Print Assumptions C146_get.
Theorem C146_derivative (T : Type) (N : NumOps T) (b : bezier T) (t : T) : returns_iff (3 <= length (cps b))%nat IndexError (derivative b t).
Proof. exact (derivative_when b t). Qed.
Print Assumptions C146_derivative.
Theorem C146_tangent (T : Type) (N : NumOps T) (Tr : TrigOps T) (b : bezier T) (t : T) :
  ((length (cps b) < 3)%nat -> tangent b t = Err IndexError /\ normal_ b t = Err IndexError /\ normal b t = Err IndexError) /\
  ((3 <= length (cps b))%nat -> at_worst ZeroDivisionError (tangent b t) /\ at_worst ZeroDivisionError (normal_ b t) /\
     ((exists n, normal b t = Ok n) \/ normal b t = Err ZeroDivisionError \/ normal b t = Err ValueError)).
Proof. exact (unit_vectors_when b t). Qed.
Print Assumptions C146_tangent.
(** Boxes are found for all curves that can be made. *)
Theorem C146_box (T : Type) (N : NumOps T) (Tr : TrigOps T) (b : bezier T) : returns_iff (2 <= length (cps b))%nat IndexError (extrema b) /\
  returns_iff (2 <= length (cps b))%nat IndexError (bbox b) /\ returns_iff (2 <= length (cps b))%nat IndexError (boundsRectangle b).
Proof. exact (box_when b). Qed.
Print Assumptions C146_box.
Theorem C146_overlaps (T : Type) (N : NumOps T) (Tr : TrigOps T) (a b : bezier T) : returns_iff (2 <= length (cps a) /\ 2 <= length (cps b))%nat IndexError (overlaps a b).
Proof. exact (overlaps_when a b). Qed.
Print Assumptions C146_overlaps.
(** The hull of n points has n (n + 1) / 2; a line cannot be split and has no roots; every order can be raised. *)
Theorem C146_hull (T : Type) (N : NumOps T) (b : bezier T) (t : T) : (2 * length (hull b t) = length (cps b) * (length (cps b) + 1))%nat.
Proof. exact (hull_size b t). Qed.
Print Assumptions C146_hull.
Theorem C146_split (T : Type) (N : NumOps T) (b : bezier T) (t : T) : unit_step (T := T) -> returns_iff (3 <= length (cps b))%nat IndexError (split1 b t).
Proof. exact (split_when b t). Qed.
Print Assumptions C146_split.
Theorem C146_roots (T : Type) (N : NumOps T) (Tr : TrigOps T) (b : bezier T) : returns_iff (3 <= length (cps b))%nat IndexError (roots b None).
Proof. exact (roots_when b). Qed.
Print Assumptions C146_roots.
Theorem C146_raise (T : Type) (N : NumOps T) (b : bezier T) : returns_iff (1 <= length (cps b))%nat IndexError (raiseOrder b).
Proof. exact (raise_when b). Qed.
Print Assumptions C146_raise.
(** Tables: none or fewer steps give an empty one, one step divides by zero, two or more give as many points as steps. *)
Theorem C146_table (T : Type) (N : NumOps T) (b : bezier T) (steps : Z) : whole_zero (T := T) ->
  ((steps <= 0)%Z -> getLUT b steps = Ok []) /\ (steps = 1%Z -> getLUT b steps = Err ZeroDivisionError) /\
  ((2 <= steps)%Z -> returns_iff (1 <= length (cps b))%nat IndexError (getLUT b steps)) /\
  (forall l, getLUT b steps = Ok l -> length l = Z.to_nat steps).
Proof. exact (table_when b steps). Qed.
Print Assumptions C146_table.
(** Matrices that are not 3x3 are refused with ValueError; a 3x3 one raises ZeroDivisionError at worst. *)
Theorem C146_product (T : Type) (N : NumOps T) (m1 m2 : list (list T)) : m1 <> [] ->
  returns_iff (Forall (fun r => length r = 3%nat) m1 /\ three_by_three m2) ValueError (multiplyMatrixByMatrix m1 m2).
Proof. exact (product_when m1 m2). Qed.
Print Assumptions C146_product.
Theorem C146_apply (T : Type) (N : NumOps T) (m : list (list T)) (p : point T) :
  (~ three_by_three m -> applyToPoint m p = Err ValueError) /\ (three_by_three m -> at_worst ZeroDivisionError (applyToPoint m p)).
Proof. exact (apply_when m p). Qed.
Print Assumptions C146_apply.
(** The hypotheses about numbers hold of real numbers and of doubles (a whole number too large for a double becomes infinite, not zero). *)
Theorem C146_numbers : (whole_zero (T := R) /\ unit_step (T := R)) /\ (whole_zero (T := b64) /\ unit_step (T := b64)).
Proof. exact (conj real_numbers double_numbers). Qed.
Print Assumptions C146_numbers.

(** A line of doubles: it has a box and a table, but no derivative and no pieces. *)
Definition line146 : bezier b64 := mkBez [(bofZ 0, bofZ 0); (bofZ 3, bofZ 4)] (bofZ 0) (bofZ 1).
Example C146_line : newBezier (cps line146) = Ok line146 /\ (exists q, get line146 (bofZ 7) = Ok q) /\ (exists l, getLUT line146 5 = Ok l /\ length l = 5%nat) /\
  getLUT line146 1 = Err ZeroDivisionError /\ getLUT line146 (-2) = Ok [] /\ derivative line146 (bofZ 0) = Err IndexError /\ split1 line146 (bofZ 0) = Err IndexError /\ length (hull line146 (bofZ 0)) = 3%nat.
Proof.
  destruct C146_numbers as [_ [W U]]. destruct (C146_table b64 _ line146 5 W) as (_ & _ & [K _] & L); [lia|].
  split; [reflexivity|]. split; [apply (C146_get b64 _ line146 (bofZ 7)); simpl; lia|]. split; [destruct K as [l E]; [simpl; lia|exists l; split; [exact E|exact (L l E)]]|].
  split; [apply (C146_table b64 _ line146 1 W); reflexivity|]. split; [reflexivity|]. split; [reflexivity|]. split; reflexivity.
Qed.
Example C146_matrices : ~ three_by_three [[1; 0]; [0; 1]]%Z /\ three_by_three [[1; 0; 0]; [0; 1; 0]; [0; 0; 1]]%R /\
  applyToPoint [[1; 0]; [0; 1]]%R (1, 1)%R = Err ValueError.
Proof.
  assert (K : forall (A : Type) (a b c d : A), ~ three_by_three [[a; b]; [c; d]]) by (intros A a b c d [L _]; discriminate L).
  split; [apply K|]. split; [split; [reflexivity|repeat constructor]|]. apply C146_apply. apply K.
Qed.
