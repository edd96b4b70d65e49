(** Plane geometry over the reals, stated without reference to the model. *)
From Coq Require Import List ZArith Reals.
Import ListNotations.
Local Open Scope R_scope.

Notation pt := (R * R)%type.
Definition vadd (p q : pt) : pt := (fst p + fst q, snd p + snd q).
Definition vsub (p q : pt) : pt := (fst p - fst q, snd p - snd q).
Definition vscale (k : R) (p : pt) : pt := (k * fst p, k * snd p).
Definition vdot (p q : pt) : R := fst p * fst q + snd p * snd q.
Definition vcross (p q : pt) : R := fst p * snd q - snd p * fst q.
(** Squared distance and distance. *)
Definition dist2 (p q : pt) : R := (fst p - fst q) ^ 2 + (snd p - snd q) ^ 2.
Definition vdist (p q : pt) : R := sqrt (dist2 p q).
(** Three points on one line (all three equal included). *)
Definition collinear (p q r : pt) : Prop := vcross (vsub q p) (vsub r p) = 0.
(** [p + s*(q-p)]. *)
Definition along (p q : pt) (s : R) : pt := vadd p (vscale s (vsub q p)).
(** The closed segment from [a] to [b]. *)
Definition on_segment (a b p : pt) : Prop := exists s, 0 <= s <= 1 /\ p = along a b s.
(** The infinite line through [a] and [b] (just [a] when they coincide). *)
Definition on_line (a b p : pt) : Prop := exists s, p = along a b s.
(** The rotation by angle [a] (radians), counter-clockwise, about the origin. *)
Definition rot (a : R) (v : pt) : pt :=
  (cos a * fst v - sin a * snd v, sin a * fst v + cos a * snd v).
(** [k] counter-clockwise quarter turns. *)
Definition quarter_turns (k : Z) (v : pt) : pt :=
  match (k mod 4)%Z with
  | 0%Z => v
  | 1%Z => (- snd v, fst v)
  | 2%Z => (- fst v, - snd v)
  | _ => (snd v, - fst v)
  end.

(** A contour is a list of segments (lists of points); consecutive segments share a point. *)
Section Shapes.
  Context {A : Type}.
  Definition seg_first (s : list A) : option A := hd_error s.
  Fixpoint seg_last (s : list A) : option A :=
    match s with [] => None | [a] => Some a | _ :: r => seg_last r end.
  Fixpoint connected (c : list (list A)) : Prop :=
    match c with
    | s1 :: ((s2 :: _) as r) =>
        (exists p, seg_last s1 = Some p /\ seg_first s2 = Some p) /\ connected r
    | _ => True
    end.
  Definition contour_first (c : list (list A)) : option A :=
    match c with [] => None | s :: _ => seg_first s end.
  Fixpoint contour_last (c : list (list A)) : option A :=
    match c with [] => None | [s] => seg_last s | _ :: r => contour_last r end.
  (** Non-empty, connected, ending where it starts. *)
  Definition closed_contour (c : list (list A)) : Prop :=
    c <> [] /\ connected c /\ exists p, contour_first c = Some p /\ contour_last c = Some p.
End Shapes.
