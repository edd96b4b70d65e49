(** Signed areas, for C149. *)
From Coq Require Import List Reals.
From Verif Require Import Inst SpecGeom.
Import ListNotations.
Local Open Scope R_scope.
(** x1 y2 - x2 y1, added up along the closed polygon: twice its signed area. *)
Definition wedge (p q : pt) : R := fst p * snd q - fst q * snd p.
Fixpoint round_trip (first previous : pt) (rest : list pt) : R :=
  match rest with
  | [] => wedge previous first
  | q :: r => wedge previous q + round_trip first q r
  end.
Definition twice_area (l : list pt) : R :=
  match l with
  | [] => 0
  | p :: r => round_trip p p r
  end.
(** A matrix that maps no finite point to infinity. *)
Definition affine (m : list (list R)) : Prop := exists a b c d x y, m = [[a; b; 0]; [c; d; 0]; [x; y; 1]].
(** The third homogeneous coordinate of the image of [p]. *)
Definition weight (m : list (list R)) (p : pt) : R :=
  match m with
  | [[_; _; e]; [_; _; f]; [_; _; g]] => fst p * e + snd p * f + g
  | _ => 0
  end.
