(** What it means for a point to be given as a pair or as a complex number, without reference to the
    functions of MComplex.v. *)
From Coq Require Import List.
From Verif Require Import MComplex.
Import ListNotations.

Section SpecComplex.
  Context {T : Type}.

  (** [a] has the coordinates [p]. *)
  Inductive stands (p : T * T) : anypoint T -> Prop :=
  | stands_pair : stands p (APair p)
  | stands_complex : stands p (AComplex (fst p) (snd p)).

  (** All points pairs, all points complex numbers. *)
  Inductive all_pairs : list (anypoint T) -> list (T * T) -> Prop :=
  | pairs_nil : all_pairs [] []
  | pairs_cons x y l ps : all_pairs l ps -> all_pairs (APair (x, y) :: l) ((x, y) :: ps).
  Inductive all_complex : list (anypoint T) -> list (T * T) -> Prop :=
  | complex_nil : all_complex [] []
  | complex_cons x y l ps : all_complex l ps -> all_complex (AComplex x y :: l) ((x, y) :: ps).

  Definition has_complex (l : list (anypoint T)) : Prop := exists x y, In (AComplex x y) l.
End SpecComplex.
