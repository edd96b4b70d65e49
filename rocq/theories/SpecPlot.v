(** Vocabulary of the plotter properties. *)
From Coq Require Import Reals List ZArith Bool String Ascii.
From Verif Require Import Py SpecGeom SpecSvg MTransform MContour MPlotter.
Import ListNotations.

Section SpecPlot.
  Context {T : Type} {N : NumOps T} {V : Type} (truthy : V -> bool).

  (** Attributes and stacks are the same. *)
  Definition same_graphics (s s' : @plotter T V) : Prop :=
    pl_stroke s' = pl_stroke s /\ pl_fill s' = pl_fill s /\ pl_strokeStack s' = pl_strokeStack s /\ pl_fillStack s' = pl_fillStack s.
  (** Calls that cannot stop half-way with an attribute pushed, and do not set the fill colour. *)
  Definition plain (color : option V) : Prop := match color with Some v => truthy v = false | None => True end.
  Definition quiet (c : @pcall T V) : Prop :=
    match c with
    | PContours cs color fill _ => fill = true \/ plain color \/ forall c, In c cs -> exists p s r, c = (p :: s) :: r
    | PPaths _ _ _ => True
    | PSegments ps color => plain color \/ ps <> []
    | PCircles _ _ colors fill => colors = [] \/ fill = false
    | PCurve s color => plain color \/ s <> []
    | _ => False
    end.
  (** Pushes and pops match. *)
  Inductive balanced : list (@pcall T V) -> Prop :=
  | bal_nil : balanced []
  | bal_quiet c : quiet c -> balanced [c]
  | bal_app l r : balanced l -> balanced r -> balanced (l ++ r)
  | bal_stroke w c o d l : balanced l -> balanced (PPushStroke w c o d :: l ++ [PPopStroke])
  | bal_fill c o l : balanced l -> balanced (PPushFill c o :: l ++ [PPopFill]).

  (** The marks of a path given by its start and its segments, and of a polyline (repeated points left out). *)
  Definition path_marks (p : point T * list (segment T)) : list (mark T) :=
    MoveTo (fst p) :: map Curve (filter (fun s => negb (zero_length s)) (snd p)).
  Fixpoint hops (a : point T) (l : list (point T)) : list (segment T) :=
    match l with [] => [] | b :: r => [a; b] :: hops b r end.
  Definition polyline_marks (l : list (point T)) : list (mark T) :=
    match l with [] => [] | p :: r => MoveTo p :: map Curve (filter (fun s => negb (zero_length s)) (hops p r)) end.
  Definition good_path (D : T -> Prop) (p : point T * list (segment T)) : Prop :=
    coords D (snd p) /\ D (fst (fst p)) /\ D (snd (fst p)) /\ (forall s, In s (snd p) -> (2 <= List.length s <= 4)%nat) /\ connected (snd p) /\
    match snd p with s :: _ => seg_first s = Some (fst p) | [] => True end.
  (** Non-empty connected contours of lines, quadratics and cubics with coordinates in [D]. *)
  Definition good_contour (D : T -> Prop) (c : contour T) : Prop :=
    coords D c /\ (forall s, In s c -> (2 <= List.length s <= 4)%nat) /\ connected c /\ c <> [].

  (** The command letter of a segment, none for a zero-length line, and the letters of a contour. *)
  Definition letter_of (s : segment T) : option ascii :=
    match s with
    | [a; b] => if zero_length s then None else if neqb (fst a) (fst b) then Some "V"%char else if neqb (snd a) (snd b) then Some "H"%char else Some "L"%char
    | [_; _; _] => Some "Q"%char
    | [_; _; _; _] => Some "C"%char
    | _ => None
    end.
  Definition letters (c : list (segment T)) : list ascii := flat_map (fun s => match letter_of s with Some k => [k] | None => [] end) c.
  (** [last] is the command written last: every contour starts with L or with another command than the one before. *)
  Fixpoint starts_afresh (last : string) (ls : list (list ascii)) : Prop :=
    match ls with
    | [] => True
    | [] :: r => starts_afresh last r
    | (k :: l) :: r => (k = "L"%char \/ last <> String k EmptyString) /\ starts_afresh (String (List.last l k) EmptyString) r
    end.
End SpecPlot.

(** Python's [x // 20] for real numbers. *)
Definition floor20 (x : R) : R := IZR (Int_part (x / 20)).
