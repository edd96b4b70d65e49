(** SVG path data: a reader for the absolute commands M L H V Q C Z, and what it draws.
    (SVG 1.1, section 8.3: numbers separated by white space or one comma; a command letter may be
    left out when it is the same as the one before, after M it is then L; path data starts with M.) *)
From Coq Require Import List ZArith Bool String Ascii.
From Verif Require Import Py.
Import ListNotations.
Local Open Scope char_scope.

Section Svg.
  Context {T : Type}.
  Variable parse : string -> option T.

  (** Characters of a number: digits, sign, point, exponent. *)
  Definition number_char (c : ascii) : bool :=
    let n := nat_of_ascii c in (Nat.leb 48 n && Nat.leb n 57) || Ascii.eqb c "-" || Ascii.eqb c "+" || Ascii.eqb c "." || Ascii.eqb c "e".
  Definition command_char (c : ascii) : bool :=
    Ascii.eqb c "M" || Ascii.eqb c "L" || Ascii.eqb c "H" || Ascii.eqb c "V" || Ascii.eqb c "Q" || Ascii.eqb c "C" || Ascii.eqb c "Z".

  Inductive token : Type := TCmd (c : ascii) | TNum (x : T) | TComma.

  (** Tokens; [acc] holds the characters of the number being read. *)
  Definition flush (acc : string) (r : option (list token)) : option (list token) :=
    match acc with
    | EmptyString => r
    | _ => match parse acc, r with Some x, Some l => Some (TNum x :: l) | _, _ => None end
    end.
  Fixpoint lex (acc s : string) : option (list token) :=
    match s with
    | EmptyString => flush acc (Some [])
    | String c r =>
        if number_char c then lex (acc ++ String c EmptyString) r
        else if command_char c then flush acc (option_map (cons (TCmd c)) (lex EmptyString r))
        else if Ascii.eqb c "," then flush acc (option_map (cons TComma) (lex EmptyString r))
        else if Ascii.eqb c " " then flush acc (lex EmptyString r)
        else None
    end.
  (** Commas are dropped; they may only stand between two numbers. *)
  Fixpoint commas (after_number : bool) (l : list token) : option (list token) :=
    match l with
    | [] => Some []
    | TNum x :: r => option_map (cons (TNum x)) (commas true r)
    | TCmd c :: r => option_map (cons (TCmd c)) (commas false r)
    | TComma :: r => match r with TNum _ :: _ => if after_number then commas false r else None | _ => None end
    end.

  (** What is drawn. *)
  Inductive mark : Type :=
  | MoveTo (p : point T)
  | Curve (points : list (point T))      (* a line, quadratic or cubic curve with its start point *)
  | ClosePath.
  (** No command yet; a command that still needs its numbers; a command that may be repeated; after Z. *)
  Inductive expect : Type := Begin | Pending (c : ascii) | Repeat (c : ascii) | Closed.
  Fixpoint draw (e : expect) (cur start : point T) (l : list token) : option (list mark) :=
    match l with
    | [] => match e with Pending _ => None | _ => Some [] end
    | TComma :: _ => None
    | TCmd c :: r =>
        match e with
        | Pending _ => None
        | Begin => if Ascii.eqb c "M" then draw (Pending "M") cur start r else None
        | _ => if Ascii.eqb c "Z" then option_map (cons ClosePath) (draw Closed start start r)
               else draw (Pending c) cur start r
        end
    | TNum x :: r =>
        match e with
        | Begin | Closed => None
        | Pending c | Repeat c =>
            if Ascii.eqb c "H" then option_map (cons (Curve [cur; (x, snd cur)])) (draw (Repeat "H") (x, snd cur) start r)
            else if Ascii.eqb c "V" then option_map (cons (Curve [cur; (fst cur, x)])) (draw (Repeat "V") (fst cur, x) start r)
            else match r with
            | TNum y :: r1 =>
                if Ascii.eqb c "M" then option_map (cons (MoveTo (x, y))) (draw (Repeat "L") (x, y) (x, y) r1)
                else if Ascii.eqb c "L" then option_map (cons (Curve [cur; (x, y)])) (draw (Repeat "L") (x, y) start r1)
                else match r1 with
                | TNum x2 :: TNum y2 :: r2 =>
                    if Ascii.eqb c "Q" then option_map (cons (Curve [cur; (x, y); (x2, y2)])) (draw (Repeat "Q") (x2, y2) start r2)
                    else match r2 with
                    | TNum x3 :: TNum y3 :: r3 =>
                        option_map (cons (Curve [cur; (x, y); (x2, y2); (x3, y3)])) (draw (Repeat "C") (x3, y3) start r3)
                    | _ => None
                    end
                | _ => None
                end
            | _ => None
            end
        end
    end.
  (** [origin] is irrelevant: the first command is M. *)
  Definition svg_draw (origin : point T) (s : string) : option (list mark) :=
    match lex EmptyString s with
    | Some l => match commas false l with Some l => draw Begin origin origin l | None => None end
    | None => None
    end.

  (** Printed numbers are number characters, are read back, and equality of numbers is equality. *)
  Record printer {N : NumOps T} (D : T -> Prop) (show : T -> string) : Prop := {
    pr_eq : forall a b, D a -> D b -> neqb a b = true <-> a = b;
    pr_some : forall x, D x -> show x <> EmptyString;
    pr_chars : forall x c, D x -> In c (list_ascii_of_string (show x)) -> number_char c = true;
    pr_parse : forall x, D x -> parse (show x) = Some x
  }.
  (** The marks of a contour: its start, its curves without zero-length lines, and the closing mark. *)
  Definition zero_length {N : NumOps T} (s : segment T) : bool :=
    match s with [a; b] => neqb (fst a) (fst b) && neqb (snd a) (snd b) | _ => false end.
  Definition marks {N : NumOps T} (close : bool) (c : contour T) : list mark :=
    match c with
    | (p :: _) :: _ => MoveTo p :: map Curve (filter (fun s => negb (zero_length s)) c) ++ (if close then [ClosePath] else [])
    | _ => []
    end.
  Definition coords (D : T -> Prop) (c : contour T) : Prop := forall s p, In s c -> In p s -> D (fst p) /\ D (snd p).
End Svg.
Arguments token T : clear implicits.
Arguments mark T : clear implicits.
