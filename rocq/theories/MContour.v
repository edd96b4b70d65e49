(** Model of classes BContour and BOutline, PathLib/Bezier.py:818-1084.

    A contour is a mutable object: the methods return the new object and the result.  Its curves
    are modelled without their own memo fields, which are transparent (property C59). *)
From Coq Require Import List ZArith Bool String.
From Verif Require Import Py MTransform MBounds MBezUtil MPathUtil MBezier.
Import ListNotations.
Local Open Scope num_scope.

(** [l[i]] for any integer index (negative ones count from the end). *)
Definition idxZ {A : Type} (l : list A) (i : Z) : res A :=
  if Z.leb 0 i then idx l (Z.to_nat i)
  else if Z.leb 0 (Z.of_nat (List.length l) + i) then idx l (Z.to_nat (Z.of_nat (List.length l) + i))
  else Err IndexError.

(** [del l[i]] and [l[i] = v] for a non-negative index in range. *)
Fixpoint deleteAt {A : Type} (l : list A) (i : nat) : list A :=
  match l, i with
  | [], _ => []
  | _ :: r, O => r
  | x :: r, S k => x :: deleteAt r k
  end.
Fixpoint replaceAt {A : Type} (l : list A) (i : nat) (v : A) : list A :=
  match l, i with
  | [], _ => []
  | _ :: r, O => v :: r
  | x :: r, S k => x :: replaceAt r k v
  end.

Section Contour.
  Context {T : Type} `{NumOps T} `{TrigOps T}.

  (** Bezier.py:828-832 the attributes. *)
  Record bcontour : Type := mkContour {
    c_beziers : list (bezier T);
    c_bounds : rect T;
    c_lut : list (point T);
    c_start : point T;
    c_end : point T
  }.

  (** Bezier.py:231-232, 243-244 start and end of a curve. *)
  Definition bstart (b : bezier T) : res (point T) := idx (cps b) 0.
  Definition bend (b : bezier T) : res (point T) := idx_last (cps b).

  (** Bezier.py:831-832, 840-841, 846-847: start of the first curve, end of the last one. *)
  Definition contourEnds (bs : list (bezier T)) : res (point T * point T) :=
    let* f := idx bs 0 in
    let* s := bstart f in
    let* l := idx_last bs in
    let* e := bend l in
    Ok (s, e).

  (** Bezier.py:819-832 __init__. *)
  Definition newContour (c : contour T) : res bcontour :=
    let* (bs, bounds) := foldM (fun (st : list (bezier T) * rect T) seg =>
      let* b := newBezier seg in
      let* r := boundsRectangle b in
      Ok (fst st ++ [b], union (snd st) r)) c ([], BoundsRectangle []) in
    let* (s, e) := contourEnds bs in
    Ok (mkContour bs bounds [] s e).

  (** Bezier.py:837-841 __setitem__ for a non-negative index. *)
  Definition setitem (c : bcontour) (i : nat) (value : list (point T)) : bcontour * option exn :=
    match newBezier value with
    | Err x => (c, Some x)
    | Ok b =>
        if Nat.ltb i (List.length (c_beziers c)) then
          let bs := replaceAt (c_beziers c) i b in
          match contourEnds bs with
          | Ok (s, e) => (mkContour bs (c_bounds c) (c_lut c) s e, None)
          | Err x => (mkContour bs (c_bounds c) (c_lut c) (c_start c) (c_end c), Some x)
          end
        else (c, Some IndexError)
    end.

  (** Bezier.py:843-847 __delitem__ for a non-negative index. *)
  Definition delitem (c : bcontour) (i : nat) : bcontour * option exn :=
    if Nat.ltb i (List.length (c_beziers c)) then
      let bs := deleteAt (c_beziers c) i in
      match contourEnds bs with
      | Ok (s, e) => (mkContour bs (c_bounds c) (c_lut c) s e, None)
      | Err x => (mkContour bs (c_bounds c) (c_lut c) (c_start c) (c_end c), Some x)
      end
    else (c, Some IndexError).

  Definition setCLut (c : bcontour) (l : list (point T)) : bcontour :=
    mkContour (c_beziers c) (c_bounds c) l (c_start c) (c_end c).

  (** Bezier.py:855-861: the concatenation with joints removed.  [startPoint] is 0 for the first
      curve and 1 afterwards. *)
  Fixpoint concatLUT (startPoint : nat) (bs : list (bezier T)) (steps : Z) : res (list (point T)) :=
    match bs with
    | [] => Ok []
    | b :: r =>
        let* l := getLUT b steps in
        let* rest := concatLUT 1 r steps in
        Ok (skipn startPoint l ++ rest)
    end.

  (** Bezier.py:852-863 getLUT.  [curve.getLUT] can only fail for steps = 1, on the first curve,
      which leaves the memo empty. *)
  Definition contourLUT (c : bcontour) (steps : Z) : bcontour * res (list (point T)) :=
    if Z.eqb (Z.of_nat (List.length (c_lut c))) steps then (c, Ok (c_lut c))
    else match concatLUT 0 (c_beziers c) steps with
         | Ok l => (setCLut c l, Ok l)
         | Err x => (setCLut c [], Err x)
         end.

  (** Bezier.py:866-878 _findClosest: the loop state is (index, closest, i). *)
  Definition closestStep (p : point T) (st : Z * T * Z) (q : point T) : Z * T * Z :=
    let '(index, closest, i) := st in
    let d := thypot (fst q - fst p) (snd q - snd p) in
    if d <? closest then ((index + 1)%Z, d, index) else ((index + 1)%Z, closest, i).
  Definition findClosest (p : point T) (lut : list (point T)) : Z :=
    snd (fold_left (closestStep p) lut (0%Z, maxSafe, (-1)%Z)).

  (** Bezier.py:901-910: the three new samples; state is (closest, q, i). *)
  Definition refineSample (p : point T) (b : bezier T) (t1 step : T)
      (st : (T * point T * Z) * (list (point T) * list T)) (j : nat)
    : res ((T * point T * Z) * (list (point T) * list T)) :=
    let '((closest, q, i), (nl, nts)) := st in
    let nt := t1 + nofZ (Z.of_nat j) * step in
    let* n := get b nt in
    let d := thypot (fst n - fst p) (snd n - snd p) in
    let best := if d <? closest then (d, n, Z.of_nat j) else (closest, q, i) in
    Ok (best, (nl ++ [n], nts ++ [nt])).

  (** Bezier.py:888-916: the loop, at most [rounds] more times. *)
  Fixpoint refineLoop (rounds : nat) (p : point T) (b : bezier T) (lut : list (point T)) (tts : list T)
      (closest : T) (q : point T) (i : Z) : res (point T * T) :=
    match rounds with
    | O => Ok (q, closest)
    | S k =>
        let steps := Z.of_nat (List.length lut) in
        let i1 := if Z.eqb i 0 then 0%Z else (i - 1)%Z in
        let i2 := if Z.eqb i (steps - 1) then i else (i + 1)%Z in
        let* t1 := idxZ tts i1 in
        let* t2 := idxZ tts i2 in
        let step := nquot (t2 - t1) (nofZ 5) in
        if step <? nlit 1 1000 then Ok (q, closest)
        else
          let* l1 := idxZ lut i1 in
          let* ((closest', q', i'), (nl, nts)) :=
            foldM (refineSample p b t1 step) (seq 1 3) ((closest, q, i), ([l1], [t1])) in
          let* l2 := idxZ lut i2 in
          refineLoop k p b (nl ++ [l2]) (nts ++ [t2]) closest' q' i'
    end.

  (** Bezier.py:880-918 _refineBinary. *)
  Definition refineBinary (p : point T) (b : bezier T) (lut : list (point T)) (i : Z)
    : res (point T * T) :=
    let steps := List.length lut in
    let* tts := mapM (fun t => ndiv (nofZ (Z.of_nat t)) (nofZ (Z.of_nat steps - 1))) (seq 0 steps) in
    refineLoop 25 p b lut tts maxSafe (nofZ 0, nofZ 0) i.

  (** Bezier.py:925-934: which curve(s) the LUT index belongs to. *)
  Definition locate (bs : list (bezier T)) (i steps : Z)
    : res (bezier T * option (bezier T) * Z) :=
    let n := Z.of_nat (List.length bs) in
    if Z.ltb i steps then
      let* c := idx bs 0 in
      let* c2 := (if Z.eqb i (steps - 1) && Z.leb 2 n
                  then let* x := idx bs 1 in Ok (Some x) else Ok None) in
      Ok (c, c2, i)
    else
      let i := (i - steps)%Z in
      let s1 := (steps - 1)%Z in
      if Z.eqb s1 0 then Err ZeroDivisionError
      else
        let ix := (i / s1 + 1)%Z in
        let* c := idxZ bs ix in
        let* c2 := (if Z.ltb ix (n - 1) then let* x := idxZ bs (ix + 1) in Ok (Some x) else Ok None) in
        Ok (c, c2, (i mod s1)%Z).

  (** Bezier.py:920-947 findClosestPoint: (distance, point). *)
  Definition findClosestPoint (c : bcontour) (p : point T) (steps : Z)
    : bcontour * res (T * point T) :=
    match contourLUT c steps with
    | (c, Err x) => (c, Err x)
    | (c, Ok lut) =>
        (c,
         let i := findClosest p lut in
         let* (curve, curve2, i) := locate (c_beziers c) i steps in
         let* clut := getLUT curve steps in
         let* (cip, closest) := refineBinary p curve clut i in
         match curve2 with
         | None => Ok (closest, cip)
         | Some b2 =>
             let* lut2 := getLUT b2 steps in
             let* (cip2, c2) := refineBinary p b2 lut2 0 in
             if c2 <? closest then Ok (c2, cip2) else Ok (closest, cip)
         end)
    end.

  (** Bezier.py:1029-1042 BOutline. *)
  Record boutline : Type := mkOutline { ol_contours : list bcontour; ol_bounds : rect T }.
  Definition newOutline (cs : list (contour T)) : res boutline :=
    let* (bcs, bounds) := foldM (fun (st : list bcontour * rect T) c =>
      let* bc := newContour c in
      Ok (fst st ++ [bc], union (snd st) (c_bounds bc))) cs ([], BoundsRectangle []) in
    Ok (mkOutline bcs bounds).

  (** Bezier.py:1059-1068 unzipPoints. *)
  Definition unzipPoints (ps : list (point T)) : list T * list T :=
    fold_left (fun st p => (fst st ++ [fst p], snd st ++ [snd p])) ps ([], []).

  (** Bezier.py:1070-1072 pathFromSegments. *)
  Definition pathFromSegments (bs : list (bezier T)) : res bcontour := newContour (map cps bs).

  (** Client histories over one contour object. *)
  Inductive ccall : Type :=
  | CSet (i : nat) (pts : list (point T)) | CDel (i : nat) | CLut (steps : Z)
  | CFind (p : point T) (steps : Z).
  Definition cstep (c : bcontour) (k : ccall) : bcontour :=
    match k with
    | CSet i pts => fst (setitem c i pts)
    | CDel i => fst (delitem c i)
    | CLut s => fst (contourLUT c s)
    | CFind p s => fst (findClosestPoint c p s)
    end.
  Definition chistory (c : bcontour) (ks : list ccall) : bcontour := fold_left cstep ks c.

  (** Bezier.py:952-1003 d().  [show] is Python's [str] (and f-string conversion) on numbers. *)
  Section SVG.
    Variable show : T -> string.
    Local Open Scope string_scope.

    (** Bezier.py:949-950 pointToString. *)
    Definition pointToString (p : point T) : string := show (fst p) ++ "," ++ show (snd p).

    (** Bezier.py:962-963 getCommand: (text, new lastCommand). *)
    Definition getCommand (command lastCommand : string) : string * string :=
      (if String.eqb lastCommand command then " " else command, command).

    (** Bezier.py:965-999: one segment; the state is (pen, lastCommand), the result the appended
        text.  Segments of another length are skipped. *)
    Definition dSegment (st : point T * string) (seg : segment T) : (point T * string) * string :=
      let (pen, lastC) := st in
      match seg with
      | [_; p1] =>
          if (fst pen =? fst p1)%num && (snd pen =? snd p1)%num then (st, "")
          else if (fst pen =? fst p1)%num then
            let (c, lc) := getCommand "V" lastC in ((p1, lc), c ++ show (snd p1))
          else if (snd pen =? snd p1)%num then
            let (c, lc) := getCommand "H" lastC in ((p1, lc), c ++ show (fst p1))
          else
            let (c, lc) := getCommand "L" lastC in ((p1, lc), c ++ pointToString p1)
      | [_; p1; p2] =>
          let (c, lc) := getCommand "Q" lastC in
          ((p2, lc), c ++ pointToString p1 ++ " " ++ pointToString p2)
      | [_; p1; p2; p3] =>
          let (c, lc) := getCommand "C" lastC in
          ((p3, lc), c ++ pointToString p1 ++ " " ++ pointToString p2 ++ " " ++ pointToString p3)
      | _ => (st, "")
      end.
    Fixpoint dSegments (st : point T * string) (segs : list (segment T)) : string :=
      match segs with
      | [] => ""
      | s :: r => let (st', txt) := dSegment st s in txt ++ dSegments st' r
      end.
    Definition d_ (c : bcontour) : string :=
      "M" ++ pointToString (c_start c) ++ dSegments (c_start c, "") (map cps (c_beziers c)).
  End SVG.
End Contour.
Arguments bcontour T : clear implicits.
Arguments boutline T : clear implicits.
Arguments ccall T : clear implicits.
