(** Model of PathLib/BezierUtilities.py. *)
From Coq Require Import List ZArith Bool.
From Verif Require Import Py.
Import ListNotations.
Local Open Scope num_scope.

Section BezUtil.
  Context {T : Type} `{NumOps T} `{TrigOps T}.

  (** BezierUtilities.py:76 epsilon. *)
  Definition epsilon : T := nlit 1 1000000.
  (** BezierUtilities.py:79-80 pi, tau ([tau] is 2*pi). *)
  Definition tau : T := nofZ 2 * tpi.

  (** BezierUtilities.py:84-86. *)
  Definition approximatelyP (a b precision : T) : bool := nabs (a - b) <=? precision.
  Definition approximately (a b : T) : bool := approximatelyP a b epsilon.

  (** BezierUtilities.py:88-89. *)
  Definition between (v m M : T) : bool :=
    ((m <=? v) && (v <=? M)) || (approximately v m || approximately v M).

  (** BezierUtilities.py:91-100 sqrt.  [None] is [math.nan], returned for negative arguments. *)
  Definition bsqrt (x : T) : option T := if x <? nofZ 0 then None else Some (tsqrt x).

  (** BezierUtilities.py:102-104 crt. *)
  Definition crt (v : T) : T :=
    if v <? nofZ 0 then - tpow (- v) (nlit 1 3) else tpow v (nlit 1 3).

  (** BezierUtilities.py:106-123 removeDuplicates.  [l.index(v)] is the first position holding a
      value equal to [v]; it always exists because v itself is in the list. *)
  Fixpoint index_of {A : Type} (eqb : A -> A -> bool) (v : A) (l : list A) : option nat :=
    match l with
    | [] => None
    | x :: r => if eqb x v then Some O else option_map S (index_of eqb v r)
    end.
  Definition removeDuplicates {A : Type} (eqb : A -> A -> bool) (l : list A) : list A :=
    fold_left
      (fun result iv =>
         match index_of eqb (snd iv) l with
         | Some j => if Nat.eqb j (fst iv) then result ++ [snd iv] else result
         | None => result
         end)
      (combine (seq 0 (length l)) l) [].

  (** BezierUtilities.py:125-133 lli8.  The two divisions are guarded by [d == 0]. *)
  Definition lli8 (x1 y1 x2 y2 x3 y3 x4 y4 : T) : option (point T) :=
    let nx := (x1 * y2 - y1 * x2) * (x3 - x4) - (x1 - x2) * (x3 * y4 - y3 * x4) in
    let ny := (x1 * y2 - y1 * x2) * (y3 - y4) - (y1 - y2) * (x3 * y4 - y3 * x4) in
    let d := (x1 - x2) * (y3 - y4) - (y1 - y2) * (x3 - x4) in
    if d =? nofZ 0 then None else Some (nquot nx d, nquot ny d).

  (** BezierUtilities.py:136-141 lli4. *)
  Definition lli4 (p1 p2 p3 p4 : point T) : option (point T) :=
    lli8 (fst p1) (snd p1) (fst p2) (snd p2) (fst p3) (snd p3) (fst p4) (snd p4).

  (** BezierUtilities.py:144-145 lli. *)
  Definition lli (l1 l2 : segment T) : res (option (point T)) :=
    let* a := idx l1 0 in let* b := idx l1 1 in
    let* c := idx l2 0 in let* d := idx l2 1 in
    Ok (lli4 a b c d).

  (** BezierUtilities.py:148-176 droots.  A NaN entry is [None]. *)
  Definition droots (p : list T) : list (option T) :=
    match p with
    | [a; b; c] =>
        let d := a - nofZ 2 * b + c in
        if d != nofZ 0 then
          match bsqrt (b * b - a * c) with
          | None => [None; None]
          | Some s =>
              let m1 := - s in
              let m2 := - a + b in
              let v1 := nquot (- (m1 + m2)) d in
              let v2 := nquot (- (- m1 + m2)) d in
              [Some v1; Some v2]
          end
        else if (b != c) && (d =? nofZ 0) then
          [Some (nquot (nofZ 2 * b - c) (nofZ 2 * (b - c)))]
        else []
    | [a; b] => if a != b then [Some (nquot a (a - b))] else []
    | _ => []
    end.

  (** BezierUtilities.py:179-183 lerp. *)
  Definition lerp (r : T) (v1 v2 : point T) : point T :=
    let (v1x, v1y) := v1 in
    let (v2x, v2y) := v2 in
    (v1x + r * (v2x - v1x), v1y + r * (v2y - v1y)).

  (** BezierUtilities.py:185-189. *)
  Definition quadraticRatio (t : T) : res T :=
    let t2 := nofZ 2 * t in
    let top := t2 * t - t2 in
    let bottom := top + nofZ 1 in
    let* q := ndiv top bottom in Ok (nabs q).

  (** BezierUtilities.py:191-197. *)
  Definition cubicRatio (t : T) : res T :=
    let mt := nofZ 1 - t in
    let t3 := t * t * t in
    let mt3 := mt * mt * mt in
    let bottom := t3 + mt3 in
    let top := bottom - nofZ 1 in
    let* q := ndiv top bottom in Ok (nabs q).

  (** BezierUtilities.py:199-209 map. *)
  Definition bmap (v ds de ts te : T) : res T :=
    let d1 := de - ds in
    let d2 := te - ts in
    let v2 := v - ds in
    let* r := ndiv v2 d1 in
    Ok (ts + d2 * r).

  (** BezierUtilities.py:211-222 angle. *)
  Definition angle (o v1 v2 : point T) : T :=
    let dx1 := fst v1 - fst o in
    let dy1 := snd v1 - snd o in
    let dx2 := fst v2 - fst o in
    let dy2 := snd v2 - snd o in
    let cross := dx1 * dy2 - dy1 * dx2 in
    let dot := dx1 * dx2 + dy1 * dy2 in
    tatan2 cross dot.
End BezUtil.
