(** Model of class Bezier, PathLib/Bezier.py:32-816, without its caches: every method as a
    function of the control points.  The caching object layer is in MBezierObj.v, where the
    methods below reappear behind the memo fields.

    A curve is its control points and the recorded parameter interval.  [_direction], [_linear]
    and [_clockwise] are computed once by the constructor from the control points, which never
    change afterwards; here they are functions of the control points. *)
From Coq Require Import List ZArith Bool.
From Verif Require Import Py MTransform MBounds MBezUtil MPathUtil.
Import ListNotations.
Local Open Scope num_scope.

Section Bezier.
  Context {T : Type} `{NumOps T} `{TrigOps T}.

  (** Bezier.py:38-44 (cached attributes: see MBezierObj.v). *)
  Record bezier : Type := mkBez { cps : list (point T); bt1 : T; bt2 : T }.

  (** Bezier.py:306-307 order.  The constructor rejects fewer than two points. *)
  Definition order (b : bezier) : nat := length (cps b) - 1.

  (** Bezier.py:33-36, 65-99 _computeDirection. *)
  Inductive dirn : Set := dir_mixed | dir_flat | dir_up | dir_down.
  Definition computeDirection (p : list (point T)) : res dirn :=
    let* p0 := idx p 0 in
    let* p1 := idx p 1 in
    let p0y := snd p0 in
    let p1y := snd p1 in
    if Nat.eqb (length p - 1) 1 then
      if p0y =? p1y then Ok dir_flat
      else if p0y <? p1y then Ok dir_up
      else Ok dir_down
    else
      let* p2 := idx p 2 in
      let p2y := snd p2 in
      if Nat.eqb (length p - 1) 2 then
        if (p0y <=? p1y) && (p1y <=? p2y) then Ok dir_up
        else if (p1y <=? p0y) && (p2y <=? p1y) then Ok dir_down
        else Ok dir_mixed
      else
        let* p3 := idx p 3 in
        let p3y := snd p3 in
        if Nat.eqb (length p - 1) 3 then
          if (p0y <=? p1y) && (p1y <=? p2y) && (p2y <=? p3y) then Ok dir_up
          else if (p1y <=? p0y) && (p2y <=? p1y) && (p3y <=? p2y) then Ok dir_down
          else Ok dir_mixed
        else Ok dir_mixed.

  (** Bezier.py:296-299 _align. *)
  Definition alignPoints (points seg : segment T) : res (segment T) :=
    let* a := rawSlopeAngle seg in
    let* s0 := idx seg 0 in
    let* tr := moveAndRotate s0 (nofZ 0, nofZ 0) (- a) in
    applyToSegment tr points.

  (** Bezier.py:54-60 _linear (the conversion to float of Decimal coordinates is the identity
      here). *)
  Definition isLinear (p : list (point T)) : res bool :=
    let* a := idx p 0 in
    let* z := idx_last p in
    let* aligned := alignPoints p [a; z] in
    Ok (Nat.eqb (length (filter (fun x => nlit 1 10000 <? nabs (snd x)) aligned)) 0).

  (** Bezier.py:62-63 _clockwise. *)
  Definition isClockwise (p : list (point T)) : res bool :=
    let* a := idx p 0 in
    let* z := idx_last p in
    let* q := idx p 1 in
    Ok (nofZ 0 <? angle a z q).

  (** Bezier.py:41-63 the constructor.  The only exception it can raise on pairs of numbers is the
      IndexError of _computeDirection (_align applies an affine transform, whose divisor is 1);
      the attributes computed there are the three functions above. *)
  Definition newBezier (p : list (point T)) : res bezier :=
    let* _ := computeDirection p in
    Ok (mkBez p (nofZ 0) (nofZ 1)).

  (** Bezier.py:150-158: one de Casteljau level; [i] runs over range(len-1). *)
  Fixpoint dcLevel (f : point T -> point T -> point T) (p : list (point T)) : list (point T) :=
    match p with
    | a :: ((b :: _) as r) => f a b :: dcLevel f r
    | _ => []
    end.
  (** Bezier.py:155-156. *)
  Definition dcStep (t : T) (a b : point T) : point T :=
    (fst a + (fst b - fst a) * t, snd a + (snd b - snd a) * t).
  (** Bezier.py:150-159: [while len(dcPoints) > 1]; each round shortens the list by one, so
      [length p] rounds are enough. *)
  Fixpoint dcLoop (fuel : nat) (t : T) (p : list (point T)) : res (point T) :=
    match fuel with
    | O => Err OutOfFuel
    | S f => if Nat.ltb 1 (length p) then dcLoop f t (dcLevel (dcStep t) p) else idx p 0
    end.

  (** Bezier.py:101-159, 292-293 _compute / get. *)
  Definition get (b : bezier) (t : T) : res (point T) :=
    let p := cps b in
    if t =? nofZ 0 then idx p 0
    else if t =? nofZ 1 then idx p (order b)
    else
      let mt := nofZ 1 - t in
      if Nat.eqb (order b) 0 then idx p 0
      else if Nat.eqb (order b) 1 then
        let* p0 := idx p 0 in
        let* p1 := idx p 1 in
        Ok (mt * fst p0 + t * fst p1, mt * snd p0 + t * snd p1)
      else if Nat.ltb (order b) 4 then
        let mt2 := mt * mt in
        let t2 := t * t in
        let* q0 := idx p 0 in
        let* q1 := idx p 1 in
        let* q2 := idx p 2 in
        let* (a, b', c, d, q3) :=
          (if Nat.eqb (order b) 2 then
             Ok (mt2, mt * t * nofZ 2, t2, nofZ 0, (nofZ 0, nofZ 0))
           else
             let* q3 := idx p 3 in
             Ok (mt2 * mt, mt2 * t * nofZ 3, mt * t2 * nofZ 3, t * t2, q3)) in
        Ok (a * fst q0 + b' * fst q1 + c * fst q2 + d * fst q3,
            a * snd q0 + b' * snd q1 + c * snd q2 + d * snd q3)
      else dcLoop (length p) t p.

  (** Bezier.py:318-337 dcPoints: repeated differences, scaled by the current degree. *)
  Definition diffStep (c : nat) (a b : point T) : point T :=
    (nofZ (Z.of_nat c) * (fst b - fst a), nofZ (Z.of_nat c) * (snd b - snd a)).
  Fixpoint dcPointsFrom (d : nat) (p : list (point T)) : list (list (point T)) :=
    match d with
    | S (S _ as c) =>
        let dpts := dcLevel (diffStep c) p in
        dpts :: dcPointsFrom c dpts
    | _ => []
    end.
  Definition dcPoints (b : bezier) : list (list (point T)) :=
    dcPointsFrom (length (cps b)) (cps b).

  (** Bezier.py:174-203 _derivative (float and Decimal branches compute the same formula). *)
  Definition derivative (b : bezier) (t : T) : res (point T) :=
    let* p := idx (dcPoints b) 0 in
    let mt := nofZ 1 - t in
    let* p0 := idx p 0 in
    let* p1 := idx p 1 in
    let* (a, b', c, p2) :=
      (if Nat.eqb (order b) 2 then Ok (mt, t, nofZ 0, (nofZ 0, nofZ 0))
       else let* p2 := idx p 2 in Ok (mt * mt, mt * t * nofZ 2, t * t, p2)) in
    Ok (a * fst p0 + b' * fst p1 + c * fst p2, a * snd p0 + b' * snd p1 + c * snd p2).

  (** Bezier.py:205-213 _tangent, _normal. *)
  Definition tangent (b : bezier) (t : T) : res (point T) :=
    let* d := derivative b t in
    let q := thypot (fst d) (snd d) in
    let* x := ndiv (fst d) q in
    let* y := ndiv (snd d) q in
    Ok (x, y).
  Definition normal_ (b : bezier) (t : T) : res (point T) :=
    let* d := derivative b t in
    let q := thypot (fst d) (snd d) in
    let* x := ndiv (- snd d) q in
    let* y := ndiv (fst d) q in
    Ok (x, y).

  (** Bezier.py:25-26, 217-218. *)
  Definition maxSafe : T := nofZ 9007199254740991.
  Definition minSafe : T := nofZ (-9007199254740991).

  (** Bezier.py:220-221: the parameter list with 0 and 1 added when missing. *)
  Definition addEnds (l : list T) : list T :=
    let l := if nmem (nofZ 0) l then l else nofZ 0 :: l in
    if nmem (nofZ 1) l then l else l ++ [nofZ 1].

  (** Bezier.py:215-228 _getminmax on the extended list. *)
  Definition coord (d : nat) (p : point T) : T := if Nat.eqb d 0 then fst p else snd p.
  Definition getminmax (b : bezier) (d : nat) (l : list T) : res (T * T) :=
    foldM (fun (mm : T * T) t =>
      let* c := get b t in
      let mn := if coord d c <? fst mm then coord d c else fst mm in
      let mx := if snd mm <? coord d c then coord d c else snd mm in
      Ok (mn, mx)) (addEnds l) (maxSafe, minSafe).

  (** Bezier.py:351: keep t with 0 <= t <= 1; NaN fails both comparisons. *)
  Definition inUnit (l : list (option T)) : list T :=
    flat_map (fun o => match o with
                       | Some t => if (nofZ 0 <=? t) && (t <=? nofZ 1) then [t] else []
                       | None => []
                       end) l.

  (** Bezier.py:345-352 extrema of one dimension. *)
  Definition extremaDim (b : bezier) (d : nat) : res (list T) :=
    let* p := idx (dcPoints b) 0 in
    let r := droots (map (coord d) p) in
    let* r := (if Nat.eqb (order b) 3
               then let* p1 := idx (dcPoints b) 1 in Ok (r ++ droots (map (coord d) p1))
               else Ok r) in
    Ok (inUnit r).

  (** Bezier.py:340-358 extrema: keys 0, 1, 2. *)
  Record extremaT : Type := mkExt { ex0 : list T; ex1 : list T; ex2 : list T }.
  Definition extrema (b : bezier) : res extremaT :=
    let* e0 := extremaDim b 0 in
    let* e1 := extremaDim b 1 in
    let roots := sorted e0 ++ sorted e1 in
    Ok (mkExt e0 e1 (removeDuplicates neqb (sorted roots))).

  (** Bezier.py:255-265 bbox. *)
  Definition bboxT : Type := ((T * T) * (T * T))%type.
  Definition bbox (b : bezier) : res bboxT :=
    let* e := extrema b in
    let* x := getminmax b 0 (ex0 e) in
    let* y := getminmax b 1 (ex1 e) in
    Ok (x, y).

  (** Bezier.py:277-284 boundsRectangle. *)
  Definition boundsRectangle (b : bezier) : res (rect T) :=
    let* bb := bbox b in
    let '((minX, maxX), (minY, maxY)) := bb in
    Ok (BoundsRectangle [(minX, minY); (maxX, maxY)]).

  (** Bezier.py:287-290 skeletonBounds. *)
  Definition skeletonBounds (b : bezier) : rect T :=
    let s := fromContour [cps b] in
    mkRect (left s) (right s + nofZ 40) (top s) (bottom s).

  (** Bezier.py:360-361 overlaps. *)
  Definition overlaps (a b : bezier) : res bool :=
    let* ra := boundsRectangle a in
    let* rb := boundsRectangle b in
    Ok (match intersection ra rb with Some _ => true | None => false end).

  (** Bezier.py:363-376 hull. *)
  Fixpoint hullLoop (fuel : nat) (t : T) (p q : list (point T)) : list (point T) :=
    match fuel with
    | O => q
    | S f => if Nat.ltb 1 (length p)
             then let p' := dcLevel (lerp t) p in hullLoop f t p' (q ++ p')
             else q
    end.
  Definition hull (b : bezier) (t : T) : list (point T) :=
    hullLoop (length (cps b)) t (cps b) (cps b).

  (** Bezier.py:379-389 getLUT without the cache; [steps] may be any integer. *)
  Definition getLUT (b : bezier) (steps : Z) : res (list (point T)) :=
    if Z.eqb steps 0 then Ok []
    else mapM (fun t => let* x := ndiv (nofZ (Z.of_nat t)) (nofZ (steps - 1)) in get b x)
              (seq 0 (Z.to_nat steps)).

  (** Bezier.py:430-454 split with one argument. *)
  Definition withInterval (b : bezier) (t1 t2 : T) : bezier := mkBez (cps b) t1 t2.
  Definition split1 (b : bezier) (t1 : T) : res (bezier * bezier * list (point T)) :=
    let q := hull b t1 in
    let* (l, r) :=
      (if Nat.eqb (order b) 2 then
         let* q0 := idx q 0 in let* q3 := idx q 3 in let* q5 := idx q 5 in
         let* l := newBezier [q0; q3; q5] in
         let* q4 := idx q 4 in let* q2 := idx q 2 in
         let* r := newBezier [q5; q4; q2] in
         Ok (l, r)
       else
         let* q0 := idx q 0 in let* q4 := idx q 4 in let* q7 := idx q 7 in let* q9 := idx q 9 in
         let* l := newBezier [q0; q4; q7; q9] in
         let* q8 := idx q 8 in let* q6 := idx q 6 in let* q3 := idx q 3 in
         let* r := newBezier [q9; q8; q6; q3] in
         Ok (l, r)) in
    let* lt1 := bmap (nofZ 0) (nofZ 0) (nofZ 1) (bt1 b) (bt2 b) in
    let* lt2 := bmap t1 (nofZ 0) (nofZ 1) (bt1 b) (bt2 b) in
    let* rt1 := bmap t1 (nofZ 0) (nofZ 1) (bt1 b) (bt2 b) in
    let* rt2 := bmap (nofZ 1) (nofZ 0) (nofZ 1) (bt1 b) (bt2 b) in
    Ok (withInterval l lt1 lt2, withInterval r rt1 rt2, q).

  (** Bezier.py:430-454 split with two arguments.  With a second argument equal to 0 (falsy) the
      call returns the triple of the one-argument form. *)
  Inductive splitResult : Type :=
  | SCurve (b : bezier)
  | STriple (l r : bezier) (q : list (point T)).
  Definition split2 (b : bezier) (t1 t2 : T) : res splitResult :=
    if (t1 =? nofZ 0) && (t2 != nofZ 0) then
      let* (l, _, _) := split1 b t2 in Ok (SCurve l)
    else if t2 =? nofZ 1 then
      let* (_, r, _) := split1 b t1 in Ok (SCurve r)
    else
      let* (l, r, q) := split1 b t1 in
      if t2 =? nofZ 0 then Ok (STriple l r q)
      else
        let* t2' := bmap t2 t1 (nofZ 1) (nofZ 0) (nofZ 1) in
        let* (l', _, _) := split1 r t2' in
        Ok (SCurve l').

  (** Callers that use the result as a curve: a tuple has no Bezier attribute (AttributeError). *)
  Definition split2curve (b : bezier) (t1 t2 : T) : res bezier :=
    let* s := split2 b t1 t2 in
    match s with SCurve c => Ok c | STriple _ _ _ => Err AttributeError end.

  (** Bezier.py:463-464 the filter of roots; NaN ([None]) never passes. *)
  Definition rootOk (t : T) : bool :=
    ((nofZ 0 <=? t) && (t <=? nofZ 1)) || approximately t (nofZ 0) || approximately t (nofZ 1).
  Definition keepRoots (l : list (option T)) : list T :=
    flat_map (fun o => match o with
                       | Some t => if rootOk t then [t] else []
                       | None => []
                       end) l.

  (** Bezier.py:467-481: quadratic case of roots. *)
  Definition quadRoots (a b c : T) : list T :=
    let d := a - nofZ 2 * b + c in
    if d != nofZ 0 then
      match bsqrt (b * b - a * c) with
      | None => keepRoots [None; None]
      | Some s =>
          let m1 := - s in
          let m2 := - a + b in
          let v1 := nquot (- (m1 + m2)) d in
          let v2 := nquot (- (- m1 + m2)) d in
          keepRoots [Some v1; Some v2]
      end
    else if (b != c) && (d =? nofZ 0) then
      keepRoots [Some (nquot (nofZ 2 * b - c) (nofZ 2 * b - nofZ 2 * c))]
    else [].

  (** Bezier.py:483-544: cubic case of roots.  The divisions are by quantities the branch
      conditions make non-zero ([2 * r] with r > 0 because the discriminant is negative). *)
  Definition cubicRoots (pa pb pc pd : T) : list T :=
    let d := - pa + nofZ 3 * pb - nofZ 3 * pc + pd in
    let a := nofZ 3 * pa - nofZ 6 * pb + nofZ 3 * pc in
    let b := nofZ (-3) * pa + nofZ 3 * pb in
    let c := pa in
    if approximately d (nofZ 0) then
      if approximately a (nofZ 0) then
        if approximately b (nofZ 0) then []
        else keepRoots [Some (nquot (- c) b)]
      else
        match bsqrt (b * b - nofZ 4 * a * c) with
        | None => keepRoots [None; None]
        | Some q =>
            let a2 := nofZ 2 * a in
            keepRoots [Some (nquot (q - b) a2); Some (nquot (- b - q) a2)]
        end
    else
      let a := nquot a d in
      let b := nquot b d in
      let c := nquot c d in
      let p := nquot (nofZ 3 * b - a * a) (nofZ 3) in
      let p3 := nquot p (nofZ 3) in
      let q := nquot (nofZ 2 * a * a * a - nofZ 9 * a * b + nofZ 27 * c) (nofZ 27) in
      let q2 := nquot q (nofZ 2) in
      let discriminant := q2 * q2 + p3 * p3 * p3 in
      if discriminant <? nofZ 0 then
        let mp3 := nquot (- p) (nofZ 3) in
        let mp33 := mp3 * mp3 * mp3 in
        match bsqrt mp33 with
        | None => keepRoots [None; None; None]
        | Some r =>
            let t := nquot (- q) (nofZ 2 * r) in
            let cosphi := if t <? nofZ (-1) then nofZ (-1)
                          else if nofZ 1 <? t then nofZ 1 else t in
            let phi := tacos cosphi in
            let crtr := crt r in
            let t1 := nofZ 2 * crtr in
            let x1 := t1 * tcos (nquot phi (nofZ 3)) - nquot a (nofZ 3) in
            let x2 := t1 * tcos (nquot (phi + tau) (nofZ 3)) - nquot a (nofZ 3) in
            let x3 := t1 * tcos (nquot (phi + nofZ 2 * tau) (nofZ 3)) - nquot a (nofZ 3) in
            keepRoots [Some x1; Some x2; Some x3]
        end
      else if approximately discriminant (nofZ 0) then
        let u1 := if q2 <? nofZ 0 then crt (- q2) else - crt q2 in
        let x1 := nofZ 2 * u1 - nquot a (nofZ 3) in
        let x2 := - u1 - nquot a (nofZ 3) in
        keepRoots [Some x1; Some x2]
      else
        match bsqrt discriminant with
        | None => keepRoots [None]
        | Some sd =>
            let u1 := crt (- q2 + sd) in
            let v1 := crt (q2 + sd) in
            keepRoots [Some (u1 - v1 - nquot a (nofZ 3))]
        end.

  (** Bezier.py:456-544 roots.  [None] or an empty segment: the control points themselves. *)
  Definition roots (b : bezier) (seg : option (segment T)) : res (list T) :=
    let* p := (match seg with
               | Some ((_ :: _) as s) => alignPoints (cps b) s
               | _ => Ok (cps b)
               end) in
    let* p0 := idx p 0 in
    let* p1 := idx p 1 in
    let* p2 := idx p 2 in
    if Nat.eqb (length p - 1) 2 then Ok (quadRoots (snd p0) (snd p1) (snd p2))
    else
      let* p3 := idx p 3 in
      Ok (cubicRoots (snd p0) (snd p1) (snd p2) (snd p3)).

  (** Bezier.py:546-550 align. *)
  Definition align (b : bezier) (seg : option (segment T)) : res bezier :=
    let s := match seg with Some ((_ :: _) as s) => s | _ => cps b end in
    let* p := alignPoints (cps b) s in
    newBezier p.

  (** Bezier.py:267-274 tightbbox. *)
  Definition tightbbox (b : bezier) : res (contour T) :=
    let* aligned := align b None in
    let* tBounds := boundsRectangle aligned in
    let* a := rawSlopeAngle (cps b) in
    let* p0 := idx (cps b) 0 in
    let* tr := rotateAndMove (nofZ 0, nofZ 0) p0 a in
    applyToContour tr (rcontour tBounds).

  (** Bezier.py:552-555 normal.  [dx*dx+dy*dy] is never negative; the NaN of butils.sqrt would
      make both quotients NaN. *)
  Definition normal (b : bezier) (t : T) : res (point T) :=
    let* d := derivative b t in
    let (dx, dy) := d in
    match bsqrt (dx * dx + dy * dy) with
    | None => Err ValueError
    | Some q =>
        let* x := ndiv (- dy) q in
        let* y := ndiv dx q in
        Ok (x, y)
    end.

  (** Bezier.py:558-567 simple ([math.acos] raises ValueError outside [-1,1]; a NaN is
      passed on). *)
  Definition pyacos (s : T) : res T :=
    if (s <? nofZ (-1)) || (nofZ 1 <? s) then Err ValueError else Ok (tacos s).
  Definition simple (b : bezier) : res bool :=
    let* bad :=
      (if Nat.eqb (order b) 3 then
         let* p0 := idx (cps b) 0 in let* p1 := idx (cps b) 1 in
         let* p2 := idx (cps b) 2 in let* p3 := idx (cps b) 3 in
         let a1 := angle p0 p3 p1 in
         let a2 := angle p0 p3 p2 in
         Ok (((nofZ 0 <? a1) && (a2 <? nofZ 0)) || ((a1 <? nofZ 0) && (nofZ 0 <? a2)))
       else Ok false) in
    if bad then Ok false
    else
      let* n1 := normal b (nofZ 0) in
      let* n2 := normal b (nofZ 1) in
      let s := fst n1 * fst n2 + snd n1 * snd n2 in
      let* ac := pyacos s in
      Ok (nabs ac <? nquot tpi (nofZ 3)).

  (** Bezier.py:574-585: first pass of reduce over the extrema (0 and 1 added). *)
  Fixpoint reducePass1 (b : bezier) (t1 : T) (ts : list T) : res (list bezier) :=
    match ts with
    | [] => Ok []
    | t2 :: r =>
        let* sg := split2curve b t1 t2 in
        let* rest := reducePass1 b t2 r in
        Ok (withInterval sg t1 t2 :: rest)
    end.

  (** Bezier.py:588 step. *)
  Definition rstep : T := nlit 1 100.

  (** Bezier.py:594-607: the inner while loop from [t2].  Result: [RNone] is [return []];
      [RBreak t1' seg] is the break with a new segment and new t1; [RDone] is normal exit
      (t2 > 1). *)
  Inductive innerResult : Type := RNone | RBreak (t : T) (sg : bezier) | RDone.
  Fixpoint reduceInner (fuel : nat) (p1 : bezier) (t1 t2 : T) : res innerResult :=
    match fuel with
    | O => Err OutOfFuel
    | S f =>
        if t2 <=? nofZ 1 then
          let* sg := split2curve p1 t1 t2 in
          let* sim := simple sg in
          if sim then reduceInner f p1 t1 (t2 + rstep)
          else
            let t2 := t2 - rstep in
            if nabs (t1 - t2) <? rstep then Ok RNone
            else
              let* sg := split2curve p1 t1 t2 in
              let* a := bmap t1 (nofZ 0) (nofZ 1) (bt1 p1) (bt2 p1) in
              let* z := bmap t2 (nofZ 0) (nofZ 1) (bt1 p1) (bt2 p1) in
              Ok (RBreak t2 (withInterval sg a z))
        else Ok RDone
    end.

  (** Bezier.py:590-607: the outer while loop; [None] is [return []], otherwise the final t1 and
      the segments appended to pass2. *)
  Fixpoint reduceOuter (fuel : nat) (p1 : bezier) (t1 t2 : T) (acc : list bezier)
    : res (option (T * list bezier)) :=
    match fuel with
    | O => Err OutOfFuel
    | S f =>
        if t2 <=? nofZ 1 then
          let* r := reduceInner fuel p1 t1 (t1 + rstep) in
          match r with
          | RNone => Ok None
          | RBreak t sg => reduceOuter f p1 t t (acc ++ [sg])
          | RDone => Ok (Some (t1, acc))
          end
        else Ok (Some (t1, acc))
    end.

  (** Bezier.py:589-615: second pass. *)
  Fixpoint reducePass2 (fuel : nat) (ps : list bezier) (pass2 : list bezier) : res (list bezier) :=
    match ps with
    | [] => Ok pass2
    | p1 :: r =>
        let* o := reduceOuter fuel p1 (nofZ 0) (nofZ 0) [] in
        match o with
        | None => Ok []
        | Some (t1, segs) =>
            let* pass2 :=
              (if t1 <? nofZ 1 then
                 let* sg := split2curve p1 t1 (nofZ 1) in
                 let* a := bmap t1 (nofZ 0) (nofZ 1) (bt1 p1) (bt2 p1) in
                 Ok (pass2 ++ segs ++ [withInterval sg a (bt2 p1)])
               else Ok (pass2 ++ segs)) in
            reducePass2 fuel r pass2
        end
    end.

  (** Bezier.py:569-615 reduce. *)
  Definition reduce (fuel : nat) (b : bezier) : res (list bezier) :=
    let* e := extrema b in
    let ts := addEnds (ex2 e) in
    let* t0 := idx ts 0 in
    let* pass1 := reducePass1 b t0 (tl ts) in
    reducePass2 fuel pass1 [].

  (** Bezier.py:617-630 lineIntersects. *)
  Definition lineIntersects (b : bezier) (p1 p2 : point T) : res (list T) :=
    let mx := pmin (fst p1) (fst p2) in
    let my := pmin (snd p1) (snd p2) in
    let MX := pmax (fst p1) (fst p2) in
    let MY := pmax (snd p1) (snd p2) in
    let* rs := roots b (Some [p1; p2]) in
    filterM (fun t => let* xy := get b t in
                      Ok (between (fst xy) mx MX && between (snd xy) my MY)) rs.

  (** Bezier.py:632-643 intersectWithLine. *)
  Definition intersectWithLine (b line : bezier) : res (option (point T)) :=
    if Nat.eqb (order b) 1 then lli (cps b) (cps line)
    else
      let* rs := roots b (Some (cps line)) in
      match rs with
      | [] => Ok None
      | r :: _ =>
          let root := if r <? nofZ 0 then nofZ 0 else if nofZ 1 <? r then nofZ 1 else r in
          let* p := get b root in Ok (Some p)
      end.

  (** Bezier.py:652: the reported parameter pair. *)
  Definition reportPair (c1 c2 : bezier) : point T :=
    let r := nofZ 100000 in
    (nquot (nquot (r * (bt1 c1 + bt2 c1)) (nofZ 2)) r,
     nquot (nquot (r * (bt1 c2 + bt2 c2)) (nofZ 2)) r).

  (** Bezier.py:646-666 pairiteration.  [fuel] is the Python recursion depth still available. *)
  Fixpoint pairiteration (fuel : nat) (threshold : T) (c1 c2 : bezier) : res (list (point T)) :=
    match fuel with
    | O => Err RecursionError
    | S f =>
        let* c1b := boundsRectangle c1 in
        let* c2b := boundsRectangle c2 in
        if (height c1b + width c1b <? threshold) && (height c2b + width c2b <? threshold) then
          Ok [reportPair c1 c2]
        else
          let* (l1, r1, _) := split1 c1 (nlit 1 2) in
          let* (l2, r2, _) := split1 c2 (nlit 1 2) in
          let* pairs := filterM (fun pr : bezier * bezier => overlaps (fst pr) (snd pr))
                                [(l1, l2); (l1, r2); (r1, r2); (r1, l2)] in
          if Nat.eqb (length pairs) 0 then Ok []
          else
            let* rs := mapM (fun pr => pairiteration f threshold (fst pr) (snd pr)) pairs in
            Ok (removeDuplicates pteqb (concat rs))
    end.

  (** Bezier.py:669-685 curveIntersects. *)
  Definition curveIntersects (fuel : nat) (threshold : T) (c1 c2 : list bezier) : res (list (point T)) :=
    let* pairs := filterM (fun pr : bezier * bezier => overlaps (fst pr) (snd pr))
                          (list_prod c1 c2) in
    let* rs := mapM (fun pr => pairiteration fuel threshold (fst pr) (snd pr)) pairs in
    Ok (concat rs).

  (** Bezier.py:687-701 selfIntersects.  [rfuel] is the loop fuel of reduce.
      [range(len-2)] is empty when len < 2. *)
  Definition selfIntersects (rfuel fuel : nat) (b : bezier) (threshold : T) : res (list (point T)) :=
    let* reduced := reduce rfuel b in
    let* rs := mapM (fun i =>
      curveIntersects fuel threshold (firstn 1 (skipn i reduced)) (skipn (i + 2) reduced))
      (seq 0 (length reduced - 2)) in
    Ok (concat rs).

  (** Bezier.py:703-708 intersects. *)
  Definition intersects (rfuel fuel : nat) (b : bezier) (curve : option bezier) (threshold : T)
    : res (list (point T)) :=
    match curve with
    | None => selfIntersects rfuel fuel b threshold
    | Some c =>
        let* r1 := reduce rfuel b in
        let* r2 := reduce rfuel c in
        curveIntersects fuel threshold r1 r2
    end.

  (** Bezier.py:710-724 getABC. *)
  Definition getABC (b : bezier) (t : T)
    : res (point T * point T * option (point T) * T * list (point T)) :=
    let h := hull b t in
    let* (A, B, ratio) :=
      (if Nat.eqb (order b) 2 then
         let* A := idx (cps b) 1 in
         let* B := idx h 5 in
         let* ratio := quadraticRatio t in Ok (A, B, ratio)
       else
         let* A := idx h 5 in
         let* B := idx h 9 in
         let* ratio := cubicRatio t in Ok (A, B, ratio)) in
    let* p0 := idx (cps b) 0 in
    let* pn := idx_last (cps b) in
    Ok (A, B, lli4 A B p0 pn, ratio, h).

  (** Bezier.py:726-737 raiseOrder.  The loop starts at i = 0, where [p[i - 1]] is [p[-1]]. *)
  Definition raisedPoint (p : list (point T)) (k i : nat) : res (point T) :=
    let* pi := idx p i in
    let* pm := (match i with O => idx_last p | S j => idx p j end) in
    let u := nquot (nofZ (Z.of_nat k - Z.of_nat i)) (nofZ (Z.of_nat k)) in
    let v := nquot (nofZ (Z.of_nat i)) (nofZ (Z.of_nat k)) in
    Ok (u * fst pi + v * fst pm, u * snd pi + v * snd pm).
  Definition raiseOrder (b : bezier) : res bezier :=
    let p := cps b in
    let k := length p in
    let* p0 := idx p 0 in
    let* mid := mapM (raisedPoint p k) (seq 0 k) in
    let* pn := idx_last p in
    newBezier (p0 :: mid ++ [pn]).

  (** Bezier.py:746-751 offset(t, d) with a non-zero d: [c, n, p]. *)
  Definition offsetPoint (b : bezier) (t d : T) : res (point T * point T * point T) :=
    let* c := get b t in
    let* n := normal b t in
    Ok (c, n, (fst c + fst n * d, snd c + snd n * d)).

  (** Bezier.py:753-756 offset of a linear curve. *)
  Definition offsetLinear (b : bezier) (t : T) : res (list bezier) :=
    let* nv := normal b (nofZ 0) in
    let coords := map (fun p : point T => (fst p + t * fst nv, snd p + t * snd nv)) (cps b) in
    let* c := newBezier coords in
    Ok [c].

  (** Bezier.py:782-789 scale: the end points moved along the end normals. *)
  Definition movedEnd (p n : point T) (r : T) : point T := (fst p + r * fst n, snd p + r * snd n).

  (** Bezier.py:773-780: the "origin" o. *)
  Definition scaleOrigin (v0 v1 : point T * point T * point T) : res (point T) :=
    let '(c0, n0, q0) := v0 in
    let '(c1, n1, q1) := v1 in
    match lli4 q0 c0 q1 c1 with Some o => Ok o | None => Err ValueError end.

  (** Bezier.py:805-814: one inner control point moved away from / towards o. *)
  Definition movedInner (p o : point T) (rc : T) : res (point T) :=
    let ovx := fst p - fst o in
    let ovy := snd p - snd o in
    let m := thypot ovx ovy in
    let* ovx := ndiv ovx m in
    let* ovy := ndiv ovy m in
    Ok (fst p + rc * ovx, snd p + rc * ovy).

  (** Bezier.py:762-816 scale(d) for a number d. *)
  Definition scaleNum (b : bezier) (d : T) : res bezier :=
    let n := order b in
    let* clockwise := isClockwise (cps b) in
    let* v0 := offsetPoint b (nofZ 0) (nofZ 10) in
    let* v1 := offsetPoint b (nofZ 1) (nofZ 10) in
    let* o := scaleOrigin v0 v1 in
    let* p0 := idx (cps b) 0 in
    let* pn := idx (cps b) n in
    let e0 := movedEnd p0 (snd (fst v0)) d in
    let e1 := movedEnd pn (snd (fst v1)) d in
    let rc := if clockwise then d else - d in
    let* p1 := idx (cps b) 1 in
    let* m1 := movedInner p1 o rc in
    if Nat.eqb n 2 then newBezier [e0; m1; e1]
    else
      let* p2 := idx (cps b) 2 in
      let* m2 := movedInner p2 o rc in
      if Nat.eqb n 3 then newBezier [e0; m1; m2; e1]
      else newBezier ([e0; m1; m2] ++ repeat (nofZ 0, nofZ 0) (n - 3) ++ [e1]).

  (** Bezier.py:791-801 scale(d) for a function d, on a curve of order other than 2: the inner
      points are where the offset end tangents meet the rays from o through the control points;
      a None there makes the constructor raise TypeError when it unpacks it. *)
  Definition tangentMeet (e dv o cp : point T) : res (point T) :=
    match lli4 e (fst e + fst dv, snd e + snd dv) o cp with
    | Some p => Ok p
    | None => Err TypeError
    end.
  Definition scaleFnBody (b : bezier) (d : T -> T) : res bezier :=
    let n := order b in
    let r1 := d (nofZ 0) in
    let r2 := d (nofZ 1) in
    let* v0 := offsetPoint b (nofZ 0) (nofZ 10) in
    let* v1 := offsetPoint b (nofZ 1) (nofZ 10) in
    let* o := scaleOrigin v0 v1 in
    let* p0 := idx (cps b) 0 in
    let* pn := idx (cps b) n in
    let e0 := movedEnd p0 (snd (fst v0)) r1 in
    let e1 := movedEnd pn (snd (fst v1)) r2 in
    let* d0 := derivative b (nofZ 0) in
    let* d1 := derivative b (nofZ 1) in
    let* p1 := idx (cps b) 1 in
    let* p2 := idx (cps b) 2 in
    let* m1 := tangentMeet e0 d0 o p1 in
    let* m2 := tangentMeet e1 d1 o p2 in
    if Nat.eqb n 3 then newBezier [e0; m1; m2; e1]
    else newBezier ([e0; m1; m2] ++ repeat (nofZ 0, nofZ 0) (n - 3) ++ [e1]).
  (** Bezier.py:766: a quadratic is raised first; the result has order 4 (see C56), not 2, so
      the recursion is one level deep. *)
  Definition scaleFn (b : bezier) (d : T -> T) : res bezier :=
    if Nat.eqb (order b) 2 then let* rb := raiseOrder b in scaleFnBody rb d
    else scaleFnBody b d.

  (** Bezier.py:753-759 offset(t) without a distance: a list of curves. *)
  Definition offsetCurves (fuel : nat) (b : bezier) (t : T) : res (list bezier) :=
    let* lin := isLinear (cps b) in
    if lin then offsetLinear b t
    else
      let* reduced := reduce fuel b in
      mapM (fun r =>
        let* rl := isLinear (cps r) in
        if rl then let* l := offsetLinear r t in idx l 0
        else scaleNum r t) reduced.

  (** Bezier.py:745-759 offset(t, d): a falsy d (0 or None) selects the curve form. *)
  Inductive offsetResult : Type :=
  | OPoints (c n p : point T)
  | OCurves (l : list bezier).
  Definition offset (fuel : nat) (b : bezier) (t : T) (d : option T) : res offsetResult :=
    match d with
    | Some d' =>
        if d' != nofZ 0 then let* (c, n, p) := offsetPoint b t d' in Ok (OPoints c n p)
        else let* l := offsetCurves fuel b t in Ok (OCurves l)
    | None => let* l := offsetCurves fuel b t in Ok (OCurves l)
    end.
End Bezier.
Arguments bezier T : clear implicits.
Arguments extremaT T : clear implicits.
Arguments bboxT T : clear implicits.
