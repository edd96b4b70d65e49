(** The caching layer of class Bezier (PathLib/Bezier.py:45-50 and the lazily computed
    properties) as a state machine.

    A curve object is the curve plus its memo fields.  Methods return the new object together
    with the result; an exception leaves the fields as they are at that moment.  [prec] is the
    thread's decimal context precision, which [length] changes temporarily. *)
From Coq Require Import List ZArith Bool.
From Verif Require Import Py MTransform MBounds MBezUtil MPathUtil MBezier MTables.
Import ListNotations.
Local Open Scope num_scope.

Section BezierObj.
  Context {T : Type} `{NumOps T} `{TrigOps T}.

  (** Bezier.py:41-50: control points, interval and memo fields ([None] or [] = not computed). *)
  Record bobj : Type := mkObj {
    o_bez : bezier T;
    o_dc : list (list (point T));
    o_ext : option (extremaT T);
    o_len : option T;
    o_bbox : option (bboxT T);
    o_rect : option (rect T);
    o_lut : list (point T)
  }.
  Definition fresh (b : bezier T) : bobj := mkObj b [] None None None None [].

  Definition setDc (o : bobj) v := mkObj (o_bez o) v (o_ext o) (o_len o) (o_bbox o) (o_rect o) (o_lut o).
  Definition setExt (o : bobj) v := mkObj (o_bez o) (o_dc o) v (o_len o) (o_bbox o) (o_rect o) (o_lut o).
  Definition setLen (o : bobj) v := mkObj (o_bez o) (o_dc o) (o_ext o) v (o_bbox o) (o_rect o) (o_lut o).
  Definition setBbox (o : bobj) v := mkObj (o_bez o) (o_dc o) (o_ext o) (o_len o) v (o_rect o) (o_lut o).
  Definition setRect (o : bobj) v := mkObj (o_bez o) (o_dc o) (o_ext o) (o_len o) (o_bbox o) v (o_lut o).
  Definition setLut (o : bobj) v := mkObj (o_bez o) (o_dc o) (o_ext o) (o_len o) (o_bbox o) (o_rect o) v.

  (** Bezier.py:318-337 dcPoints: [if not self._dcPoints] also recomputes an empty list. *)
  Definition q_dcPoints (o : bobj) : bobj * list (list (point T)) :=
    match o_dc o with
    | [] => let d := dcPoints (o_bez o) in (setDc o d, d)
    | d => (o, d)
    end.

  (** Bezier.py:345-352, reading the memoised dcPoints [dc]. *)
  Definition extremaDimFrom (dc : list (list (point T))) (ord d : nat) : res (list T) :=
    let* p := idx dc 0 in
    let r := droots (map (coord d) p) in
    let* r := (if Nat.eqb ord 3
               then let* p1 := idx dc 1 in Ok (r ++ droots (map (coord d) p1))
               else Ok r) in
    Ok (inUnit r).

  (** Bezier.py:340-358 extrema. *)
  Definition q_extrema (o : bobj) : bobj * res (extremaT T) :=
    match o_ext o with
    | Some e => (o, Ok e)
    | None =>
        let (o, dc) := q_dcPoints o in
        let r := (let* e0 := extremaDimFrom dc (order (o_bez o)) 0 in
                  let* e1 := extremaDimFrom dc (order (o_bez o)) 1 in
                  let roots := sorted e0 ++ sorted e1 in
                  Ok (mkExt e0 e1 (removeDuplicates neqb (sorted roots)))) in
        match r with
        | Ok e => (setExt o (Some e), Ok e)
        | Err x => (o, Err x)
        end
    end.

  (** Bezier.py:215-228 _getminmax: [list] is the very list stored in the extrema memo, so the
      inserted 0 and 1 stay there. *)
  Definition minmaxOver (b : bezier T) (d : nat) (l : list T) : res (T * T) :=
    foldM (fun (mm : T * T) t =>
      let* c := get b t in
      let mn := if coord d c <? fst mm then coord d c else fst mm in
      let mx := if snd mm <? coord d c then coord d c else snd mm in
      Ok (mn, mx)) l (maxSafe, minSafe).

  (** Bezier.py:255-265 bbox. *)
  Definition q_bbox (o : bobj) : bobj * res (bboxT T) :=
    match o_bbox o with
    | Some b => (o, Ok b)
    | None =>
        match q_extrema o with
        | (o, Err x) => (o, Err x)
        | (o, Ok e) =>
            let l0 := addEnds (ex0 e) in
            let o := setExt o (Some (mkExt l0 (ex1 e) (ex2 e))) in
            match minmaxOver (o_bez o) 0 l0 with
            | Err x => (o, Err x)
            | Ok mm0 =>
                let l1 := addEnds (ex1 e) in
                let o := setExt o (Some (mkExt l0 l1 (ex2 e))) in
                match minmaxOver (o_bez o) 1 l1 with
                | Err x => (o, Err x)
                | Ok mm1 => (setBbox o (Some (mm0, mm1)), Ok (mm0, mm1))
                end
            end
        end
    end.

  (** Bezier.py:277-284 boundsRectangle. *)
  Definition q_bounds (o : bobj) : bobj * res (rect T) :=
    match o_rect o with
    | Some r => (o, Ok r)
    | None =>
        match q_bbox o with
        | (o, Err x) => (o, Err x)
        | (o, Ok ((minX, maxX), (minY, maxY))) =>
            let r := BoundsRectangle [(minX, minY); (maxX, maxY)] in
            (setRect o (Some r), Ok r)
        end
    end.

  (** Bezier.py:379-389 getLUT.  The memo is emptied before sampling; an exception (steps = 1:
      the first division raises) leaves it empty. *)
  Definition sampleLUT (b : bezier T) (steps : Z) : res (list (point T)) :=
    mapM (fun t => let* x := ndiv (nofZ (Z.of_nat t)) (nofZ (steps - 1)) in get b x)
         (seq 0 (Z.to_nat steps)).
  Definition q_getLUT (o : bobj) (steps : Z) : bobj * res (list (point T)) :=
    if Z.eqb (Z.of_nat (length (o_lut o))) steps then (o, Ok (o_lut o))
    else match sampleLUT (o_bez o) steps with
         | Ok l => (setLut o l, Ok l)
         | Err x => (setLut o [], Err x)
         end.

  (** Bezier.py:569-615 reduce: 0 and 1 are inserted into the memoised extrema[2]. *)
  Definition q_reduce (fuel : nat) (o : bobj) : bobj * res (list (bezier T)) :=
    match q_extrema o with
    | (o, Err x) => (o, Err x)
    | (o, Ok e) =>
        let ts := addEnds (ex2 e) in
        let o := setExt o (Some (mkExt (ex0 e) (ex1 e) ts)) in
        (o, let* t0 := idx ts 0 in
            let* pass1 := reducePass1 (o_bez o) t0 (tl ts) in
            reducePass2 fuel pass1 [])
    end.

  (** Bezier.py:174-203 _derivative reads the dcPoints memo. *)
  Definition derivativeFrom (dc : list (list (point T))) (ord : nat) (t : T) : res (point T) :=
    let* p := idx dc 0 in
    let mt := nofZ 1 - t in
    let* p0 := idx p 0 in
    let* p1 := idx p 1 in
    let* (a, b', c, p2) :=
      (if Nat.eqb ord 2 then Ok (mt, t, nofZ 0, (nofZ 0, nofZ 0))
       else let* p2 := idx p 2 in Ok (mt * mt, mt * t * nofZ 2, t * t, p2)) in
    Ok (a * fst p0 + b' * fst p1 + c * fst p2, a * snd p0 + b' * snd p1 + c * snd p2).
  Definition q_derivative (o : bobj) (t : T) : bobj * res (point T) :=
    let (o, dc) := q_dcPoints o in (o, derivativeFrom dc (order (o_bez o)) t).

  (** Bezier.py:391-397 _arcfun.  Decimal arithmetic is modelled as exact arithmetic. *)
  Definition arcfun (b : bezier T) (t : T) : res T :=
    let* (dx, dy) := derivative b t in
    Ok (tsqrt (dx * dx + dy * dy)).

  (** BezierUtilities.py:20-73. *)
  Definition tValues : list T := map (fun z => nquot (nofZ z) (nofZ tableScale)) tValuesZ.
  Definition cValues : list T := map (fun z => nquot (nofZ z) (nofZ tableScale)) cValuesZ.

  (** Bezier.py:410-418: the quadrature sum. *)
  Definition quadrature (b : bezier T) : res T :=
    let z := nlit 1 2 in
    let* sum := foldM (fun sum (tc : T * T) =>
      let t := fst tc * z + z in
      let* a := arcfun b t in
      Ok (snd tc * a + sum)) (combine tValues cValues) (nofZ 0) in
    Ok (z * sum).

  (** Bezier.py:408-422 length, with the decimal precision as explicit state: it is raised by 2
      before the loop and lowered after it, so an exception in between leaves it raised.
      [not self._length] also recomputes a zero length. *)
  Definition q_length (prec : Z) (o : bobj) : Z * bobj * res T :=
    let compute :=
      match quadrature (o_bez o) with
      | Ok l => (prec, setLen o (Some l), Ok l)
      | Err x => ((prec + 2)%Z, o, Err x)
      end in
    match o_len o with
    | Some l => if l =? nofZ 0 then compute else (prec, o, Ok l)
    | None => compute
    end.

  (** The public queries as data, and one step of a client. *)
  Inductive bquery : Type :=
  | QDcPoints | QExtrema | QBbox | QBounds | QLut (steps : Z) | QReduce (fuel : nat)
  | QDerivative (t : T) | QLength | QGet (t : T) | QHull (t : T) | QSplit (t : T).
  Inductive banswer : Type :=
  | ADcPoints (d : list (list (point T)))
  | AExtrema (r : res (extremaT T))
  | ABbox (r : res (bboxT T))
  | ABounds (r : res (rect T))
  | ALut (r : res (list (point T)))
  | AReduce (r : res (list (bezier T)))
  | APoint (r : res (point T))
  | ALength (r : res T)
  | AHull (l : list (point T))
  | ASplit (r : res (bezier T * bezier T * list (point T))).

  Definition world : Type := (Z * bobj)%type.
  Definition bstep (w : world) (q : bquery) : world * banswer :=
    let (prec, o) := w in
    match q with
    | QDcPoints => let (o, r) := q_dcPoints o in ((prec, o), ADcPoints r)
    | QExtrema => let (o, r) := q_extrema o in ((prec, o), AExtrema r)
    | QBbox => let (o, r) := q_bbox o in ((prec, o), ABbox r)
    | QBounds => let (o, r) := q_bounds o in ((prec, o), ABounds r)
    | QLut s => let (o, r) := q_getLUT o s in ((prec, o), ALut r)
    | QReduce f => let (o, r) := q_reduce f o in ((prec, o), AReduce r)
    | QDerivative t => let (o, r) := q_derivative o t in ((prec, o), APoint r)
    | QLength => let '(prec, o, r) := q_length prec o in ((prec, o), ALength r)
    | QGet t => (w, APoint (get (o_bez o) t))
    | QHull t => (w, AHull (hull (o_bez o) t))
    | QSplit t => (w, ASplit (split1 (o_bez o) t))
    end.
  Definition bhistory (w : world) (qs : list bquery) : world :=
    fold_left (fun w q => fst (bstep w q)) qs w.
End BezierObj.
Arguments bobj T : clear implicits.
Arguments bquery T : clear implicits.
Arguments banswer T : clear implicits.
