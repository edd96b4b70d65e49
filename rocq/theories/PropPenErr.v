(** Property C126: which pen calls raise, and what they leave behind.  [penHistory] makes every call, catching exceptions and going on. *)
From Coq Require Import List ZArith Bool String QArith.
From Verif Require Import Py Inst MTransform MSegmentPen ProofPenErr.
Import ListNotations.

(** ** C126 *)
Theorem C126_before_moveTo (T : Type) (N : NumOps T) (gs : glyphset T) (fuel : nat) (cs : list (pencall T)) : ~ (exists p, In (MoveTo p) cs) ->
  let s := penHistory gs fuel cs in let call := penStep gs (drawGlyph gs fuel) s in
  (forall ps, call (CurveTo ps) = (s, Some AttributeError)) /\ (forall ps, call (QCurveTo ps) = (s, Some AttributeError)) /\
  call ClosePath = (s, Some AttributeError) /\
  forall p, call (LineTo p) = (s, if pteqb p (nofZ 0, nofZ 0) then None else Some AttributeError).
Proof. exact (before_moveTo gs fuel cs). Qed.
Print Assumptions C126_before_moveTo.
Theorem C126_after_moveTo (T : Type) (N : NumOps T) (gs : glyphset T) (fuel : nat) (cs : list (pencall T)) : (exists p, In (MoveTo p) cs) ->
  let s := penHistory gs fuel cs in let call := penStep gs (drawGlyph gs fuel) s in
  (forall p, snd (call (LineTo p)) = None) /\ (forall ps, ps <> [] -> snd (call (CurveTo ps)) = None) /\
  (forall ps, snd (call (QCurveTo ps)) = None) /\ snd (call ClosePath) = None /\
  exists c, p_contour s = Some c /\ call (CurveTo []) = (mkPen (p_contours s) (p_last s) (Some (c ++ [[p_last s]])), Some IndexError).
Proof. exact (after_moveTo gs fuel cs). Qed.
Print Assumptions C126_after_moveTo.
Theorem C126_other_calls (T : Type) (N : NumOps T) (gs : glyphset T) (fuel : nat) (s : pen T) : let call := penStep gs (drawGlyph gs fuel) s in
  (forall p, snd (call (MoveTo p)) = None) /\ call AddPointCall = (s, Some NotImplementedError) /\ call BeginPath = (s, Some NotImplementedError) /\
  call EndPath = (s, Some NotImplementedError) /\ forall n tr, gs n = None -> call (AddComponent n tr) = (s, Some KeyError).
Proof. exact (other_calls gs fuel s). Qed.
Print Assumptions C126_other_calls.
Theorem C126_raising_keeps_the_pen (T : Type) (N : NumOps T) (gs : glyphset T) (fuel : nat) (cs : list (pencall T)) (c : pencall T) : c <> CurveTo [] ->
  let s := penHistory gs fuel cs in let o := penStep gs (drawGlyph gs fuel) s c in snd o <> None -> fst o = s.
Proof. exact (raise_keeps gs fuel cs c). Qed.
Print Assumptions C126_raising_keeps_the_pen.
(** The hypotheses: a history without moveTo in which a component is added, and one with it; a lineTo to the origin raises nothing. *)
Example C126_case : let gs : glyphset Q := fun n => if string_dec n "bar" then Some [MoveTo (0, 0)%Q; LineTo (1, 0)%Q; ClosePath] else None in
  let cs := [LineTo (0, 0)%Q; AddComponent "bar" (1, 0, 0, 1, 0, 0)%Q; LineTo (1, 1)%Q; AddComponent "baz" (1, 0, 0, 1, 0, 0)%Q] in
  ~ (exists p, In (MoveTo p) cs) /\ List.length (p_contours (penHistory gs 3 cs)) = 1%nat /\
  snd (penStep gs (drawGlyph gs 3) (penHistory gs 3 cs) (LineTo (0, 0)%Q)) = None /\
  snd (penStep gs (drawGlyph gs 3) (penHistory gs 3 cs) (LineTo (2, 0)%Q)) = Some AttributeError /\ gs "baz"%string = None /\
  (exists p, In (MoveTo p) (cs ++ [MoveTo (5, 5)%Q])).
Proof.
  intros gs cs. split; [intros (p & I); repeat (destruct I as [I | I]; [discriminate|]); destruct I|].
  split; [vm_compute; reflexivity|]. split; [vm_compute; reflexivity|]. split; [vm_compute; reflexivity|]. split; [reflexivity|].
  exists (5, 5)%Q. apply in_or_app. right. now left.
Qed.
