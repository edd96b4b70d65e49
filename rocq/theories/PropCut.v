(** Property C144: a curve and the pieces it is cut into agree (Bezier.py split, derivative, tangent, normal, offset, bbox, boundsRectangle, reduce, getLUT, roots). *)
From Coq Require Import List ZArith Bool Reals Lra Lia.
From Verif Require Import Py Inst SpecGeom SpecMatrix SpecUtil SpecBezier SpecBounds SpecCurve MTransform MBounds MBezUtil MBezier MContour
  ProofBezier ProofBezier2 ProofReduce ProofBBox ProofCurve ProofCut.
Import ListNotations.
Local Open Scope R_scope.

(** ** C144 *)
Section Rounded.
#[local] Existing Instance RPy.
(** The derivative of a piece is that of the curve, scaled by the length of its parameter interval; for every cut, inside or outside of [[0,1]]. *)
Theorem C144_derivative (b l r : bezier R) (h : list pt) t s : (length (cps b) = 3 \/ length (cps b) = 4)%nat -> split1 b t = Ok (l, r, h) ->
  (exists d, derivative b (t * s) = Ok d /\ derivative l s = Ok (vscale t d)) /\
  (exists d, derivative b (t + (1 - t) * s) = Ok d /\ derivative r s = Ok (vscale (1 - t) d)).
Proof. exact (cut_derivative b l r h t s). Qed.
(** Tangents, normals and offset points are the same, errors included. *)
Theorem C144_normal (fuel : nat) (b l r : bezier R) (h : list pt) t s : (length (cps b) = 3 \/ length (cps b) = 4)%nat -> split1 b t = Ok (l, r, h) ->
  (0 < t -> tangent l s = tangent b (t * s) /\ normal l s = normal b (t * s) /\
     forall k, k <> 0 -> offset fuel l s (Some k) = offset fuel b (t * s) (Some k)) /\
  (t < 1 -> tangent r s = tangent b (t + (1 - t) * s) /\ normal r s = normal b (t + (1 - t) * s) /\
     forall k, k <> 0 -> offset fuel r s (Some k) = offset fuel b (t + (1 - t) * s) (Some k)).
Proof. exact (cut_normal round15 fuel b l r h t s). Qed.
(** The box of the curve is the union of the boxes of the two pieces. *)
Theorem C144_boxes (b l r : bezier R) (h : list pt) t : (length (cps b) = 3 \/ length (cps b) = 4)%nat -> 0 <= t <= 1 -> (forall q, In q (cps b) -> safe_point q) -> split1 b t = Ok (l, r, h) ->
  exists x0 x1 y0 y1 u0 u1 v0 v1, bbox l = Ok ((x0, x1), (y0, y1)) /\ bbox r = Ok ((u0, u1), (v0, v1)) /\
    bbox b = Ok ((Rmin x0 u0, Rmax x1 u1), (Rmin y0 v0, Rmax y1 v1)).
Proof. exact (cut_boxes round15 b l r h t). Qed.
Theorem C144_rectangles (b l r : bezier R) (h : list pt) t : (length (cps b) = 3 \/ length (cps b) = 4)%nat -> 0 <= t <= 1 ->
  (forall q, In q (cps b) -> Rabs (fst q) <= 32768 /\ Rabs (snd q) <= 32768) -> split1 b t = Ok (l, r, h) ->
  exists m n, boundsRectangle l = Ok m /\ boundsRectangle r = Ok n /\ boundsRectangle b = Ok (union m n).
Proof. exact (cut_rectangles round15 b l r h t). Qed.
(** So is it the union of the boxes of the pieces that reduce finds: each lies in it, each of its sides is a side of one of them. *)
Theorem C144_reduce_boxes (b : bezier R) (fuel : nat) (l : list (bezier R)) : (length (cps b) = 3 \/ length (cps b) = 4)%nat -> (102 <= fuel)%nat -> (forall q, In q (cps b) -> safe_point q) ->
  reduce fuel b = Ok l -> l <> [] ->
  exists x0 x1 y0 y1, bbox b = Ok ((x0, x1), (y0, y1)) /\
    (forall s, In s l -> exists u0 u1 v0 v1, bbox s = Ok ((u0, u1), (v0, v1)) /\ x0 <= u0 /\ u1 <= x1 /\ y0 <= v0 /\ v1 <= y1) /\
    (exists s u1 v, In s l /\ bbox s = Ok ((x0, u1), v)) /\ (exists s u0 v, In s l /\ bbox s = Ok ((u0, x1), v)) /\
    (exists s u v1, In s l /\ bbox s = Ok (u, (y0, v1))) /\ (exists s u v0, In s l /\ bbox s = Ok (u, (v0, y1))).
Proof. exact (cut_reduce round15 b fuel l). Qed.
(** The tables of the pieces, joined the way a contour joins the tables of its curves, are the table of the curve. *)
Theorem C144_tables (b l r : bezier R) (h : list pt) (n m : Z) : (length (cps b) = 3 \/ length (cps b) = 4)%nat -> (2 <= n)%Z -> (2 <= m)%Z ->
  split1 b (IZR (n - 1) / IZR (n + m - 2)) = Ok (l, r, h) ->
  exists A B, getLUT l n = Ok A /\ getLUT r m = Ok B /\ getLUT b (n + m - 1) = Ok (A ++ tl B).
Proof. exact (cut_tables b l r h n m). Qed.
Theorem C144_contour_table (b l r : bezier R) (h : list pt) (n : Z) : (length (cps b) = 3 \/ length (cps b) = 4)%nat -> (2 <= n)%Z -> split1 b (1 / 2) = Ok (l, r, h) ->
  exists A, getLUT b (2 * n - 1) = Ok A /\ concatLUT 0 [l; r] n = Ok A.
Proof. exact (cut_tables_half b l r h n). Qed.
(** Two cuts may be made in either order: the same three pieces come out, with the same recorded intervals. *)
Theorem C144_order_of_cuts (b l r : bezier R) (h : list pt) t s ll lr (h1 : list pt) : (length (cps b) = 3 \/ length (cps b) = 4)%nat -> t * s <> 1 ->
  split1 b t = Ok (l, r, h) -> split1 l s = Ok (ll, lr, h1) ->
  exists r' h2 h3, split1 b (t * s) = Ok (ll, r', h2) /\ split1 r' ((t - t * s) / (1 - t * s)) = Ok (lr, r, h3).
Proof. exact (cut_twice b l r h t s ll lr h1). Qed.
End Rounded.
Print Assumptions C144_derivative.
Print Assumptions C144_normal.
Print Assumptions C144_boxes.
Print Assumptions C144_rectangles.
Print Assumptions C144_reduce_boxes.
Print Assumptions C144_tables.
Print Assumptions C144_contour_table.
Print Assumptions C144_order_of_cuts.
(** The crossings of a quadratic with a line are those of its pieces (rotation with exact sine and cosine, as for C48). *)
Section Exact.
#[local] Existing Instance RExact.
Theorem C144_crossings (a z : pt) (b l r : bezier R) (h : list pt) t : a <> z -> length (cps b) = 3%nat -> (exists q, In q (cps b) /\ ~ on_line a z q) -> 0 < t < 1 -> split1 b t = Ok (l, r, h) ->
  exists ob ol orr, roots b (Some [a; z]) = Ok ob /\ roots l (Some [a; z]) = Ok ol /\ roots r (Some [a; z]) = Ok orr /\
    (forall u, 0 <= u <= t -> In u ob -> In (u / t) ol) /\ (forall u, t <= u <= 1 -> In u ob -> In ((u - t) / (1 - t)) orr) /\
    (forall s, 0 <= s <= 1 -> In s ol -> In (t * s) ob) /\ (forall s, 0 <= s <= 1 -> In s orr -> In (t + (1 - t) * s) ob).
Proof. exact (cut_roots a z b l r h t). Qed.
End Exact.
Print Assumptions C144_crossings.
(** A parabola cut in the middle. *)
Example C144_case : exists l r h, let b := mkBez [(0, 0); (1, 2); (2, 0)] 0 1 in split1 b (1 / 2) = Ok (l, r, h) /\ cps l = [(0, 0); (1 / 2, 1); (1, 1)] /\
  (length (cps b) = 3 \/ length (cps b) = 4)%nat /\ (forall q, In q (cps b) -> safe_point q /\ Rabs (fst q) <= 32768 /\ Rabs (snd q) <= 32768) /\
  1 / 2 = IZR (3 - 1) / IZR (3 + 3 - 2) /\ (0, 1 / 2) <> (2, 1 / 2) /\ (exists q, In q (cps b) /\ ~ on_line (0, 1 / 2) (2, 1 / 2) q).
Proof.
  do 3 eexists. split; [unfold split1, hull; cbn [cps length order Nat.sub Nat.eqb hullLoop Nat.ltb Nat.leb dcLevel app idx nth_error bind];
    unfold idx; cbn [nth_error bind]; rewrite !newBezier_ok by (simpl; lia); cbn [bind cps bt1 bt2]; numRg; rewrite !bmap01; cbn [bind]; reflexivity|].
  unfold withInterval, lerp; cbn [cps fst snd]. split; [numRg; repeat (apply f_equal2; [apply f_equal2; lra|]); reflexivity|].
  split; [left; reflexivity|]. split.
  { intros q [<-|[<-|[<-|[]]]]; unfold safe_point; cbn [fst snd]; repeat split; apply Rabs_le; lra. }
  split; [cbn; lra|]. split; [intros K; assert (K' := f_equal fst K); cbn in K'; lra|].
  exists (0, 0). split; [now left|]. intros (s & K). assert (K' := f_equal snd K). unfold along, vadd, vscale, vsub in K'. cbn [fst snd] in K'. lra.
Qed.
