(** Proofs for C150: the algebra of bounds rectangles. *)
From Coq Require Import List ZArith Bool Reals Lra Lia.
From Verif Require Import Py Inst SpecGeom SpecOrder SpecBounds SpecLattice MBounds ProofBounds.
Import ListNotations.

Section Generic.
  Local Infix "≤" := le (at level 70).
  Context {T : Type} `{NumOps T} (D : T -> Prop) (O : TotalOrder D).
  (** More points, larger bounds; the same points, the same bounds. *)
  Theorem more_points ps qs : good_points D ps -> good_points D qs -> incl ps qs -> let a := BoundsRectangle ps in let b := BoundsRectangle qs in
    left b ≤ left a /\ right a ≤ right b /\ bottom b ≤ bottom a /\ top a ≤ top b.
  Proof.
    intros Gp Gq I a b. destruct (BR_D D O qs Gq) as (D1 & D2 & D3 & D4). fold b in D1, D2, D3, D4.
    pose proof (BR_sentinels D O qs Gq) as (S1 & S2 & S3 & S4). fold b in S1, S2, S3, S4.
    assert (P : forall p, In p ps -> left b ≤ fst p /\ fst p ≤ right b /\ bottom b ≤ snd p /\ snd p ≤ top b) by (intros p Hp; exact (BR_in D O qs p Gq (I p Hp))).
    split; [|split; [|split]].
    - apply (proj1 (BR_exact D O ps (left b) Gp D1)). split; [assumption|]. intros p Hp. apply (P p Hp).
    - apply (proj1 (proj2 (BR_exact D O ps (right b) Gp D2))). split; [assumption|]. intros p Hp. apply (P p Hp).
    - apply (proj1 (proj2 (proj2 (BR_exact D O ps (bottom b) Gp ltac:(assumption))))). split; [assumption|]. intros p Hp. apply (P p Hp).
    - apply (proj2 (proj2 (proj2 (BR_exact D O ps (top b) Gp ltac:(assumption))))). split; [assumption|]. intros p Hp. apply (P p Hp).
  Qed.
  Theorem same_points ps qs : good_points D ps -> good_points D qs -> (forall p, In p ps <-> In p qs) -> req (BoundsRectangle ps) (BoundsRectangle qs).
  Proof.
    intros Gp Gq E. destruct (more_points ps qs Gp Gq (fun p => proj1 (E p))) as (A & B & C & F). destruct (more_points qs ps Gq Gp (fun p => proj2 (E p))) as (A' & B' & C' & F').
    unfold req, eqv. auto 10.
  Qed.
End Generic.

Local Open Scope R_scope.
Lemma pminR (a b : R) : pmin a b = Rmin a b.
Proof. unfold pmin, Rmin. numR. destruct (Rltb_spec b a), (Rle_dec a b); lra. Qed.
Lemma pmaxR (a b : R) : pmax a b = Rmax a b.
Proof. unfold pmax, Rmax. numR. destruct (Rltb_spec a b), (Rle_dec a b); lra. Qed.
Lemma box2 (l r b t : R) : l <= r -> b <= t -> l <= 32768 -> b <= 32768 -> -32768 <= r -> -32768 <= t -> BoundsRectangle [(l, b); (r, t)] = mkRect l r t b.
Proof.
  intros. unfold BoundsRectangle. cbn [fold_left addPoint emptyRect left right top bottom]. rewrite !pminR, !pmaxR. numR. f_equal; unfold Rmin, Rmax; repeat (destruct (Rle_dec _ _)); lra.
Qed.
(** Within the initial values of the scan. *)
Definition fine (r : rect R) : Prop := left r <= right r /\ bottom r <= top r /\ left r <= 32768 /\ bottom r <= 32768 /\ -32768 <= right r /\ -32768 <= top r.
Theorem proper_iff (r : rect R) : proper r <-> fine r.
Proof.
  split.
  - intros (ps & N & ->). destruct (valid_R ps N) as [A B]. destruct (BR_sentinels _ R_order ps (Rgood ps)) as (S1 & S2 & S3 & S4). unfold le in *. numR. rewrite Rleb_true in *. unfold fine. lra.
  - intros (A & B & C & E & F & G). exists [(left r, bottom r); (right r, top r)]. split; [discriminate|]. rewrite box2 by assumption. now destruct r.
Qed.
Lemma union_R (a b : rect R) : fine a -> fine b -> union a b = mkRect (Rmin (left a) (left b)) (Rmax (right a) (right b)) (Rmax (top a) (top b)) (Rmin (bottom a) (bottom b)).
Proof.
  intros (A1 & A2 & A3 & A4 & A5 & A6) (B1 & B2 & B3 & B4 & B5 & B6). unfold union. rewrite !pminR, !pmaxR. apply box2; unfold Rmin, Rmax; repeat (destruct (Rle_dec _ _)); lra.
Qed.
Lemma union_fine a b : fine a -> fine b -> fine (union a b).
Proof.
  intros Fa Fb. rewrite union_R by assumption. destruct Fa as (A1 & A2 & A3 & A4 & A5 & A6), Fb as (B1 & B2 & B3 & B4 & B5 & B6). unfold fine. cbn [left right top bottom]. unfold Rmin, Rmax. repeat (destruct (Rle_dec _ _)); lra.
Qed.
Definition meet (a b : rect R) : rect R := mkRect (Rmax (left a) (left b)) (Rmin (right a) (right b)) (Rmin (top a) (top b)) (Rmax (bottom a) (bottom b)).
Definition ordered (r : rect R) : Prop := left r <= right r /\ bottom r <= top r.
Lemma inter_R (a b : rect R) : fine a -> fine b -> (ordered (meet a b) /\ intersection a b = Some (meet a b) /\ fine (meet a b)) \/ (~ ordered (meet a b) /\ intersection a b = None).
Proof.
  intros (A1 & A2 & A3 & A4 & A5 & A6) (B1 & B2 & B3 & B4 & B5 & B6). unfold intersection. rewrite !pminR, !pmaxR. numR. unfold ordered, meet. cbn [left right top bottom].
  assert (K1 : Rmax (left a) (left b) <= 32768) by (apply Rmax_lub; assumption). assert (K2 : Rmax (bottom a) (bottom b) <= 32768) by (apply Rmax_lub; assumption).
  assert (K3 : -32768 <= Rmin (right a) (right b)) by (apply Rmin_glb; assumption). assert (K4 : -32768 <= Rmin (top a) (top b)) by (apply Rmin_glb; assumption).
  destruct (Rltb_spec (Rmin (right a) (right b)) (Rmax (left a) (left b))), (Rltb_spec (Rmin (top a) (top b)) (Rmax (bottom a) (bottom b))); cbn [orb]; [right; split; [lra|reflexivity]..|].
  left. split; [lra|]. split; [rewrite box2 by lra; reflexivity|]. unfold fine. cbn [left right top bottom]. lra.
Qed.
Lemma inter_some a b : fine a -> fine b -> ordered (meet a b) -> intersection a b = Some (meet a b) /\ fine (meet a b).
Proof. intros A B K. destruct (inter_R a b A B) as [(_ & E)|(N & _)]; [exact E|contradiction]. Qed.
Lemma inter_none a b : fine a -> fine b -> ~ ordered (meet a b) -> intersection a b = None.
Proof. intros A B K. destruct (inter_R a b A B) as [(N & _)|(_ & E)]; [contradiction|exact E]. Qed.
Lemma rect_ext (a b : rect R) : left a = left b -> right a = right b -> top a = top b -> bottom a = bottom b -> a = b.
Proof. destruct a, b. cbn. congruence. Qed.
Lemma fine_ordered r : fine r -> ordered r. Proof. unfold fine, ordered. tauto. Qed.
Theorem closed (a b : rect R) : proper a -> proper b -> proper (union a b) /\ forall i, intersection a b = Some i -> proper i.
Proof.
  rewrite !proper_iff. intros A B. split; [apply union_fine; assumption|]. intros i E. destruct (inter_R a b A B) as [(_ & E' & F)|(_ & E')]; [|congruence]. assert (i = meet a b) by congruence. subst i. apply proper_iff. exact F.
Qed.
Theorem commute (a b : rect R) : proper a -> proper b -> union a b = union b a /\ intersection a b = intersection b a.
Proof.
  rewrite !proper_iff. intros A B. split.
  - rewrite !union_R by assumption. f_equal; apply Rmin_comm || apply Rmax_comm.
  - assert (E : meet a b = meet b a) by (unfold meet; f_equal; apply Rmin_comm || apply Rmax_comm).
    destruct (inter_R a b A B) as [(K & E1 & _)|(K & E1)]; rewrite E1; symmetry; rewrite E in *; [apply inter_some; assumption|apply inter_none; assumption].
Qed.
Lemma meet_assoc a b c : meet (meet a b) c = meet a (meet b c).
Proof. unfold meet. cbn [left right top bottom]. f_equal; symmetry; apply Rmin_assoc || apply Rmax_assoc. Qed.
Lemma meet_ordered a b : ordered (meet a b) -> ordered a /\ ordered b.
Proof.
  unfold ordered, meet. cbn [left right top bottom]. intros [X Y]. pose proof (Rmax_l (left a) (left b)). pose proof (Rmax_r (left a) (left b)). pose proof (Rmin_l (right a) (right b)). pose proof (Rmin_r (right a) (right b)).
  pose proof (Rmax_l (bottom a) (bottom b)). pose proof (Rmax_r (bottom a) (bottom b)). pose proof (Rmin_l (top a) (top b)). pose proof (Rmin_r (top a) (top b)). lra.
Qed.
Theorem associate (a b c : rect R) : proper a -> proper b -> proper c -> union (union a b) c = union a (union b c) /\
  and_then (intersection a b) (fun i => intersection i c) = and_then (intersection b c) (fun i => intersection a i).
Proof.
  rewrite !proper_iff. intros A B C. split.
  - rewrite (union_R (union a b) c), (union_R a (union b c)), (union_R a b), (union_R b c) by (try apply union_fine; assumption). cbn [left right top bottom]. f_equal; symmetry; apply Rmin_assoc || apply Rmax_assoc.
  - destruct (inter_R a b A B) as [(K & E1 & F)|(K & E1)]; destruct (inter_R b c B C) as [(L & E2 & G)|(L & E2)]; rewrite E1, E2; cbn [and_then].
    + destruct (inter_R _ c F C) as [(M & E3 & _)|(M & E3)]; destruct (inter_R a _ A G) as [(M' & E4 & _)|(M' & E4)]; rewrite E3, E4; rewrite meet_assoc in *; try reflexivity; contradiction.
    + destruct (inter_R _ c F C) as [(M & E3 & _)|(M & E3)]; rewrite E3; [|reflexivity]. exfalso. rewrite meet_assoc in M. apply meet_ordered in M. tauto.
    + destruct (inter_R a _ A G) as [(M' & E4 & _)|(M' & E4)]; rewrite E4; [|reflexivity]. exfalso. rewrite <- meet_assoc in M'. apply meet_ordered in M'. tauto.
    + reflexivity.
Qed.
Ltac edges := unfold Rmin, Rmax in *; repeat (destruct (Rle_dec _ _)); lra.
Theorem absorb (a b : rect R) : proper a -> proper b -> union a a = a /\ intersection a a = Some a /\ intersection a (union a b) = Some a /\ forall i, intersection a b = Some i -> union a i = a.
Proof.
  rewrite !proper_iff. intros A B. pose proof (fine_ordered a A) as Oa.
  assert (M : meet a a = a) by (apply rect_ext; cbn [meet left right top bottom]; unfold meet; cbn [left right top bottom]; edges).
  assert (U : meet a (union a b) = a) by (rewrite union_R by assumption; apply rect_ext; unfold meet; cbn [left right top bottom]; edges).
  split; [rewrite union_R by assumption; apply rect_ext; cbn [left right top bottom]; edges|].
  split; [destruct (inter_some a a A A) as [E _]; [rewrite M; exact Oa|]; rewrite E, M; reflexivity|].
  split; [destruct (inter_some a (union a b) A (union_fine a b A B)) as [E _]; [rewrite U; exact Oa|]; rewrite E, U; reflexivity|].
  intros i E. destruct (inter_R a b A B) as [(K & E' & F)|(_ & E')]; [|congruence]. assert (i = meet a b) by congruence. subst i.
  rewrite union_R by assumption. apply rect_ext; unfold meet; cbn [left right top bottom]; edges.
Qed.
Lemma encloses_R a b : encloses a b = true <-> left a <= left b <= right a /\ bottom a <= bottom b <= top a /\ left a <= right b <= right a /\ bottom a <= top b <= top a.
Proof. unfold encloses. rewrite andb_true_iff, !enclosesPoint_R. cbn [fst snd]. tauto. Qed.
Theorem enclosing (a b : rect R) : proper a -> proper b -> (encloses a b = true <-> union a b = a) /\ (encloses a b = true <-> intersection a b = Some b).
Proof.
  rewrite !proper_iff. intros A B. rewrite !encloses_R. pose proof A as (A1 & A2 & A3 & A4 & A5 & A6). pose proof B as (B1 & B2 & B3 & B4 & B5 & B6). rewrite union_R by assumption. split.
  - split.
    + intros H. apply rect_ext; cbn [left right top bottom]; edges.
    + intros E. pose proof (f_equal (@left R) E) as E1. pose proof (f_equal (@right R) E) as E2. pose proof (f_equal (@top R) E) as E3. pose proof (f_equal (@bottom R) E) as E4. cbn [left right top bottom] in *. clear E.
      pose proof (Rmin_r (left a) (left b)). pose proof (Rmax_r (right a) (right b)). pose proof (Rmax_r (top a) (top b)). pose proof (Rmin_r (bottom a) (bottom b)). lra.
  - split.
    + intros H. assert (M : meet a b = b) by (apply rect_ext; unfold meet; cbn [left right top bottom]; edges). destruct (inter_some a b A B) as [E _]; [rewrite M; now apply fine_ordered|]. rewrite E, M. reflexivity.
    + intros E. destruct (inter_R a b A B) as [(K & E' & F)|(_ & E')]; [|congruence]. assert (M : meet a b = b) by congruence. clear E E' F K.
      pose proof (f_equal (@left R) M) as E1. pose proof (f_equal (@right R) M) as E2. pose proof (f_equal (@top R) M) as E3. pose proof (f_equal (@bottom R) M) as E4. unfold meet in *. cbn [left right top bottom] in *. clear M.
      pose proof (Rmax_l (left a) (left b)). pose proof (Rmin_l (right a) (right b)). pose proof (Rmin_l (top a) (top b)). pose proof (Rmax_l (bottom a) (bottom b)). lra.
Qed.
Theorem enclosing_order (a b c : rect R) : proper a -> proper b -> encloses a a = true /\ (encloses a b = true -> encloses b a = true -> a = b) /\ (encloses a b = true -> encloses b c = true -> encloses a c = true).
Proof.
  rewrite !proper_iff. intros (A1 & A2 & A3 & A4 & A5 & A6) (B1 & B2 & B3 & B4 & B5 & B6). rewrite !encloses_R. split; [lra|]. split; [|intros; lra]. intros X Y. apply rect_ext; lra.
Qed.
Theorem areas (a b : rect R) : proper a -> proper b -> (encloses a b = true -> area b <= area a) /\ (intersection a b = None -> area a + area b <= area (union a b)) /\
  (forall i, intersection a b = Some i -> area i <= area a /\ area i <= area b /\ area a + area b <= area (union a b) + area i).
Proof.
  rewrite !proper_iff. intros A B. assert (Mono : forall a b, fine a -> fine b -> encloses a b = true -> area b <= area a).
  { clear. intros a b (A1 & A2 & _) (B1 & B2 & _). rewrite encloses_R. intros. unfold area, width, height. numR. apply Rmult_le_compat; lra. }
  split; [apply Mono; assumption|]. split.
  - intros E. destruct (inter_R a b A B) as [(_ & E' & _)|(N & _)]; [congruence|]. rewrite union_R by assumption. destruct A as (A1 & A2 & _), B as (B1 & B2 & _). unfold ordered, meet in N. unfold area, width, height. cbn [left right top bottom] in *. numR.
    destruct (Rle_dec (Rmax (left a) (left b)) (Rmin (right a) (right b))) as [X|X].
    + assert (Y : Rmin (top a) (top b) < Rmax (bottom a) (bottom b)) by lra. clear N.
      set (W := Rmax (right a) (right b) - Rmin (left a) (left b)). set (Hh := Rmax (top a) (top b) - Rmin (bottom a) (bottom b)).
      assert (W1 : right a - left a <= W) by (unfold W; edges). assert (W2 : right b - left b <= W) by (unfold W; edges). assert (H1 : (top a - bottom a) + (top b - bottom b) <= Hh) by (unfold Hh; edges). clearbody W Hh. nra.
    + assert (Y : Rmin (right a) (right b) < Rmax (left a) (left b)) by lra. clear N X.
      set (W := Rmax (right a) (right b) - Rmin (left a) (left b)). set (Hh := Rmax (top a) (top b) - Rmin (bottom a) (bottom b)).
      assert (H1 : top a - bottom a <= Hh) by (unfold Hh; edges). assert (H2 : top b - bottom b <= Hh) by (unfold Hh; edges). assert (W1 : (right a - left a) + (right b - left b) <= W) by (unfold W; edges). clearbody W Hh. nra.
  - intros i E. destruct (inter_R a b A B) as [(K & E' & F)|(_ & E')]; [|congruence]. assert (i = meet a b) by congruence. subst i. clear E E'.
    split; [apply Mono; [assumption|assumption|]; rewrite encloses_R; destruct K as [K1 K2]; unfold meet in *; cbn [left right top bottom] in *; pose proof (Rmax_l (left a) (left b)); pose proof (Rmin_l (right a) (right b)); pose proof (Rmin_l (top a) (top b)); pose proof (Rmax_l (bottom a) (bottom b)); lra|].
    split; [apply Mono; [assumption|assumption|]; rewrite encloses_R; destruct K as [K1 K2]; unfold meet in *; cbn [left right top bottom] in *; pose proof (Rmax_r (left a) (left b)); pose proof (Rmin_r (right a) (right b)); pose proof (Rmin_r (top a) (top b)); pose proof (Rmax_r (bottom a) (bottom b)); lra|].
    rewrite union_R by assumption. destruct A as (A1 & A2 & _), B as (B1 & B2 & _), K as (K1 & K2). unfold meet in *. unfold area, width, height. cbn [left right top bottom] in *. numR. clear F Mono.
    set (W := Rmax (right a) (right b) - Rmin (left a) (left b)). set (Hh := Rmax (top a) (top b) - Rmin (bottom a) (bottom b)). set (w := Rmin (right a) (right b) - Rmax (left a) (left b)). set (h := Rmin (top a) (top b) - Rmax (bottom a) (bottom b)).
    assert (P1 : W + w = (right a - left a) + (right b - left b)) by (unfold W, w; clear; edges). assert (P2 : Hh + h = (top a - bottom a) + (top b - bottom b)) by (unfold Hh, h; clear; edges).
    assert (Q1 : w <= right a - left a <= W) by (unfold W, w; edges). assert (Q2 : h <= top a - bottom a <= Hh) by (unfold Hh, h; edges).
    clearbody W Hh w h. set (wa := right a - left a) in *. set (ha := top a - bottom a) in *. replace (right b - left b) with (W + w - wa) by lra. replace (top b - bottom b) with (Hh + h - ha) by lra. clearbody wa ha.
    pose proof (Rmult_le_pos (W - wa) (ha - h) ltac:(lra) ltac:(lra)). pose proof (Rmult_le_pos (wa - w) (Hh - ha) ltac:(lra) ltac:(lra)). lra.
Qed.
