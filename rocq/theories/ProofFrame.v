(** Proofs for C151: bounds of transformed outlines and transformed bounds. *)
From Coq Require Import List ZArith Bool Reals Lra Lia.
From Verif Require Import Py Inst SpecGeom SpecOrder SpecBounds SpecArea SpecFrame SpecLattice MTransform MBounds ProofBounds ProofArea ProofLattice.
Import ListNotations.
Local Open Scope R_scope.

Lemma good_contour_R (c : contour R) : good_contour (fun _ => True) c.
Proof. apply Forall_forall. intros. apply Rgood. Qed.
Lemma flat_R (c : contour R) : List.Forall (fun s => s <> []) c -> fromContour c = BoundsRectangle (concat c).
Proof. intros N. apply Req_req. exact (fromContour_flat _ R_order c (good_contour_R c) N). Qed.
Lemma flats_R (cs : list (contour R)) : List.Forall solid cs -> fromContours cs = BoundsRectangle (concat (concat cs)).
Proof. intros N. apply Req_req. apply (fromContours_flat _ R_order cs); [|exact N]. apply Forall_forall. intros. apply good_contour_R. Qed.
Definition sent (a b c d x y : R) (p : pt) : pt := (fst p * a + snd p * c + x, fst p * b + snd p * d + y).
Section Sent.
  Variables a b c d x y : R.
  Let m := [[a; b; 0]; [c; d; 0]; [x; y; 1]].
  Let f := sent a b c d x y.
  Lemma sent_point p : applyToPoint m p = Ok (f p).
  Proof. destruct p as [u v]. unfold m. rewrite apply9. destruct (Reqb_spec (u * 0 + v * 0 + 1 * 1) 0) as [Z|Z]; [lra|]. unfold f, sent. cbn [fst snd]. do 2 f_equal; field. Qed.
  Lemma sent_segment s : applyToSegment m s = Ok (map f s).
  Proof. apply mapM_pure. intros p _. apply sent_point. Qed.
  Lemma sent_contour s : applyToContour m s = Ok (map (map f) s).
  Proof. apply mapM_pure. intros p _. apply sent_segment. Qed.
  Lemma sent_contours s : applyToContours m s = Ok (map (map (map f)) s).
  Proof. apply mapM_pure. intros p _. apply sent_contour. Qed.
  Definition corners (r : rect R) : list pt := [(left r, bottom r); (left r, top r); (right r, top r); (right r, bottom r)].
  Lemma frame_corners (r : rect R) : fromContour (map (map f) (rcontour r)) = BoundsRectangle (map f (corners r)).
  Proof.
    rewrite flat_R by (unfold rcontour; cbn [map]; repeat constructor; discriminate). apply Req_req. apply (same_points _ R_order); [apply Rgood|apply Rgood|]. intros p. unfold rcontour, corners. cbn [map concat app In]. tauto.
  Qed.
  Lemma BR_in_R (ps : list pt) p : In p ps -> left (BoundsRectangle ps) <= fst p <= right (BoundsRectangle ps) /\ bottom (BoundsRectangle ps) <= snd p <= top (BoundsRectangle ps).
  Proof. intros I. apply enclosesPoint_R. apply (BR_encloses _ R_order); [apply Rgood|exact I]. Qed.
  Lemma BR_exact_R (ps : list pt) v : (v <= left (BoundsRectangle ps) <-> v <= 32768 /\ forall p, In p ps -> v <= fst p) /\ (right (BoundsRectangle ps) <= v <-> -32768 <= v /\ forall p, In p ps -> fst p <= v) /\
    (v <= bottom (BoundsRectangle ps) <-> v <= 32768 /\ forall p, In p ps -> v <= snd p) /\ (MBounds.top (BoundsRectangle ps) <= v <-> -32768 <= v /\ forall p, In p ps -> snd p <= v).
  Proof.
    destruct (BR_exact _ R_order ps v (Rgood ps) I) as (A & B & C & E). unfold le in *. numR. rewrite !Rleb_true in *.
    assert (K : forall (h : pt -> R), (forall p, In p ps -> Rleb v (h p) = true) <-> (forall p, In p ps -> v <= h p)) by (intros h; split; intros X p Hp; apply Rleb_true; auto).
    assert (K' : forall (h : pt -> R), (forall p, In p ps -> Rleb (h p) v = true) <-> (forall p, In p ps -> h p <= v)) by (intros h; split; intros X p Hp; apply Rleb_true; auto).
    rewrite (K fst) in A. rewrite (K snd) in C. rewrite (K' fst) in B. rewrite (K' snd) in E. auto.
  Qed.
  Lemma BR_sent_R (ps : list pt) : left (BoundsRectangle ps) <= 32768 /\ bottom (BoundsRectangle ps) <= 32768 /\ -32768 <= right (BoundsRectangle ps) /\ -32768 <= top (BoundsRectangle ps).
  Proof. destruct (BR_sentinels _ R_order ps (Rgood ps)) as (A & B & C & E). unfold le in *. numR. rewrite Rleb_true in *. auto. Qed.
  Lemma encloses_when (ps qs : list pt) : ps <> [] -> (forall p, In p ps -> enclosesPoint (BoundsRectangle qs) p = true) -> encloses (BoundsRectangle qs) (BoundsRectangle ps) = true.
  Proof.
    intros N H. destruct (valid_R ps N) as [V1 V2]. destruct (BR_sent_R qs) as (S1 & S2 & S3 & S4).
    assert (A : left (BoundsRectangle qs) <= left (BoundsRectangle ps)) by (apply BR_exact_R; split; [assumption|]; intros p Hp; apply H, enclosesPoint_R in Hp; lra).
    assert (B : right (BoundsRectangle ps) <= right (BoundsRectangle qs)) by (apply BR_exact_R; split; [assumption|]; intros p Hp; apply H, enclosesPoint_R in Hp; lra).
    assert (C : bottom (BoundsRectangle qs) <= bottom (BoundsRectangle ps)) by (apply BR_exact_R; split; [assumption|]; intros p Hp; apply H, enclosesPoint_R in Hp; lra).
    assert (E : top (BoundsRectangle ps) <= top (BoundsRectangle qs)) by (apply BR_exact_R; split; [assumption|]; intros p Hp; apply H, enclosesPoint_R in Hp; lra).
    apply encloses_R. lra.
  Qed.
  (** The frame of the corners holds the image of everything in the box. *)
  Lemma frame_holds (r : rect R) p : enclosesPoint r p = true -> enclosesPoint (BoundsRectangle (map f (corners r))) (f p) = true.
  Proof.
    rewrite !enclosesPoint_R. intros [[L1 L2] [L3 L4]].
    pose proof (BR_in_R (map f (corners r)) (f (left r, bottom r)) ltac:(unfold corners; cbn; tauto)) as C0. pose proof (BR_in_R (map f (corners r)) (f (left r, top r)) ltac:(unfold corners; cbn; tauto)) as C1.
    pose proof (BR_in_R (map f (corners r)) (f (right r, top r)) ltac:(unfold corners; cbn; tauto)) as C2. pose proof (BR_in_R (map f (corners r)) (f (right r, bottom r)) ltac:(unfold corners; cbn; tauto)) as C3.
    set (B := BoundsRectangle (map f (corners r))) in *. clearbody B. unfold f, sent in *. cbn [fst snd] in *. destruct p as [u v]. cbn [fst snd] in *.
    assert (K : forall h k lo hi e, lo <= left r * h + bottom r * k + e <= hi -> lo <= left r * h + top r * k + e <= hi -> lo <= right r * h + top r * k + e <= hi -> lo <= right r * h + bottom r * k + e <= hi -> lo <= u * h + v * k + e <= hi).
    { intros h k lo hi e. generalize (left r) (right r) (top r) (bottom r) L1 L2 L3 L4. intros l0 r0 t0 b0 M1 M2 M3 M4 X0 X1 X2 X3.
      destruct (Rle_dec 0 h), (Rle_dec 0 k); split; nra. }
    split; apply K; lra.
  Qed.
  Theorem frame_encloses (ps : list pt) : ps <> [] -> encloses (BoundsRectangle (map f (corners (BoundsRectangle ps)))) (BoundsRectangle (map f ps)) = true.
  Proof.
    intros N. apply encloses_when; [destruct ps; [congruence|discriminate]|]. intros q Hq. apply in_map_iff in Hq as (p & <- & Hp). apply frame_holds. apply (BR_encloses _ R_order); [apply Rgood|exact Hp].
  Qed.
  Lemma least (h : pt -> R) (ps : list pt) : ps <> [] -> exists p, In p ps /\ forall q, In q ps -> h p <= h q.
  Proof.
    induction ps as [|p ps IH]; [congruence|]. intros _. destruct ps as [|p' ps]; [exists p; split; [now left|]; intros q [<-|[]]; lra|].
    destruct IH as (p0 & I0 & H0); [discriminate|]. destruct (Rle_dec (h p) (h p0)) as [L|L].
    - exists p. split; [now left|]. intros q [<-|Iq]; [lra|]. specialize (H0 q Iq). lra.
    - exists p0. split; [now right|]. intros q [<-|Iq]; [lra|auto].
  Qed.
  Lemma attained (ps : list pt) : in_range ps -> (exists p, In p ps /\ fst p = left (BoundsRectangle ps)) /\ (exists p, In p ps /\ fst p = right (BoundsRectangle ps)) /\
    (exists p, In p ps /\ snd p = bottom (BoundsRectangle ps)) /\ (exists p, In p ps /\ snd p = top (BoundsRectangle ps)).
  Proof.
    intros ((p1 & I1 & R1) & (p2 & I2 & R2) & (p3 & I3 & R3) & (p4 & I4 & R4)). unfold le in *. numR. rewrite Rleb_true in *. assert (N : ps <> []) by (intros ->; destruct I1).
    split; [|split; [|split]].
    - destruct (least fst ps N) as (p & Ip & H). exists p. split; [exact Ip|]. pose proof (H p1 I1). pose proof (BR_in_R ps p Ip). assert (fst p <= left (BoundsRectangle ps)) by (apply BR_exact_R; split; [lra|exact H]). lra.
    - destruct (least (fun p => - fst p) ps N) as (p & Ip & H). exists p. split; [exact Ip|]. pose proof (H p2 I2). pose proof (BR_in_R ps p Ip). assert (right (BoundsRectangle ps) <= fst p) by (apply BR_exact_R; split; [lra|]; intros q Hq; specialize (H q Hq); lra). lra.
    - destruct (least snd ps N) as (p & Ip & H). exists p. split; [exact Ip|]. pose proof (H p3 I3). pose proof (BR_in_R ps p Ip). assert (snd p <= bottom (BoundsRectangle ps)) by (apply BR_exact_R; split; [lra|exact H]). lra.
    - destruct (least (fun p => - snd p) ps N) as (p & Ip & H). exists p. split; [exact Ip|]. pose proof (H p4 I4). pose proof (BR_in_R ps p Ip). assert (top (BoundsRectangle ps) <= snd p) by (apply BR_exact_R; split; [lra|]; intros q Hq; specialize (H q Hq); lra). lra.
  Qed.
  (** Scalings, mirrors, moves and quarter turns: nothing is added. *)
  Theorem frame_exact (ps : list pt) : (b = 0 /\ c = 0) \/ (a = 0 /\ d = 0) -> in_range ps -> BoundsRectangle (map f (corners (BoundsRectangle ps))) = BoundsRectangle (map f ps).
  Proof.
    intros Ax Rg. assert (N : ps <> []) by (destruct Rg as ((p & Hp & _) & _); intros ->; destruct Hp).
    pose proof (attained ps Rg) as ((pl & Il & El) & (pr & Ir & Er) & (pb & Ib & Eb) & (pt_ & It & Et)).
    assert (P1 : proper (BoundsRectangle (map f (corners (BoundsRectangle ps))))) by (exists (map f (corners (BoundsRectangle ps))); split; [discriminate|reflexivity]).
    assert (P2 : proper (BoundsRectangle (map f ps))) by (exists (map f ps); split; [destruct ps; [congruence|discriminate]|reflexivity]).
    apply (proj1 (proj2 (enclosing_order _ _ (BoundsRectangle ps) P1 P2))); [apply frame_encloses; exact N|]. apply encloses_when; [discriminate|].
    assert (K : forall p, In p ps -> enclosesPoint (BoundsRectangle (map f ps)) (f p) = true) by (intros p Hp; apply (BR_encloses _ R_order); [apply Rgood|now apply in_map]).
    pose proof (proj1 (enclosesPoint_R _ _) (K pl Il)) as Kl. pose proof (proj1 (enclosesPoint_R _ _) (K pr Ir)) as Kr. pose proof (proj1 (enclosesPoint_R _ _) (K pb Ib)) as Kb. pose proof (proj1 (enclosesPoint_R _ _) (K pt_ It)) as Kt. clear K.
    intros q Hq. apply in_map_iff in Hq as (p & <- & Hp). apply enclosesPoint_R. set (B := BoundsRectangle (map f ps)) in *. clearbody B. set (r := BoundsRectangle ps) in *. clearbody r.
    unfold f, sent in *. cbn [fst snd] in *. rewrite El in Kl. rewrite Er in Kr. rewrite Eb in Kb. rewrite Et in Kt.
    destruct Ax as [[-> ->]|[-> ->]]; rewrite ?Rmult_0_r, ?Rplus_0_l, ?Rplus_0_r in *; unfold corners in Hp; cbn [In] in Hp; destruct Hp as [<-|[<-|[<-|[<-|[]]]]]; cbn [fst snd]; rewrite ?Rmult_0_r, ?Rplus_0_l, ?Rplus_0_r; lra.
  Qed.
End Sent.
Lemma concat_maps (f : pt -> pt) (c : contour R) : concat (map (map f) c) = map f (concat c).
Proof. symmetry. apply concat_map. Qed.
Lemma concat_maps2 (f : pt -> pt) (cs : list (contour R)) : concat (concat (map (map (map f)) cs)) = map f (concat (concat cs)).
Proof. rewrite <- concat_map. apply concat_maps. Qed.
Lemma solid_maps (f : pt -> pt) (cs : list (contour R)) : List.Forall solid cs -> List.Forall solid (map (map (map f)) cs).
Proof.
  intros F. induction F as [|c cs [N S] _ IH]; constructor; [|exact IH]. split; [destruct c; [congruence|discriminate]|].
  clear -S. induction S as [|s c Hs _ IHs]; constructor; [destruct s; [congruence|discriminate]|exact IHs].
Qed.
Lemma solid_points (cs : list (contour R)) : cs <> [] -> List.Forall solid cs -> concat (concat cs) <> [].
Proof.
  intros N F. destruct cs as [|c cs]; [congruence|]. inversion F as [|? ? [Nc Sc] _]; subst. destruct c as [|s c]; [congruence|]. inversion Sc; subst. cbn. destruct s; [congruence|discriminate].
Qed.
Theorem frame (m : list (list R)) (cs : list (contour R)) : affine m -> cs <> [] -> List.Forall solid cs ->
  exists cs' k, applyToContours m cs = Ok cs' /\ applyToContour m (rcontour (fromContours cs)) = Ok k /\ encloses (fromContour k) (fromContours cs') = true.
Proof.
  intros (a & b & c & d & x & y & ->) N S. do 2 eexists. split; [apply sent_contours|]. split; [apply sent_contour|].
  rewrite frame_corners, (flats_R _ (solid_maps _ _ S)), (flats_R cs S), concat_maps2. apply frame_encloses. apply solid_points; assumption.
Qed.
Theorem frame_equal (m : list (list R)) (cs : list (contour R)) : upright m -> List.Forall solid cs -> in_range (concat (concat cs)) ->
  exists cs' k, applyToContours m cs = Ok cs' /\ applyToContour m (rcontour (fromContours cs)) = Ok k /\ fromContour k = fromContours cs'.
Proof.
  intros (a & b & x & y & [->| ->]) S Rg; (do 2 eexists; split; [apply sent_contours|]; split; [apply sent_contour|];
  rewrite frame_corners, (flats_R _ (solid_maps _ _ S)), (flats_R cs S), concat_maps2; apply frame_exact; [tauto|exact Rg]).
Qed.
Lemma nine (a b c d e f g h k a' b' c' d' e' f' g' h' k' : R) : a = a' -> b = b' -> c = c' -> d = d' -> e = e' -> f = f' -> g = g' -> h = h' -> k = k' ->
  [[a; b; c]; [d; e; f]; [g; h; k]] = [[a'; b'; c']; [d'; e'; f']; [g'; h'; k']].
Proof. intros. subst. reflexivity. Qed.
Lemma upright_prod m n : upright m -> upright n -> exists k, mkTransform [m; n] = Ok k /\ upright k.
Proof.
  intros (a & b & x & y & Hm) (a' & b' & x' & y' & Hn). destruct Hm as [->| ->], Hn as [->| ->]; rewrite prod9; eexists; (split; [reflexivity|]).
  - exists (a * a'), (b * b'), (x * a' + x'), (y * b' + y'). left. apply nine; ring.
  - exists (a * a'), (b * b'), (y * b' + x'), (x * a' + y'). right. apply nine; ring.
  - exists (a * b'), (b * a'), (x * a' + x'), (y * b' + y'). right. apply nine; ring.
  - exists (a * b'), (b * a'), (y * b' + x'), (x * a' + y'). left. apply nine; ring.
Qed.
Lemma upright_chain m ms : upright m -> List.Forall upright ms -> exists k, concatenateMatrices (m :: ms) = Ok k /\ upright k.
Proof.
  intros U F. unfold concatenateMatrices. revert m U. induction F as [|n ns Un _ IH]; intros m U; [exists m; split; [reflexivity|exact U]|].
  destruct (upright_prod m n U Un) as (k & E & Uk). destruct (IH k Uk) as (k' & E' & Uk'). exists k'. split; [|exact Uk']. unfold mkTransform, concatenateMatrices in E. cbn [foldM] in *. destruct (multiplyMatrixByMatrix m n) as [z|e]; cbn [bind] in *; [injection E as ->; exact E'|discriminate].
Qed.
Lemma upright_scale sx sy : upright (_scaleMatrix sx sy).
Proof. exists sx, sy, 0, 0. now left. Qed.
Lemma upright_move p q : upright (_translateMatrix p q).
Proof. destruct p as [u v], q as [u' v']. exists 1, 1, (u' - u), (v' - v). now left. Qed.
Lemma upright_mirror u v : upright (_mirrorMatrix u v).
Proof. unfold _mirrorMatrix. destruct u, v; do 4 eexists; left; reflexivity. Qed.
Theorem upright_named (p q : pt) (sx sy : R) (u v : bool) :
  (exists m, translate p q = Ok m /\ upright m) /\ (exists m, scale sx sy = Ok m /\ upright m) /\ (exists m, mirror u v = Ok m /\ upright m) /\ (exists m, mirrorAround p u v = Ok m /\ upright m).
Proof.
  split; [|split; [|split]]; try (apply upright_chain; [|constructor]); try apply upright_move; try apply upright_scale; try apply upright_mirror.
  destruct p as [cx cy]. apply upright_chain; [apply upright_move|repeat constructor; [apply upright_mirror|apply upright_move]].
Qed.
