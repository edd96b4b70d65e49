(** Proofs: glyphs with numbers on a binary grid are drawn without rounding. *)
From Coq Require Import List ZArith Bool Reals Lra Lia Psatz String.
From Flocq Require Import Core BinarySingleNaN.
From Verif Require Import Py Inst InstFloat SpecGeom SpecDouble SpecDouble5 SpecPen MTransform MSegmentPen ProofPen ProofPen2 ProofDouble ProofDouble2.
Import ListNotations.
Local Open Scope R_scope.

Definition gr (e : nat) (B : R) (x : b64) : Prop := on_grid e x /\ Rabs (val x) <= B.
Definition gp (e : nat) (B : R) (p : point b64) : Prop := gr e B (fst p) /\ gr e B (snd p).
Lemma pow2_pos e : 0 < 2 ^ e. Proof. apply pow_lt; lra. Qed.
Lemma z_small e z B : Rabs (IZR z * / 2 ^ e) <= B -> B * 2 ^ e < 2 ^ 53 -> (Z.abs z < 2 ^ 53)%Z.
Proof.
  intros H L. pose proof (pow2_pos e) as P. rewrite Rabs_mult, <- abs_IZR, (Rabs_pos_eq (/ 2 ^ e)) in H by (left; now apply Rinv_0_lt_compat).
  apply lt_IZR. apply Rle_lt_trans with (B * 2 ^ e).
  - replace (IZR (Z.abs z)) with (IZR (Z.abs z) * / 2 ^ e * 2 ^ e) by (field; lra). apply Rmult_le_compat_r; [lra | exact H].
  - replace (IZR (2 ^ 53)) with (2 ^ 53); [exact L|]. rewrite <- (Z2Nat.id 53) by lia. rewrite <- pow_IZR. reflexivity.
Qed.
Lemma gr_fin e B x : gr e B x -> fin x. Proof. intros ((F & _) & _). exact F. Qed.
Lemma gr_up e B e' B' x : gr e B x -> (e <= e')%nat -> B <= B' -> gr e' B' x.
Proof.
  intros ((F & z & V) & L) He HB. split; [|lra]. split; [exact F|]. exists (z * 2 ^ Z.of_nat (e' - e))%Z.
  rewrite V, mult_IZR, <- (pow_IZR 2). replace e' with (e + (e' - e))%nat at 2 by lia. rewrite pow_add. field.
  split; apply pow_nonzero; lra.
Qed.
Lemma gp_up e B e' B' p : gp e B p -> (e <= e')%nat -> B <= B' -> gp e' B' p.
Proof. intros (X & Y) He HB. split; eapply gr_up; eauto. Qed.
Lemma gr_add e B1 B2 x y : gr e B1 x -> gr e B2 y -> (B1 + B2) * 2 ^ e < 2 ^ 53 -> (e <= 1000)%nat -> gr e (B1 + B2) (nadd x y) /\ val (nadd x y) = val x + val y.
Proof.
  intros ((Fx & a & Va) & La) ((Fy & b & Vb) & Lb) L E.
  assert (T : Rabs (val x + val y) <= B1 + B2) by (eapply Rle_trans; [apply Rabs_triang | lra]).
  assert (S : val x + val y = IZR (a + b) * / 2 ^ e) by (rewrite Va, Vb, plus_IZR; ring).
  destruct (dy_add e x y a b (conj Fx Va) (conj Fy Vb)) as (F & V); [apply (z_small e _ (B1 + B2)); [rewrite <- S; exact T | exact L] | exact E|].
  rewrite <- S in V. split; [|exact V]. split; [split; [exact F | exists (a + b)%Z; rewrite V; exact S] | rewrite V; exact T].
Qed.
Lemma gr_mul e f B1 B2 x y : gr e B1 x -> gr f B2 y -> B1 * B2 * 2 ^ (e + f) < 2 ^ 53 -> (e + f <= 1000)%nat -> gr (e + f) (B1 * B2) (nmul x y) /\ val (nmul x y) = val x * val y.
Proof.
  intros ((Fx & a & Va) & La) ((Fy & b & Vb) & Lb) L E.
  assert (T : Rabs (val x * val y) <= B1 * B2) by (rewrite Rabs_mult; apply Rmult_le_compat; try apply Rabs_pos; assumption).
  assert (S : val x * val y = IZR (a * b) * / 2 ^ (e + f)) by (rewrite Va, Vb, mult_IZR, pow_add; field; split; apply pow_nonzero; lra).
  destruct (dy_mul e f x y a b (conj Fx Va) (conj Fy Vb)) as (F & V); [apply (z_small (e + f) _ (B1 * B2)); [rewrite <- S; exact T | exact L] | exact E|].
  rewrite <- S in V. split; [|exact V]. split; [split; [exact F | exists (a * b)%Z; rewrite V; exact S] | rewrite V; exact T].
Qed.
Lemma veqb (x y : b64) : fin x -> fin y -> neqb x y = Reqb (val x) (val y).
Proof.
  intros Fx Fy. destruct (Reqb_spec (val x) (val y)) as [E|E].
  - now apply val_neqb.
  - now apply neqb_val.
Qed.
Lemma vpteqb e B e' B' p q : gp e B p -> gp e' B' q -> pteqb p q = pteqb (vpt p) (vpt q).
Proof.
  intros (X & Y) (X' & Y'). unfold pteqb, vpt. cbn [fst snd]. rewrite !veqb by (eapply gr_fin; eassumption). reflexivity.
Qed.

Section Grid.
  Context (g : nat) (S B0 : R) (HS : 1 <= S) (HB0 : 1 <= B0).
  Let good := grid_call g S B0.
  Lemma whole_gp p : whole B0 p <-> gp 0 B0 p.
  Proof. unfold whole, gp, gr. tauto. Qed.

  (** The state: recorded contours on the grid [(e, B)], the current contour on the grid of halves, the current point whole. *)
  Definition gpen (e : nat) (B : R) (s : pen b64) : Prop :=
    Forall (Forall (Forall (gp e B))) (p_contours s) /\ gp 0 B0 (p_last s) /\
    match p_contour s with Some c => Forall (Forall (gp 1 B0)) c | None => True end.
  (** A step done with doubles and the same step with reals. *)
  Definition same_out (e : nat) (B : R) (o : @outcome b64) (o' : @outcome R) : Prop := gpen e B (fst o) /\ o' = (vpen (fst o), snd o).

  Lemma implied_grid p q : 2 * B0 < 2 ^ 53 -> gp 0 B0 p -> gp 0 B0 q -> gp 1 B0 (implied p q) /\ vpt (implied p q) = implied (vpt p) (vpt q).
  Proof.
    intros L (Px & Py) (Qx & Qy). destruct half_val as (Fh & Vh).
    assert (K : forall a b, gr 0 B0 a -> gr 0 B0 b -> gr 1 B0 (nmul (nlit 1 2) (nadd a b)) /\ val (nmul (nlit 1 2) (nadd a b)) = 1 / 2 * (val a + val b)).
    { intros a b A Bb. destruct (gr_add 0 B0 B0 a b A Bb) as (G & V); [cbn [pow]; lra | lia|].
      assert (H : gr 1 (/ 2) (nlit 1 2)).
      { change (nlit 1 2 : b64) with (nquot (bofZ 1) (bofZ 2)). split; [split; [exact Fh | exists 1%Z; rewrite Vh; cbn [pow]; lra]|]. rewrite Vh, Rabs_pos_eq; lra. }
      destruct (gr_mul 1 0 (/ 2) (B0 + B0) _ _ H G) as (G2 & V2); [cbn [Nat.add pow]; lra | lia|].
      split; [eapply gr_up; [exact G2 | lia | lra]|]. rewrite V2, V. change (nlit 1 2 : b64) with (nquot (bofZ 1) (bofZ 2)). rewrite Vh. lra. }
    destruct (K _ _ Px Qx) as (G1 & V1). destruct (K _ _ Py Qy) as (G2 & V2).
    split; [split; assumption|]. unfold implied, vpt. cbn [fst snd]. rewrite V1, V2. unfold nlit. numRg. reflexivity.
  Qed.

  Section Level.
    Context (e : nat) (B : R) (He : (1 <= e <= 900)%nat) (HB : B0 <= B) (HL : B * 2 ^ e < 2 ^ 53).
    Notation ok := (gpen e B).
    Notation both := (same_out e B).
    Lemma two_small : 2 * B0 < 2 ^ 53.
    Proof.
      assert (2 <= 2 ^ e). { replace 2 with (2 ^ 1) at 1 by ring. apply Rle_pow; [lra | lia]. }
      assert (B0 * 2 <= B * 2 ^ e) by (apply Rmult_le_compat; lra). lra.
    Qed.
    Lemma half_of_whole p : gp 0 B0 p -> gp 1 B0 p. Proof. intros H. eapply gp_up; [exact H | lia | lra]. Qed.
    Lemma halves_of_whole l : Forall (gp 0 B0) l -> Forall (gp 1 B0) l. Proof. apply Forall_impl. exact half_of_whole. Qed.

    Lemma moveTo_both s p : ok s -> gp 0 B0 p -> both (moveTo s p) (moveTo (vpen s) (vpt p)).
    Proof. intros (C & L & K) P. split; [split; [exact C | split; [exact P | constructor]] | reflexivity]. Qed.
    Lemma append_both s seg : ok s -> Forall (gp 1 B0) seg -> both (appendSegment s seg) (appendSegment (vpen s) (map vpt seg)).
    Proof.
      intros O G. pose proof O as (C & L & K). unfold appendSegment, vpen at 1. cbn [p_contour]. destruct (p_contour s) as [c|] eqn:E; cbn [option_map].
      - split; cbn [fst snd].
        + split; [exact C|]. split; [exact L|]. cbn [p_contour]. apply Forall_app. split; [exact K | constructor; [exact G | constructor]].
        + unfold vpen. cbn [p_contours p_last p_contour option_map]. rewrite map_app. reflexivity.
      - split; cbn [fst snd]; [exact O | reflexivity].
    Qed.
    Lemma setLast_both s p : ok s -> gp 0 B0 p -> ok (setLast s p) /\ vpen (setLast s p) = setLast (vpen s) (vpt p).
    Proof. intros (C & L & K) P. split; [split; [exact C | split; [exact P | exact K]] | reflexivity]. Qed.
    Lemma lineTo_both s p : ok s -> gp 0 B0 p -> both (lineTo s p) (lineTo (vpen s) (vpt p)).
    Proof.
      intros O P. unfold lineTo. change (p_last (vpen s)) with (vpt (p_last s)). pose proof (proj1 (proj2 O)) as L.
      rewrite <- (vpteqb 0 B0 0 B0 p (p_last s) P L). destruct (pteqb p (p_last s)); [split; [exact O | reflexivity]|].
      assert (G : Forall (gp 1 B0) [p_last s; p]) by (constructor; [now apply half_of_whole | constructor; [now apply half_of_whole | constructor]]).
      destruct (append_both s [p_last s; p] O G) as (O1 & E). cbn [map] in E. rewrite E.
      destruct (appendSegment s [p_last s; p]) as [s' [x|]]; cbn [fst snd] in *.
      - split; [exact O1 | reflexivity].
      - split; cbn [fst snd]; [apply setLast_both; assumption | reflexivity].
    Qed.
    Lemma last_error_map {A C} (f : A -> C) l : last_error (map f l) = option_map f (last_error l).
    Proof. induction l as [|a [|b l] IH]; [reflexivity | reflexivity | exact IH]. Qed.
    Lemma last_error_Forall {A} (P : A -> Prop) l x : Forall P l -> last_error l = Some x -> P x.
    Proof. induction l as [|a [|b l] IH]; intros F E; [discriminate | cbn in E; injection E as <-; now inversion F | apply IH; [now inversion F | exact E]]. Qed.
    Lemma curveTo_both s ps : ok s -> Forall (gp 0 B0) ps -> both (curveTo s ps) (curveTo (vpen s) (map vpt ps)).
    Proof.
      intros O P. unfold curveTo. change (p_last (vpen s)) with (vpt (p_last s)). pose proof (proj1 (proj2 O)) as L.
      assert (G : Forall (gp 1 B0) (p_last s :: ps)) by (apply halves_of_whole; now constructor).
      destruct (append_both s (p_last s :: ps) O G) as (O1 & E). cbn [map] in E. rewrite E.
      destruct (appendSegment s (p_last s :: ps)) as [s' [x|]]; cbn [fst snd] in *; [split; [exact O1 | reflexivity]|].
      rewrite last_error_map. destruct (last_error ps) as [q|] eqn:Q; cbn [option_map]; [|split; [exact O1 | reflexivity]].
      split; cbn [fst snd]; [apply setLast_both; [exact O1 | eapply last_error_Forall; eassumption] | reflexivity].
    Qed.
    Lemma nth_error_Forall {A} (P : A -> Prop) l i x : Forall P l -> nth_error l i = Some x -> P x.
    Proof. intros F E. apply nth_error_In in E. rewrite Forall_forall in F. now apply F. Qed.
    Lemma qLoop_both seg : Forall (gp 0 B0) seg -> forall is start s, ok s -> gp 1 B0 start ->
      let r := qLoop seg is start s in
      ok (fst (fst r)) /\ gp 1 B0 (snd (fst r)) /\ qLoop (map vpt seg) is (vpt start) (vpen s) = ((vpen (fst (fst r)), vpt (snd (fst r))), snd r).
    Proof.
      intros G. induction is as [|i is IH]; intros start s O St; cbn [qLoop fst snd]; [split; [exact O | split; [exact St | reflexivity]]|].
      rewrite !nth_error_map. destruct (nth_error seg i) as [p1|] eqn:E1; [|split; [exact O | split; [exact St | reflexivity]]].
      destruct (nth_error seg (i + 1)) as [p2|] eqn:E2; [|split; [exact O | split; [exact St | reflexivity]]]. cbn [option_map].
      pose proof (nth_error_Forall _ _ _ _ G E1) as G1. pose proof (nth_error_Forall _ _ _ _ G E2) as G2.
      destruct (implied_grid p1 p2 two_small G1 G2) as (Gi & Vi). rewrite <- Vi.
      assert (Gs : Forall (gp 1 B0) [start; p1; implied p1 p2]) by (constructor; [exact St | constructor; [now apply half_of_whole | constructor; [exact Gi | constructor]]]).
      destruct (append_both s _ O Gs) as (O1 & E). cbn [map] in E. rewrite E.
      destruct (appendSegment s [start; p1; implied p1 p2]) as [s' [x|]]; cbn [fst snd] in *.
      - split; [exact O1 | split; [exact St | reflexivity]].
      - apply IH; assumption.
    Qed.
    Lemma last_map {A C} (f : A -> C) l d : last (map f l) (f d) = f (last l d).
    Proof. induction l as [|a [|b l] IH]; [reflexivity | reflexivity | exact IH]. Qed.
    Lemma last_Forall {A} (P : A -> Prop) l d : Forall P l -> P d -> P (last l d).
    Proof. induction l as [|a [|b l] IH]; intros F D; [exact D | now inversion F | apply IH; [now inversion F | exact D]]. Qed.
    Lemma qCurveTo_both s ps : ok s -> Forall (gp 0 B0) ps -> both (qCurveTo s ps) (qCurveTo (vpen s) (map vpt ps)).
    Proof.
      intros O P. unfold qCurveTo. change (p_last (vpen s)) with (vpt (p_last s)). pose proof (proj1 (proj2 O)) as L.
      change (vpt (p_last s) :: map vpt ps) with (map vpt (p_last s :: ps)). set (seg := p_last s :: ps).
      assert (G : Forall (gp 0 B0) seg) by (now constructor). clearbody seg. rewrite !map_length, last_map.
      assert (D : gp 0 B0 (last seg (p_last s))) by (now apply last_Forall). set (d := last seg (p_last s)) in *. clearbody d.
      assert (K : forall (o : @outcome b64) o', both o o' ->
        both (match o with (s', None) => (setLast s' d, None) | r => r end) (match o' with (s', None) => (setLast s' (vpt d), None) | r => r end)).
      { intros [s' [x|]] o' (O1 & ->); cbn [fst snd] in *; [split; [exact O1 | reflexivity]|]. split; cbn [fst snd]; [now apply setLast_both | reflexivity]. }
      destruct (Nat.leb (List.length seg) 3); [apply K, append_both; [exact O | now apply halves_of_whole]|].
      destruct (qLoop_both seg G (seq 1 (List.length seg - 3)) (p_last s) s O (half_of_whole _ L)) as (O1 & G1 & E). rewrite E.
      destruct (qLoop seg (seq 1 (List.length seg - 3)) (p_last s) s) as [[s' st] [x|]]; cbn [fst snd] in *; [split; [exact O1 | reflexivity]|].
      rewrite !nth_error_map. destruct (nth_error seg (List.length seg - 2)) as [a|] eqn:E1; [|split; [exact O1 | reflexivity]].
      destruct (nth_error seg (List.length seg - 1)) as [b|] eqn:E2; [|split; [exact O1 | reflexivity]]. cbn [option_map].
      apply K. apply (append_both s' [st; a; b] O1).
      constructor; [exact G1|]. constructor; [apply half_of_whole, (nth_error_Forall _ _ _ _ G E1)|]. constructor; [apply half_of_whole, (nth_error_Forall _ _ _ _ G E2) | constructor].
    Qed.
    Lemma start_map c : contourStart (map (map vpt) c) = option_map vpt (contourStart c).
    Proof. destruct c as [|[|p s] c]; reflexivity. Qed.
    Lemma end_map c : contourEnd (map (map vpt) c) = option_map vpt (contourEnd c).
    Proof. unfold contourEnd. rewrite last_error_map. destruct (last_error c) as [s|]; cbn [option_map]; [apply last_error_map | reflexivity]. Qed.
    Lemma close_both s : ok s -> both (closePath s) (closePath (vpen s)).
    Proof.
      intros O. pose proof O as (C & L & K). unfold closePath. unfold vpen at 1. cbn [p_contour].
      destruct (p_contour s) as [[|x c]|] eqn:E; cbn [option_map map].
      - split; [exact O | reflexivity].
      - change (map vpt x :: map (map vpt) c) with (map (map vpt) (x :: c)). set (k := x :: c) in *. clearbody k.
        rewrite start_map, end_map. assert (Lift : forall k, Forall (Forall (gp 1 B0)) k -> Forall (Forall (gp e B)) k).
        { intros k0. apply Forall_impl. intros sg. apply Forall_impl. intros p Hp. eapply gp_up; [exact Hp | lia | lra]. }
        assert (Bad : both (mkPen (p_contours s ++ [k]) (p_last s) (Some k), Some IndexError)
            (mkPen (p_contours (vpen s) ++ [map (map vpt) k]) (p_last (vpen s)) (Some (map (map vpt) k)), Some IndexError)).
        { split; cbn [fst snd].
          - split; [|split; [exact L | exact K]]. cbn [p_contours]. apply Forall_app. split; [exact C | constructor; [now apply Lift | constructor]].
          - unfold vpen, vcontours. cbn [p_contours p_last p_contour option_map]. rewrite map_app. reflexivity. }
        destruct (contourStart k) as [a|] eqn:Ea; cbn [option_map]; [|exact Bad]. destruct (contourEnd k) as [b|] eqn:Eb; cbn [option_map]; [|exact Bad].
        assert (Ga : gp 1 B0 a). { destruct k as [|[|q y] k]; try discriminate. cbn in Ea. injection Ea as <-. inversion K as [|? ? K1 _]. now inversion K1. }
        assert (Gb : gp 1 B0 b). { unfold contourEnd in Eb. destruct (last_error k) as [sg|] eqn:Ek; [|discriminate]. apply (last_error_Forall _ _ _ K) in Ek. eapply last_error_Forall; eassumption. }
        rewrite <- (vpteqb 1 B0 1 B0 a b Ga Gb).
        assert (R : map (map vpt) (if pteqb a b then k else k ++ [[b; a]]) = if pteqb a b then map (map vpt) k else map (map vpt) k ++ [[vpt b; vpt a]]) by (destruct (pteqb a b); [reflexivity | now rewrite map_app]).
        split; cbn [fst snd].
        + split; [|split; [exact L | constructor]]. cbn [p_contours]. apply Forall_app. split; [exact C|]. constructor; [|constructor]. apply Lift.
          destruct (pteqb a b); [exact K|]. apply Forall_app. split; [exact K|]. constructor; [|constructor]. constructor; [exact Gb|]. constructor; [exact Ga | constructor].
        + unfold vpen, vcontours. cbn [p_contours p_last p_contour option_map map]. rewrite map_app. cbn [map]. rewrite R. reflexivity.
      - split; [exact O | reflexivity].
    Qed.

    (** Components. *)
    Lemma coord_apply e1 B1 x a y c m : gr e1 B1 x -> gr e1 B1 y -> on_grid g a -> on_grid g c -> gr 0 B0 m -> Rabs (val a) + Rabs (val c) <= S ->
      (e1 + g <= e)%nat -> 0 <= B1 -> S * B1 + B0 <= B ->
      gr e B (dot3 x a y c (bofZ 1) m) /\ val (dot3 x a y c (bofZ 1) m) = val x * val a + val y * val c + val m.
    Proof.
      intros X Y A C M HSum Hle HB1 HBB. pose proof (pow2_pos e) as Pe. pose proof (Rabs_pos (val a)) as Pa. pose proof (Rabs_pos (val c)) as Pc.
      assert (Mono : forall z, 0 <= z <= B -> z * 2 ^ (e1 + g) < 2 ^ 53).
      { intros z Hz. assert (0 < 2 ^ (e1 + g) <= 2 ^ e) by (split; [apply pow2_pos | apply Rle_pow; [lra | exact Hle]]).
        apply Rle_lt_trans with (B * 2 ^ e); [apply Rmult_le_compat; lra | exact HL]. }
      assert (B1 * Rabs (val a) + B1 * Rabs (val c) <= S * B1) by nra.
      assert (0 <= B1 * Rabs (val a)) by nra. assert (0 <= B1 * Rabs (val c)) by nra.
      destruct (gr_mul e1 g B1 (Rabs (val a)) x a X (conj A (Rle_refl _))) as (G1 & V1); [apply Mono; lra | lia|].
      destruct (gr_mul e1 g B1 (Rabs (val c)) y c Y (conj C (Rle_refl _))) as (G2 & V2); [apply Mono; lra | lia|].
      destruct (gr_add _ _ _ _ _ G1 G2) as (G3 & V3); [apply Mono; lra | lia|].
      destruct (val_int 1 ltac:(lia)) as (F1 & W1).
      assert (One : gr 0 1 (bofZ 1)). { split; [split; [exact F1 | exists 1%Z; rewrite W1; cbn [pow]; lra]|]. rewrite W1, Rabs_R1. lra. }
      pose proof two_small as Ts.
      destruct (gr_mul 0 0 1 B0 _ _ One M) as (G4 & V4); [cbn [Nat.add pow]; lra | lia|]. rewrite Rmult_1_l in G4.
      assert (G4' : gr (e1 + g) B0 (nmul (bofZ 1) m)) by (eapply gr_up; [exact G4 | lia | lra]).
      destruct (gr_add _ _ _ _ _ G3 G4') as (G5 & V5); [apply Mono; lra | lia|].
      split; [eapply gr_up; [exact G5 | exact Hle | lra]|]. unfold dot3. rewrite V5, V3, V4, V1, V2, W1. ring.
    Qed.
    Lemma point_apply e1 B1 t p : gp e1 B1 p -> scaled g S B0 t -> (e1 + g <= e)%nat -> 0 <= B1 -> S * B1 + B0 <= B ->
      exists r, applyToPoint (componentMatrix t) p = Ok r /\ gp e B r /\ vpt r = aff (vtr t) (vpt p).
    Proof.
      destruct t as [[[[[xs xys] yxs] ys] xo] yo], p as [x y]. intros (X & Y) (A & A2 & C & C2 & S1 & S2 & M & LM & N & LN) Hle HB1 HBB. cbn [fst snd] in *.
      unfold componentMatrix, _matrix. rewrite apply_dot3.
      destruct (val_int 1 ltac:(lia)) as (F1 & W1).
      destruct (affine_w x y (nofZ 0) (nofZ 0) (nofZ 1)) as (Fw & Vw); try reflexivity; [eapply gr_fin; exact X | eapply gr_fin; exact Y | exact W1 |].
      destruct (coord_apply e1 B1 x xs y yxs xo X Y A C (conj M LM) S1 Hle HB1 HBB) as (G1 & V1).
      destruct (coord_apply e1 B1 x xys y ys yo X Y A2 C2 (conj N LN) S2 Hle HB1 HBB) as (G2 & V2).
      destruct (div_one _ _ (gr_fin _ _ _ G1) Fw Vw) as (r1 & -> & Fr1 & Vr1). destruct (div_one _ _ (gr_fin _ _ _ G2) Fw Vw) as (r2 & -> & Fr2 & Vr2). cbn [bind].
      exists (r1, r2). split; [reflexivity|]. split.
      - split; cbn [fst snd].
        + destruct G1 as ((_ & z & Z) & Lz). split; [split; [exact Fr1 | exists z; now rewrite Vr1] | now rewrite Vr1].
        + destruct G2 as ((_ & z & Z) & Lz). split; [split; [exact Fr2 | exists z; now rewrite Vr2] | now rewrite Vr2].
      - unfold vpt, vtr, aff. cbn [fst snd]. rewrite Vr1, Vr2, V1, V2. f_equal; ring.
    Qed.
    Lemma mapM_both {A C D} (f : A -> res C) (h : A -> D) (v : C -> D) (P : A -> Prop) (Q : C -> Prop) :
      (forall a, P a -> exists c, f a = Ok c /\ Q c /\ v c = h a) -> forall l, Forall P l -> exists l', mapM f l = Ok l' /\ Forall Q l' /\ map v l' = map h l.
    Proof.
      intros K. induction l as [|a l IH]; intros F; [exists []; repeat split; constructor|]. inversion F as [|? ? Pa Fl]; subst.
      destruct (K a Pa) as (c & E & Qc & V). destruct (IH Fl) as (l' & E' & Ql & V'). exists (c :: l').
      split; [cbn [mapM]; rewrite E; cbn [bind]; rewrite E'; reflexivity|]. split; [now constructor | cbn [map]; now rewrite V, V'].
    Qed.
    Lemma contours_apply e1 B1 t cs : Forall (Forall (Forall (gp e1 B1))) cs -> scaled g S B0 t -> (e1 + g <= e)%nat -> 0 <= B1 -> S * B1 + B0 <= B ->
      exists cs', (let* t := mkTransform [componentMatrix t] in applyToContours t cs) = Ok cs' /\ Forall (Forall (Forall (gp e B))) cs' /\
        vcontours cs' = map (map (map (aff (vtr t)))) (vcontours cs).
    Proof.
      intros G T Hle HB1 HBB. unfold mkTransform, concatenateMatrices. cbn [foldM bind]. unfold applyToContours.
      destruct (mapM_both (applyToContour (componentMatrix t)) (fun c => map (map (fun p => aff (vtr t) (vpt p))) c) (map (map vpt))
        (Forall (Forall (gp e1 B1))) (Forall (Forall (gp e B)))) with (l := cs) as (cs' & E & Q & V); [|exact G|].
      - intros c Gc. unfold applyToContour. apply (mapM_both _ (fun s => map (fun p => aff (vtr t) (vpt p)) s) (map vpt) (Forall (gp e1 B1)) (Forall (gp e B))); [|exact Gc].
        intros sg Gs. unfold applyToSegment. apply (mapM_both _ (fun p => aff (vtr t) (vpt p)) vpt (gp e1 B1) (gp e B)); [|exact Gs].
        intros p Gp. apply (point_apply e1 B1); assumption.
      - exists cs'. split; [exact E|]. split; [exact Q|]. unfold vcontours. rewrite V. rewrite map_map. apply map_ext. intros c. rewrite map_map. apply map_ext. intros sg. now rewrite map_map.
    Qed.
    Lemma identity_both t : scaled g S B0 t -> isIdentityTransformation t = isIdentityTransformation (vtr t).
    Proof.
      destruct t as [[[[[xs xys] yxs] ys] xo] yo]. intros ((A & _) & (A2 & _) & (C & _) & (C2 & _) & _ & _ & (M & _) & _ & (N & _) & _). cbn [fst snd] in *.
      assert (Z0 : fin (nofZ 0 : b64) /\ val (nofZ 0 : b64) = 0) by (split; reflexivity). destruct Z0 as (F0 & W0).
      destruct (val_int 1 ltac:(lia)) as (F1 & W1). change (bofZ 1) with (nofZ 1 : b64) in *.
      unfold isIdentityTransformation, vtr. rewrite !veqb by assumption. rewrite W0, W1. reflexivity.
    Qed.
    Lemma component_both gs draw drawR s n t : (forall k gl, gs k = Some gl -> Forall good gl) ->
      (forall gl, Forall good gl -> drawR (vglyph gl) = (vpen (fst (draw gl)), snd (draw gl)) /\
        (snd (draw gl) = None -> exists e1 B1, (e1 + g <= e)%nat /\ 0 <= B1 /\ S * B1 + B0 <= B /\ Forall (Forall (Forall (gp e1 B1))) (p_contours (fst (draw gl))))) ->
      ok s -> scaled g S B0 t -> both (addComponent gs draw s n t) (addComponent (vglyphs gs) drawR (vpen s) n (vtr t)).
    Proof.
      intros GS HD O T. unfold addComponent, vglyphs. destruct (gs n) as [gl|] eqn:E; cbn [option_map]; [|split; [exact O | reflexivity]].
      destruct (HD gl (GS _ _ E)) as (ED & EC). rewrite ED. destruct (draw gl) as [cp [x|]]; cbn [fst snd] in *; [split; [exact O | reflexivity]|].
      destruct (EC eq_refl) as (e1 & B1 & H1 & H2 & H3 & H4). rewrite <- (identity_both t T). destruct O as (C & L & K).
      assert (Fin : forall cs, Forall (Forall (Forall (gp e B))) cs -> both (mkPen (p_contours s ++ cs) (p_last s) (p_contour s), None)
        (mkPen (p_contours (vpen s) ++ vcontours cs) (p_last (vpen s)) (p_contour (vpen s)), None)).
      { intros cs G. split; cbn [fst snd].
        - split; [cbn [p_contours]; apply Forall_app; split; assumption | split; [exact L | exact K]].
        - unfold vpen, vcontours. cbn [p_contours p_last p_contour]. now rewrite map_app. }
      destruct (isIdentityTransformation t).
      - change (p_contours (vpen cp)) with (vcontours (p_contours cp)). apply Fin.
        revert H4. apply Forall_impl. intros c. apply Forall_impl. intros sg. apply Forall_impl. intros p Hp. eapply gp_up; [exact Hp | lia | nra].
      - destruct (contours_apply e1 B1 t _ H4 T H1 H2 H3) as (cs' & -> & G & V). rewrite component_contours.
        change (p_contours (vpen cp)) with (vcontours (p_contours cp)). rewrite <- V. now apply Fin.
    Qed.
    Lemma step_both gs draw drawR s c : (forall k gl, gs k = Some gl -> Forall good gl) ->
      (forall gl, Forall good gl -> drawR (vglyph gl) = (vpen (fst (draw gl)), snd (draw gl)) /\
        (snd (draw gl) = None -> exists e1 B1, (e1 + g <= e)%nat /\ 0 <= B1 /\ S * B1 + B0 <= B /\ Forall (Forall (Forall (gp e1 B1))) (p_contours (fst (draw gl))))) ->
      ok s -> good c -> both (penStep gs draw s c) (penStep (vglyphs gs) drawR (vpen s) (vcall c)).
    Proof.
      intros GS HD O G. destruct c as [p|p|ps|ps| |n t| | |]; cbn [penStep vcall]; try (split; [exact O | reflexivity]).
      - apply moveTo_both; [exact O | apply whole_gp, G].
      - apply lineTo_both; [exact O | apply whole_gp, G].
      - apply curveTo_both; [exact O | revert G; apply Forall_impl; intros a; apply whole_gp].
      - apply qCurveTo_both; [exact O | revert G; apply Forall_impl; intros a; apply whole_gp].
      - now apply close_both.
      - now apply component_both.
    Qed.
    Lemma run_both step stepR cs : (forall s c, ok s -> good c -> both (step s c) (stepR (vpen s) (vcall c))) ->
      Forall good cs -> forall s, ok s -> both (runCalls step cs s) (runCalls stepR (map vcall cs) (vpen s)).
    Proof.
      intros K. induction cs as [|c cs IH]; intros F s O; [split; [exact O | reflexivity]|]. inversion F as [|? ? Gc Fc]; subst.
      cbn [runCalls map]. destruct (K s c O Gc) as (O1 & E). rewrite E. destruct (step s c) as [s' [x|]]; cbn [fst snd] in *; [split; [exact O1 | reflexivity]|].
      now apply IH.
    Qed.
  End Level.

  Lemma new_ok e B : gpen e B newPen.
  Proof.
    split; [constructor|]. split; [|exact I]. assert (Z : gr 0 B0 (nofZ 0)).
    { split; [split; [reflexivity | exists 0%Z; change (val (nofZ 0 : b64)) with 0; ring]|]. change (val (nofZ 0 : b64)) with 0. rewrite Rabs_R0. lra. }
    split; exact Z.
  Qed.
  Lemma reach_ge n : B0 <= reach S B0 n.
  Proof. induction n as [|n IH]; cbn [reach]; [lra | nra]. Qed.
  Lemma reach_step n : reach S B0 n <= reach S B0 (Datatypes.S n).
  Proof. pose proof (reach_ge n). cbn [reach]. nra. Qed.
  Theorem draw_both gs : (forall k gl, gs k = Some gl -> Forall good gl) -> forall n, (1 + g * n <= 900)%nat -> reach S B0 n * 2 ^ (1 + g * n) < 2 ^ 53 ->
    forall fuel, (fuel <= Datatypes.S n)%nat -> forall gl, Forall good gl ->
    same_out (1 + g * n) (reach S B0 n) (drawGlyph gs fuel gl) (drawGlyph (vglyphs gs) fuel (vglyph gl)).
  Proof.
    intros GS. induction n as [|n IH]; intros He HL fuel Hf gl Ggl; (destruct fuel as [|fuel]; [split; [apply new_ok | reflexivity]|]); cbn [drawGlyph].
    - apply (run_both _ _ (penStep gs (drawGlyph gs fuel)) (penStep (vglyphs gs) (drawGlyph (vglyphs gs) fuel))); [|exact Ggl | apply new_ok].
      intros s c O Gc. apply step_both; try assumption; [lia | cbn [reach]; lra|].
      intros g2 Gg2. assert (fuel = 0)%nat as -> by lia. split; [reflexivity | discriminate].
    - assert (HL' : reach S B0 n * 2 ^ (1 + g * n) < 2 ^ 53).
      { eapply Rle_lt_trans; [|exact HL]. pose proof (reach_ge n). pose proof (reach_step n). pose proof (pow2_pos (1 + g * n)).
        apply Rmult_le_compat; [lra | lra | lra | apply Rle_pow; [lra | nia]]. }
      apply (run_both _ _ (penStep gs (drawGlyph gs fuel)) (penStep (vglyphs gs) (drawGlyph (vglyphs gs) fuel))); [|exact Ggl | apply new_ok].
      intros s c O Gc. apply step_both; try assumption; [lia | pose proof (reach_ge (Datatypes.S n)); lra|].
      intros g2 Gg2. destruct (IH ltac:(nia) HL' fuel ltac:(lia) g2 Gg2) as ((C & _) & E). split; [exact E|]. intros _.
      exists (1 + g * n)%nat, (reach S B0 n). pose proof (reach_ge n). split; [nia|]. split; [lra|]. split; [cbn [reach]; lra | exact C].
  Qed.
End Grid.

Lemma reach_small14 n : (n <= 2)%nat -> (1 + 14 * n <= 900)%nat /\ reach 4 32768 n * 2 ^ (1 + 14 * n) < 2 ^ 53.
Proof. intros H. split; [lia|]. destruct n as [|[|[|n]]]; [| | |lia]; cbn [reach Nat.add Nat.mul pow]; lra. Qed.
Lemma reach_one B n : reach 1 B n = (INR n + 1) * B.
Proof. induction n as [|n IH]; [cbn; ring|]. cbn [reach]. rewrite IH, S_INR. ring. Qed.
Lemma reach_small0 n : INR n <= 1000000 -> (1 + 0 * n <= 900)%nat /\ reach 1 32768 n * 2 ^ (1 + 0 * n) < 2 ^ 53.
Proof.
  intros H. split; [lia|]. rewrite reach_one. cbn [Nat.mul Nat.add].
  lra.
Qed.
Section Fonts.
  Context (gs : glyphset b64) (gl : glyph b64).
  Lemma font_exact g S B n fuel : 1 <= S -> 1 <= B -> (1 + g * n <= 900)%nat -> reach S B n * 2 ^ (1 + g * n) < 2 ^ 53 ->
    (forall k h, gs k = Some h -> Forall (grid_call g S B) h) -> Forall (grid_call g S B) gl -> (fuel <= Datatypes.S n)%nat ->
    forall s oe, drawGlyph gs fuel gl = (s, oe) -> drawGlyph (vglyphs gs) fuel (vglyph gl) = (vpen s, oe).
  Proof.
    intros HS HB He HL GS G Hf s oe E. destruct (draw_both g S B HS HB gs GS n He HL fuel Hf gl G) as (_ & D). rewrite D, E. reflexivity.
  Qed.
  Lemma font14 fuel : (forall k h, gs k = Some h -> Forall (grid_call 14 4 32768) h) -> Forall (grid_call 14 4 32768) gl -> (fuel <= 3)%nat ->
    forall s oe, drawGlyph gs fuel gl = (s, oe) -> drawGlyph (vglyphs gs) fuel (vglyph gl) = (vpen s, oe).
  Proof. intros GS G Hf. apply (font_exact 14 4 32768 2); try assumption; try lra; apply reach_small14; lia. Qed.
  Lemma font14_any s fuel : (forall k h, gs k = Some h -> Forall (grid_call 14 4 32768) h) -> Forall (grid_call 14 4 32768) gl ->
    drawGlyph gs 3 gl = (s, None) -> (3 <= fuel)%nat ->
    drawGlyph gs fuel gl = (s, None) /\ drawGlyph (vglyphs gs) fuel (vglyph gl) = (vpen s, None).
  Proof.
    intros GS G E Hf. pose proof (font14 3 GS G ltac:(lia) s None E) as R. split; [exact (draw_more gs 3 fuel gl s Hf E) | exact (draw_more _ 3 fuel _ _ Hf R)].
  Qed.
  Lemma font0 fuel : (forall k h, gs k = Some h -> Forall (grid_call 0 1 32768) h) -> Forall (grid_call 0 1 32768) gl -> INR fuel <= 1000000 ->
    forall s oe, drawGlyph gs fuel gl = (s, oe) -> drawGlyph (vglyphs gs) fuel (vglyph gl) = (vpen s, oe).
  Proof.
    intros GS G Hf. apply (font_exact 0 1 32768 (Nat.pred fuel)); try assumption; try lra; try lia; apply reach_small0;
      (eapply Rle_trans; [apply le_INR, Nat.le_pred_l | exact Hf]).
  Qed.
End Fonts.

(** Numbers for examples. *)
Lemma grid_int g z : (Z.abs z < 2 ^ 53)%Z -> on_grid g (bofZ z).
Proof.
  intros H. destruct (val_int z H) as (F & V). split; [exact F|]. exists (z * 2 ^ Z.of_nat g)%Z. rewrite V, mult_IZR, <- (pow_IZR 2). field. apply pow_nonzero. lra.
Qed.
Lemma whole_int a b : (Z.abs a <= 32768)%Z -> (Z.abs b <= 32768)%Z -> whole 32768 (bofZ a, bofZ b).
Proof.
  intros A B. destruct (val_int a ltac:(lia)) as (_ & Va). destruct (val_int b ltac:(lia)) as (_ & Vb).
  split; [apply grid_int; lia|]. split; [cbn [fst]; rewrite Va, <- abs_IZR; now apply IZR_le|]. split; [apply grid_int; lia|]. cbn [snd]. rewrite Vb, <- abs_IZR. now apply IZR_le.
Qed.
Lemma grid_half g : on_grid (S g) (nquot (bofZ 1) (bofZ 2)).
Proof.
  destruct half_val as (F & V). split; [exact F|]. exists (2 ^ Z.of_nat g)%Z. rewrite V, <- (pow_IZR 2). cbn [pow]. field. apply pow_nonzero. lra.
Qed.
