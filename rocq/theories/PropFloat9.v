(** Property C124: the parameters of a fit, in IEEE double precision.  [math.hypot] is accurate to the fraction [e], never
    negative, and exact on the zero vector. *)
From Coq Require Import List ZArith Bool Reals Lra Lia.
From Flocq Require Import Core BinarySingleNaN.
From Verif Require Import Py InstFloat SpecGeom SpecMatrix SpecFit SpecDouble SpecDouble3 SpecDouble4 MCurveFit ProofDouble ProofDouble2 ProofDouble9 ProofDouble16 ProofDouble18.
Import ListNotations.
Local Open Scope R_scope.

(** ** C124.  [way i] is the length of the polygon up to its point [i]. *)
Theorem C124_polygonal (TO : TrigOps b64) (e M : R) (p : list (point b64)) : 0 <= e <= / 100 -> hypot_within e thypot -> hypot_sane thypot ->
  Forall (sized M) p -> M <= 2 ^ 900 -> INR (length p) <= 1000000 ->
  let way i := rsum i (fun k => vdist (ptn (map vpt p) k) (ptn (map vpt p) (S k))) in / 2 ^ 900 <= way (length p - 1)%nat ->
  exists s, computeTimeValues p true = Ok s /\ length s = length p /\ Forall fin s /\
    let v i := val (nth i s (bofZ 0)) in v 0%nat = 0 /\ v (length p - 1)%nat = 1 /\ (forall i j, (i <= j < length p)%nat -> v i <= v j) /\
    forall i, (i < length p)%nat -> Rabs (v i - way i / way (length p - 1)%nat) <= 3 * (e + (INR (length p) + 3) * ulp1).
Proof. intros He HH HZ S L N. exact (times_double e M He HH HZ p S L N). Qed.
Print Assumptions C124_polygonal.
Theorem C124_coinciding_points_raise (TO : TrigOps b64) (M : R) (p : list (point b64)) : hypot_sane thypot -> Forall (sized M) p ->
  p <> [] -> (forall x y, In x p -> In y p -> vpt x = vpt y) -> computeTimeValues p true = Err ZeroDivisionError.
Proof. exact (fun HZ S => times_coincide_double M HZ p S). Qed.
Print Assumptions C124_coinciding_points_raise.
(** [fl x] is the double next to [x]. *)
Theorem C124_uniform (TO : TrigOps b64) (p : list (point b64)) : (2 <= length p)%nat -> INR (length p) <= 1000000 ->
  exists s, computeTimeValues p false = Ok s /\ length s = length p /\ Forall fin s /\
    let v i := val (nth i s (bofZ 0)) in (forall i, (i < length p)%nat -> v i = fl (INR i / INR (length p - 1))) /\
    v 0%nat = 0 /\ v (length p - 1)%nat = 1 /\ forall i j, (i < j < length p)%nat -> v i < v j.
Proof. exact (uniform_double p). Qed.
Print Assumptions C124_uniform.
Theorem C124_library_exists : exists f, hypot_within ulp1 f /\ hypot_sane f /\ 0 <= ulp1 <= / 100.
Proof. eexists. split; [exact hypot_exists|]. split; [exact sane_exists|]. rewrite ulp_num. lra. Qed.
Print Assumptions C124_library_exists.
(** A polygon with a repeated point: 5 units, nothing, 4 units. *)
Example C124_case : let p := [(bofZ 0, bofZ 0); (bofZ 3, bofZ 4); (bofZ 3, bofZ 4); (bofZ 3, bofZ 0)] in
  let way i := rsum i (fun k => vdist (ptn (map vpt p) k) (ptn (map vpt p) (S k))) in
  Forall (sized (IZR 4)) p /\ IZR 4 <= 2 ^ 900 /\ INR (length p) <= 1000000 /\ way 1%nat = 5 /\ way (length p - 1)%nat = 9 /\ / 2 ^ 900 <= way (length p - 1)%nat.
Proof.
  intros p way. destruct (val_int 0 eq_refl) as [_ V0]. destruct (val_int 3 eq_refl) as [_ V3]. destruct (val_int 4 eq_refl) as [_ V4].
  assert (E : map vpt p = [(0, 0); (3, 4); (3, 4); (3, 0)]) by (unfold p, vpt; cbn [map fst snd]; rewrite V0, V3, V4; reflexivity).
  assert (D1 : vdist (0, 0) (3, 4) = 5) by (unfold vdist, dist2; cbn [fst snd]; replace (_ + _) with (5 * 5) by ring; apply sqrt_square; lra).
  assert (D2 : vdist (3, 4) (3, 4) = 0) by (unfold vdist, dist2; cbn [fst snd]; replace (_ + _) with (0 * 0) by ring; apply sqrt_square; lra).
  assert (D3 : vdist (3, 4) (3, 0) = 4) by (unfold vdist, dist2; cbn [fst snd]; replace (_ + _) with (4 * 4) by ring; apply sqrt_square; lra).
  assert (W : 1 <= 2 ^ 900) by (apply pow_R1_Rle; lra). assert (W1 : way 1%nat = 5) by (unfold way; rewrite E; cbn [rsum ptn nth]; unfold ptn; cbn [nth]; rewrite D1; ring).
  assert (W3 : way 3%nat = 9) by (unfold way; rewrite E; cbn [rsum]; unfold ptn; cbn [nth]; rewrite D1, D2, D3; ring).
  split; [repeat (apply Forall_cons; [apply sized_int; lia|]); apply Forall_nil|]. split; [apply Rle_trans with (2 ^ 10); [cbn [pow]; lra | apply Rle_pow; [lra | lia]]|].
  split; [cbn; lra|]. split; [exact W1|]. change (length p - 1)%nat with 3%nat. split; [exact W3|]. rewrite W3. rewrite <- (Rinv_inv 9). apply Rinv_le; lra.
Qed.
Example C124_case2 : let p := [(bofZ 7, bofZ 7); (bofZ 7, bofZ 7); (bofZ 7, bofZ 7)] in Forall (sized (IZR 7)) p /\ p <> [] /\ (forall x y, In x p -> In y p -> vpt x = vpt y) /\ (2 <= length p)%nat /\ INR (length p) <= 1000000.
Proof.
  intros p. split; [repeat (apply Forall_cons; [apply sized_int; lia|]); apply Forall_nil|]. split; [discriminate|]. split; [|split; [simpl; lia | cbn; lra]].
  intros x y X Y. repeat (destruct X as [<- | X]; [repeat (destruct Y as [<- | Y]; [reflexivity|]); contradiction|]). contradiction.
Qed.
