(** Property C122: the point of a contour nearest to a given point, in IEEE double precision.  The only thing asked of the
    C library is that [math.hypot] is accurate to the fraction [e]; one last place is [e = ulp1]. *)
From Coq Require Import List ZArith Bool Reals Lra Lia.
From Flocq Require Import Core BinarySingleNaN.
From Verif Require Import Py InstFloat SpecGeom SpecBezier SpecCurve SpecContour SpecDouble SpecDouble3 MBezUtil MBezier MContour ProofDouble ProofDouble2 ProofDouble9 ProofDouble16.
Import ListNotations.
Local Open Scope R_scope.

(** ** C122 *)
Theorem C122_closest_point (TO : TrigOps b64) (e M : R) (c : list (list (point b64))) (p : point b64) (s : Z) :
  0 <= e <= / 100 -> hypot_within e thypot -> M <= 2 ^ 50 ->
  c <> [] -> Forall (fun seg => (2 <= length seg <= 4)%nat /\ Forall (sized M) seg) c -> sized M p -> (2 <= s <= 200)%Z ->
  exists bc d q seg t, newContour c = Ok bc /\ snd (findClosestPoint bc p s) = Ok (d, q) /\ In seg c /\ 0 <= t <= 1 /\
    off (10 * ulp1 * M + 32 * tiny) q (curve (map vpt seg) t) /\ fin d /\ Rabs (val d - vdist (vpt q) (vpt p)) <= 5 * (e + ulp1) * M + 8 * tiny /\
    forall V x, (forall seg, In seg c -> speed (map vpt seg) <= V) -> In x (table s (map (map vpt) c)) ->
      val d <= vdist x (vpt p) + 4 / 5 * V / IZR (s - 1) + 12 * ulp1 * V + (15 * e + 75 * ulp1) * M + 216 * tiny.
Proof. exact (closest_in_doubles e M c p s). Qed.
Print Assumptions C122_closest_point.
(** Such a library exists. *)
Theorem C122_library_exists : exists f, hypot_within ulp1 f /\ 0 <= ulp1 <= / 100.
Proof. eexists. split; [exact hypot_exists|]. rewrite ulp_num. lra. Qed.
Print Assumptions C122_library_exists.
(** A bowl closed by two lines, and a point beside it. *)
Example C122_case : let c := [[(bofZ 0, bofZ 0); (bofZ 200, bofZ (-900)); (bofZ 800, bofZ (-900)); (bofZ 1000, bofZ 0)]; [(bofZ 1000, bofZ 0); (bofZ 500, bofZ 300)]; [(bofZ 500, bofZ 300); (bofZ 0, bofZ 0)]] in
  let p := (bofZ 500, bofZ 310) in let s := 100%Z in
  IZR 1000 <= 2 ^ 50 /\ c <> [] /\ Forall (fun seg => (2 <= length seg <= 4)%nat /\ Forall (sized (IZR 1000)) seg) c /\ sized (IZR 1000) p /\ (2 <= s <= 200)%Z /\
  In (500, 300) (table s (map (map vpt) c)) /\ vdist (500, 300) (vpt p) = 10.
Proof.
  intros c p s. split; [cbn [pow]; lra|]. split; [discriminate|].
  split; [repeat (apply Forall_cons; [split; [simpl; lia | repeat (apply Forall_cons; [apply sized_int; lia|]); apply Forall_nil]|]); apply Forall_nil|].
  split; [apply sized_int; lia|]. split; [unfold s; lia|].
  destruct (val_int 500 ltac:(lia)) as [_ V5]. destruct (val_int 300 ltac:(lia)) as [_ V3]. destruct (val_int 310 ltac:(lia)) as [_ V1]. destruct (val_int 1000 ltac:(lia)) as [_ V10]. destruct (val_int 0 ltac:(lia)) as [_ V0]. split.
  - assert (E : nth (1 * (Z.to_nat s - 1) + 99) (table s (map (map vpt) c)) (0, 0) = (500, 300)).
    { rewrite ProofContour.table_nth1 by (unfold s, c; simpl; lia). cbn [nth map c]. unfold vpt. cbn [fst snd]. rewrite V5, V3, V10, V0, ProofBezier.curve2. cbn [fst snd].
      replace (INR 99 / IZR (s - 1)) with 1 by (rewrite INR_IZR_INZ; unfold s; cbn; lra). f_equal; ring. }
    rewrite <- E. apply nth_In. rewrite ProofContour.table_length by (unfold s, c; simpl; discriminate || lia). unfold s, c. simpl. lia.
  - unfold vdist, dist2, vpt, p. cbn [fst snd]. rewrite V5, V1. replace (_ + _) with (10 * 10) by ring. apply sqrt_square. lra.
Qed.
