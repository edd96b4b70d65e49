(** Property C145: perspective, composition and exact moves (Transform.py) in IEEE double precision.  [ulp1] is 2^-53, [tiny] 2^-1075. *)
From Coq Require Import List ZArith Bool Reals Lra Lia.
From Flocq Require Import Core BinarySingleNaN.
From Verif Require Import Py Inst InstFloat SpecGeom SpecMatrix SpecDouble SpecDouble3 SpecDouble7 SpecDouble8 MTransform ProofDouble ProofDouble2 ProofDouble23.
Import ListNotations.
Local Open Scope R_scope.

(** ** C145.  Away from the horizon - the exact divisor [w] is at least twice what rounding may add to it - any 3x3 matrix sends a point to
    the exact quotients, up to the slips of numerator and divisor over [w] and one rounding. *)
Theorem C145_perspective (m : list (list b64)) (p : point b64) : matrix3 m -> fin (fst p) -> fin (snd p) ->
  let w := coord3 m 2 (vpt p) in
  (forall j, (j < 3)%nat -> size3 m j (vpt p) <= 2 ^ 1000) -> 2 * slip3 m 2 (vpt p) <= Rabs w ->
  size3 m 0 (vpt p) <= 2 ^ 999 * Rabs w -> size3 m 1 (vpt p) <= 2 ^ 999 * Rabs w ->
  exists r, applyToPoint m p = Ok r /\ fin (fst r) /\ fin (snd r) /\
    (let z := coord3 m 0 (vpt p) / w in Rabs (val (fst r) - z) <= 3 * (slip3 m 0 (vpt p) + Rabs z * slip3 m 2 (vpt p)) / Rabs w + ulp1 * Rabs z + tiny) /\
    (let z := coord3 m 1 (vpt p) / w in Rabs (val (snd r) - z) <= 3 * (slip3 m 1 (vpt p) + Rabs z * slip3 m 2 (vpt p)) / Rabs w + ulp1 * Rabs z + tiny).
Proof. exact (perspective_near m p). Qed.
Print Assumptions C145_perspective.

(** It raises only ZeroDivisionError, and only for points whose exact divisor is zero up to rounding. *)
Theorem C145_raises (m : list (list b64)) (p : point b64) e : matrix3 m -> fin (fst p) -> fin (snd p) -> size3 m 2 (vpt p) <= 2 ^ 1000 ->
  applyToPoint m p = Err e -> e = ZeroDivisionError /\ Rabs (coord3 m 2 (vpt p)) <= slip3 m 2 (vpt p).
Proof. exact (perspective_raises m p e). Qed.
Print Assumptions C145_raises.

(** Whole matrices and points: it raises exactly when the divisor is zero, and otherwise gives the doubles nearest to the quotients. *)
Theorem C145_whole (mx : list (list b64)) (pt : point b64) (a b p c d q m n s x y : Z) :
  int_matrix mx [[a; b; p]; [c; d; q]; [m; n; s]] -> int_pt pt (x, y) ->
  (Z.abs x * Z.abs a + Z.abs y * Z.abs c + Z.abs m < 2 ^ 53)%Z -> (Z.abs x * Z.abs b + Z.abs y * Z.abs d + Z.abs n < 2 ^ 53)%Z -> (Z.abs x * Z.abs p + Z.abs y * Z.abs q + Z.abs s < 2 ^ 53)%Z ->
  let W := (x * p + y * q + s)%Z in
  (W = 0%Z -> applyToPoint mx pt = Err ZeroDivisionError) /\
  (W <> 0%Z -> exists r, applyToPoint mx pt = Ok r /\ nearest_double (IZR (x * a + y * c + m) / IZR W) (fst r) /\ nearest_double (IZR (x * b + y * d + n) / IZR W) (snd r)).
Proof. exact (perspective_whole mx pt a b p c d q m n s x y). Qed.
Print Assumptions C145_whole.

(** The product of two affine matrices with entries of at most [K] is affine - its last column is exactly 0, 0, 1 - and each entry is within
    13 units of rounding of [K * K] of the exact product. *)
Theorem C145_product (K : R) (m1 m2 : list (list b64)) : 1 <= K -> K <= 2 ^ 300 -> affine_d m1 -> affine_d m2 -> msized K m1 -> msized K m2 ->
  exists r, multiplyMatrixByMatrix m1 m2 = Ok r /\ affine_d r /\
    forall i j, (i < 3)%nat -> (j < 3)%nat -> Rabs (val (dentry r i j) - prod_entry 3 (vmat m1) (vmat m2) i j) <= 13 * ulp1 * (K * K).
Proof.
  intros K1 K2 A1 A2 S1 S2. destruct (compose_matrix K K1 K2 m1 m2 A1 A2 S1 S2) as (r & E & A & H). exists r. split; [exact E|]. split; [exact A|].
  intros i j Hi Hj. exact (proj1 (H i j Hi Hj)).
Qed.
Print Assumptions C145_product.

(** Applying the product and applying the two matrices in turn (the first one first) agree with the exact composition, and so with each other. *)
Theorem C145_composed (K M : R) (m1 m2 : list (list b64)) (p : point b64) : 1 <= K -> K <= 2 ^ 300 -> 1 <= M -> M <= 2 ^ 300 ->
  affine_d m1 -> affine_d m2 -> msized K m1 -> msized K m2 -> sized M p ->
  exists r q q1 q2, multiplyMatrixByMatrix m1 m2 = Ok r /\ applyToPoint r p = Ok q /\ applyToPoint m1 p = Ok q1 /\ applyToPoint m2 q1 = Ok q2 /\
    off (80 * ulp1 * (M * (K * K))) q (affine_image m2 (affine_image m1 (vpt p))) /\ off (80 * ulp1 * (M * (K * K))) q2 (affine_image m2 (affine_image m1 (vpt p))).
Proof. intros K1 K2 M1 M2. exact (compose_apply K K1 K2 M M1 M2 m1 m2 p). Qed.
Print Assumptions C145_composed.

(** The identity matrix and the mirrors are exact for every finite point, and a mirror applied twice gives the point back. *)
Theorem C145_identity (p : point b64) : fin (fst p) -> fin (snd p) ->
  exists r, applyToPoint (_identityMatrix (T := b64)) p = Ok r /\ fin (fst r) /\ fin (snd r) /\ vpt r = vpt p.
Proof. exact (identity_exact p). Qed.
Print Assumptions C145_identity.
Theorem C145_mirror (xa ya : bool) (p : point b64) : fin (fst p) -> fin (snd p) ->
  exists m r r', mirror (T := b64) xa ya = Ok m /\ applyToPoint m p = Ok r /\ applyToPoint m r = Ok r' /\ fin (fst r) /\ fin (snd r) /\
    vpt r = ((if ya then - val (fst p) else val (fst p)), (if xa then - val (snd p) else val (snd p))) /\ vpt r' = vpt p.
Proof. exact (mirror_exact xa ya p). Qed.
Print Assumptions C145_mirror.

(** Scaling costs one rounding per coordinate; translating one for the distance and one for the sum. *)
Theorem C145_scale (sx sy : b64) (p : point b64) : fin sx -> fin sy -> fin (fst p) -> fin (snd p) ->
  Rabs (val (fst p) * val sx) <= 2 ^ 1023 -> Rabs (val (snd p) * val sy) <= 2 ^ 1023 ->
  exists m r, scale sx sy = Ok m /\ applyToPoint m p = Ok r /\ nearest_double (val (fst p) * val sx) (fst r) /\ nearest_double (val (snd p) * val sy) (snd r).
Proof. exact (scale_rounded sx sy p). Qed.
Print Assumptions C145_scale.
Theorem C145_translate (f t p : point b64) : sized (2 ^ 1020) f -> sized (2 ^ 1020) t -> sized (2 ^ 1020) p ->
  exists m r dx dy, translate f t = Ok m /\ applyToPoint m p = Ok r /\
    nearest_double (val (fst t) - val (fst f)) dx /\ nearest_double (val (snd t) - val (snd f)) dy /\
    nearest_double (val (fst p) + val dx) (fst r) /\ nearest_double (val (snd p) + val dy) (snd r).
Proof. exact (translate_rounded f t p). Qed.
Print Assumptions C145_translate.

(** A perspective matrix with horizon x = -1 and points on either side of it, and two affine matrices, that meet the hypotheses. *)
Definition P145 : list (list b64) := map (map bofZ) [[1; 0; 1]; [0; 1; 0]; [0; 0; 1]]%Z.
Definition A145 : list (list b64) := map (map bofZ) [[2; 1; 0]; [0; -3; 0]; [5; 7; 1]]%Z.
Lemma fin_rows (l : list (list Z)) : List.Forall (List.Forall (fun z => (Z.abs z < 2 ^ 53)%Z)) l -> List.Forall (List.Forall fin) (map (map bofZ) l).
Proof.
  intros H. induction H as [|r l Hr _ IH]; simpl; constructor; auto. clear - Hr. induction Hr as [|z r Hz _ IH]; simpl; constructor; auto. exact (proj1 (val_int z Hz)).
Qed.
Example C145_whole_example :
  int_matrix P145 [[1; 0; 1]; [0; 1; 0]; [0; 0; 1]]%Z /\ int_pt (bofZ 3, bofZ 5) (3, 5)%Z /\
  (exists r, applyToPoint P145 (bofZ 3, bofZ 5) = Ok r /\ nearest_double (3 / 4) (fst r) /\ nearest_double (5 / 4) (snd r)) /\
  applyToPoint P145 (bofZ (-1), bofZ 5) = Err ZeroDivisionError.
Proof.
  assert (I : int_matrix P145 [[1; 0; 1]; [0; 1; 0]; [0; 0; 1]]%Z) by (unfold int_matrix, P145; cbn [map]; repeat (apply Forall2_cons || apply Forall2_nil); apply int_lit; lia).
  assert (J : forall x y, (Z.abs x < 2 ^ 53)%Z -> (Z.abs y < 2 ^ 53)%Z -> int_pt (bofZ x, bofZ y) (x, y)) by (intros; split; cbn [fst snd]; apply int_lit; auto).
  split; [exact I|]. split; [apply J; lia|]. split.
  - destruct (C145_whole _ _ _ _ _ _ _ _ _ _ _ _ _ I (J 3%Z 5%Z ltac:(lia) ltac:(lia))) as [_ H]; [lia..|]. exact (H ltac:(lia)).
  - destruct (C145_whole _ _ _ _ _ _ _ _ _ _ _ _ _ I (J (-1)%Z 5%Z ltac:(lia) ltac:(lia))) as [H _]; [lia..|]. exact (H ltac:(lia)).
Qed.
Lemma vals145 : val (bofZ 0) = 0 /\ val (bofZ 1) = 1 /\ val (bofZ 2) = 2 /\ val (bofZ (-3)) = -3 /\ val (bofZ 5) = 5 /\ val (bofZ 7) = 7 /\ val (bofZ 3) = 3.
Proof. repeat split; apply val_int; lia. Qed.
Example C145_perspective_example : let p := (bofZ 3, bofZ 5) in matrix3 P145 /\ fin (fst p) /\ fin (snd p) /\ coord3 P145 2 (vpt p) = 4 /\
  size3 P145 0 (vpt p) = 3 /\ size3 P145 1 (vpt p) = 5 /\ size3 P145 2 (vpt p) = 4 /\ 2 * slip3 P145 2 (vpt p) <= Rabs 4.
Proof.
  destruct vals145 as (V0 & V1 & _ & _ & V5 & _ & V3). cbv zeta. split; [split; [split; [reflexivity|repeat constructor]|apply fin_rows; repeat (constructor; [repeat (constructor; [lia|]); constructor|]); constructor]|].
  assert (S : size3 P145 2 (vpt (bofZ 3, bofZ 5)) = 4).
  { unfold size3, P145, dentry, vpt. cbn [map nth fst snd]. rewrite V0, V1, V3, V5. rewrite Rabs_R0, Rabs_R1, !Rabs_pos_eq by lra. lra. }
  split; [exact (proj1 (val_int 3 ltac:(lia)))|]. split; [exact (proj1 (val_int 5 ltac:(lia)))|].
  split; [unfold coord3, P145, dentry, vpt; cbn [map nth fst snd]; rewrite V0, V1, V3, V5; lra|].
  split; [unfold size3, P145, dentry, vpt; cbn [map nth fst snd]; rewrite V0, V1, V3, V5; rewrite Rabs_R0, Rabs_R1, !Rabs_pos_eq by lra; lra|].
  split; [unfold size3, P145, dentry, vpt; cbn [map nth fst snd]; rewrite V0, V1, V3, V5; rewrite Rabs_R0, Rabs_R1, !Rabs_pos_eq by lra; lra|].
  split; [exact S|]. unfold slip3. rewrite S, Rabs_pos_eq by lra. pose proof ulp1_small. pose proof tiny_small. pose proof ulp1_pos. lra.
Qed.
Example C145_composed_example : affine_d A145 /\ msized 7 A145 /\ sized 5 (bofZ 3, bofZ 5) /\ affine_image A145 (affine_image A145 (3, 5)) = (27, 33).
Proof.
  destruct vals145 as (V0 & V1 & V2 & V3 & V5 & V7 & V33).
  split; [split; [split; [split; [reflexivity|repeat constructor]|apply fin_rows; repeat (constructor; [repeat (constructor; [lia|]); constructor|]); constructor]|]|].
  { unfold A145, dentry. cbn [map nth]. rewrite V0, V1. auto. }
  split; [|split].
  - assert (K : forall z, (Z.abs z <= 7)%Z -> fin (bofZ z) /\ Rabs (val (bofZ z)) <= 7).
    { intros z Z0. destruct (val_int z ltac:(lia)) as [F V]. rewrite V. split; [exact F|]. rewrite <- abs_IZR. now apply IZR_le. }
    unfold msized, A145. cbn [map]. repeat (constructor; [repeat (constructor; [apply K; lia|]); constructor|]); constructor.
  - apply (sized_int 5); lia.
  - unfold affine_image, coord3, A145, dentry. cbn [map nth fst snd]. rewrite V0, V1, V2, V3, V5, V7. f_equal; lra.
Qed.
