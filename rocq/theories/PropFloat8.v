(** Property C123: derivatives, tangents, normals and offset points in IEEE double precision.  [math.sqrt] is correctly
    rounded (IEEE 754); [math.hypot] is accurate to the fraction [e]. *)
From Coq Require Import List ZArith Bool Reals Lra Lia.
From Flocq Require Import Core BinarySingleNaN.
From Verif Require Import Py InstFloat SpecGeom SpecBezier SpecCurve SpecDouble SpecDouble3 MBezUtil MBezier ProofDouble ProofDouble2 ProofDouble9 ProofDouble17.
Import ListNotations.
Local Open Scope R_scope.
#[local] Existing Instance InstFloat.prec_gt_0.
#[local] Existing Instance InstFloat.prec_lt_emax.

(** ** C123 *)
Theorem C123_derivative (TO : TrigOps b64) (b : bezier b64) (t : b64) (M : R) (D : pt) : (length (cps b) = 3 \/ length (cps b) = 4)%nat -> Forall (sized M) (cps b) ->
  fin t -> 0 <= val t <= 1 -> M <= 2 ^ 1000 -> is_deriv (curve (map vpt (cps b))) (val t) D ->
  exists d, derivative b t = Ok d /\ off (73 * ulp1 * M + 50 * tiny) d D.
Proof. intros L S F T. exact (derivative_doubles b t M L S F T D). Qed.
Print Assumptions C123_derivative.
Theorem C123_normal (TO : TrigOps b64) (b : bezier b64) (t : b64) (M : R) (D N : pt) : (length (cps b) = 3 \/ length (cps b) = 4)%nat -> Forall (sized M) (cps b) ->
  fin t -> 0 <= val t <= 1 -> (forall x : b64, tsqrt x = Bsqrt mode_NE x) -> M <= 2 ^ 490 ->
  is_deriv (curve (map vpt (cps b))) (val t) D -> left_normal D N ->
  let z := 73 * ulp1 * M + 50 * tiny in let l := vdist D (0, 0) in 4 * z <= l -> / 2 ^ 390 <= l ->
  exists n, normal b t = Ok n /\ off (4 * ulp1 + 3 * z / l) n N.
Proof. intros L S F T. exact (normal_doubles b t M L S F T D N). Qed.
Print Assumptions C123_normal.
Theorem C123_tangent (TO : TrigOps b64) (b : bezier b64) (t : b64) (M e : R) (D N : pt) : (length (cps b) = 3 \/ length (cps b) = 4)%nat -> Forall (sized M) (cps b) ->
  fin t -> 0 <= val t <= 1 -> 0 <= e <= / 100 -> hypot_within e thypot -> M <= 2 ^ 490 ->
  is_deriv (curve (map vpt (cps b))) (val t) D -> left_normal D N ->
  let z := 73 * ulp1 * M + 50 * tiny in let l := vdist D (0, 0) in 4 * z <= l -> / 2 ^ 390 <= l ->
  exists u n, tangent b t = Ok u /\ normal_ b t = Ok n /\ off (2 * (e + ulp1) + 3 * z / l) u (vscale (/ l) D) /\ off (2 * (e + ulp1) + 3 * z / l) n N.
Proof. intros L S F T. exact (tangent_doubles b t M L S F T e D N). Qed.
Print Assumptions C123_tangent.
Theorem C123_offset (TO : TrigOps b64) (fuel : nat) (b : bezier b64) (t k : b64) (M : R) (D N : pt) : (length (cps b) = 3 \/ length (cps b) = 4)%nat -> Forall (sized M) (cps b) ->
  fin t -> 0 <= val t <= 1 -> (forall x : b64, tsqrt x = Bsqrt mode_NE x) -> M <= 2 ^ 490 ->
  is_deriv (curve (map vpt (cps b))) (val t) D -> left_normal D N ->
  let z := 73 * ulp1 * M + 50 * tiny in let l := vdist D (0, 0) in 4 * z <= l -> / 2 ^ 390 <= l ->
  fin k -> val k <> 0 -> Rabs (val k) <= 2 ^ 490 ->
  exists c n p, offset fuel b t (Some k) = Ok (OPoints c n p) /\ off (10 * ulp1 * M + 32 * tiny) c (curve (map vpt (cps b)) (val t)) /\ off (4 * ulp1 + 3 * z / l) n N /\
    off (12 * ulp1 * M + Rabs (val k) * (9 * ulp1 + 3 * z / l) + 40 * tiny) p (vadd (curve (map vpt (cps b)) (val t)) (vscale (val k) N)).
Proof. intros L S F T. exact (offset_doubles b t M L S F T fuel k D N). Qed.
Print Assumptions C123_offset.
(** Where the first two control points coincide there is no normal at the start. *)
Theorem C123_no_normal (TO : TrigOps b64) (b : bezier b64) (M : R) : (forall x : b64, tsqrt x = Bsqrt mode_NE x) ->
  (length (cps b) = 3 \/ length (cps b) = 4)%nat -> Forall (sized M) (cps b) -> M <= 2 ^ 1000 ->
  vpt (nth 0 (cps b) (bofZ 0, bofZ 0)) = vpt (nth 1 (cps b) (bofZ 0, bofZ 0)) -> normal b (bofZ 0) = Err ZeroDivisionError.
Proof. intros HS. exact (normal_start HS b M). Qed.
Print Assumptions C123_no_normal.
(** An arch: in its middle it moves to the right with speed 900, and the normal points up. *)
Example C123_case : let b := mkBez [(bofZ 0, bofZ 0); (bofZ 200, bofZ 900); (bofZ 600, bofZ 900); (bofZ 800, bofZ 0)] (bofZ 0) (bofZ 1) in let t := nquot (bofZ 1) (bofZ 2) in
  (length (cps b) = 3 \/ length (cps b) = 4)%nat /\ Forall (sized (IZR 900)) (cps b) /\ fin t /\ val t = / 2 /\ IZR 900 <= 2 ^ 490 /\
  is_deriv (curve (map vpt (cps b))) (val t) (900, 0) /\ left_normal (900, 0) (0, 1) /\ vdist (900, 0) (0, 0) = 900 /\
  4 * (73 * ulp1 * IZR 900 + 50 * tiny) <= 900 /\ / 2 ^ 390 <= 900 /\ val (bofZ 10) <> 0 /\ Rabs (val (bofZ 10)) <= 2 ^ 490.
Proof.
  intros b t. destruct (val_int 0 eq_refl) as [F0 V0]. destruct (val_int 1 eq_refl) as [F1 V1]. destruct (val_int 2 eq_refl) as [F2 V2]. destruct (val_int 200 eq_refl) as [_ V200]. destruct (val_int 600 eq_refl) as [_ V6]. destruct (val_int 800 eq_refl) as [_ V8]. destruct (val_int 900 eq_refl) as [_ V9]. destruct (val_int 10 eq_refl) as [_ V10].
  assert (P4 : forall n, (10 <= n)%nat -> 1024 <= 2 ^ n) by (intros n Hn; replace 1024 with (2 ^ 10) by (cbn; lra); apply Rle_pow; [lra | exact Hn]).
  assert (Ft : fin t) by (vm_compute; reflexivity). assert (Vt : val t = / 2) by (unfold val, t; cbv -[Rdiv Rmult Rplus Rinv IZR Ropp Rminus]; lra).
  split; [right; reflexivity|]. split; [repeat (apply Forall_cons; [apply sized_int; lia|]); apply Forall_nil|]. split; [exact Ft|]. split; [exact Vt|]. split; [pose proof (P4 490%nat ltac:(lia)); lra|]. split.
  - replace (900, 0) with (curve (legs (map vpt (cps b))) (val t)); [apply ProofBezier2.curve_deriv; simpl; lia|]. rewrite Vt. unfold b, legs, vpt. cbn [cps map length Nat.sub dcLevel fst snd]. rewrite V0, V200, V6, V8, V9, ProofBezier.curve3.
    unfold diffStep. cbn [fst snd]. change (@nofZ R Inst.RNum (Z.of_nat 3)) with 3. Inst.numRg. f_equal; lra.
  - split; [unfold left_normal, vdot, vcross; cbn [fst snd]; lra|]. split; [unfold vdist, dist2; cbn [fst snd]; replace (_ + _) with (900 * 900) by ring; apply sqrt_square; lra|].
    split; [pose proof ulp_num; pose proof ProofDouble10.tiny_60; lra|]. split; [|rewrite V10; split; [lra | rewrite Rabs_pos_eq by lra; pose proof (P4 490%nat ltac:(lia)); lra]].
    rewrite <- (Rinv_inv 900). apply Rinv_le; [apply Rinv_0_lt_compat; lra|]. pose proof (P4 390%nat ltac:(lia)). lra.
Qed.
Example C123_case2 : let b := mkBez [(bofZ 5, bofZ 7); (bofZ 5, bofZ 7); (bofZ 600, bofZ 900); (bofZ 800, bofZ 0)] (bofZ 0) (bofZ 1) in
  (length (cps b) = 3 \/ length (cps b) = 4)%nat /\ Forall (sized (IZR 900)) (cps b) /\ IZR 900 <= 2 ^ 1000 /\
  vpt (nth 0 (cps b) (bofZ 0, bofZ 0)) = vpt (nth 1 (cps b) (bofZ 0, bofZ 0)).
Proof.
  intros b. split; [right; reflexivity|]. split; [repeat (apply Forall_cons; [apply sized_int; lia|]); apply Forall_nil|]. split; [|reflexivity].
  apply Rle_trans with (2 ^ 10); [cbn [pow]; lra | apply Rle_pow; [lra | lia]].
Qed.
