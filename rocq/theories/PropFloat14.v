(** Property C142: products and transposes of matrices (CurveFitting.py) in IEEE double precision.  [ulp1] is 2^-53, [tiny] 2^-1075. *)
From Coq Require Import List ZArith Bool Reals Lra Lia.
From Flocq Require Import Core BinarySingleNaN.
From Verif Require Import Py InstFloat SpecMatrix SpecDouble SpecDouble7 MCurveFit ProofDouble ProofDouble22.
Import ListNotations.
Local Open Scope R_scope.

(** ** C142.  The product of an a x k and a k x c matrix with entries of at most [al] and [be] is computed without an exception or
    an overflow, and each entry is right to 2 k (k + 1) units of rounding of [al * be] and 4 k of underflow. *)
Theorem C142_product a k c al be (A B : list (list b64)) : (0 < k)%nat -> shape a k A -> shape k c B -> msized al A -> msized be B ->
  0 <= al -> 0 <= be -> al * be <= 2 ^ 900 -> INR k <= 2 ^ 20 ->
  exists P, multiply A B = Ok P /\ shape a c P /\
    forall i j, (i < a)%nat -> (j < c)%nat -> fin (dentry P i j) /\
      Rabs (val (dentry P i j) - prod_entry k (vmat A) (vmat B) i j) <= 2 * ulp1 * (INR k * (INR k + 1)) * (al * be) + 4 * INR k * tiny.
Proof. exact (product_near a k c al be A B). Qed.
Print Assumptions C142_product.

(** Whole numbers whose products cannot add up to 2^53 are multiplied exactly. *)
Theorem C142_whole a k c al be (A B : list (list b64)) : (0 < k)%nat -> shape a k A -> shape k c B -> msized al A -> msized be B ->
  0 <= al -> 0 <= be -> INR k * (al * be) < 2 ^ 53 -> mwhole A -> mwhole B ->
  exists P, multiply A B = Ok P /\ shape a c P /\ mwhole P /\
    forall i j, (i < a)%nat -> (j < c)%nat -> fin (dentry P i j) /\ val (dentry P i j) = prod_entry k (vmat A) (vmat B) i j.
Proof. exact (product_whole a k c al be A B). Qed.
Print Assumptions C142_whole.

(** The unit matrix changes nothing, on either side. *)
Theorem C142_unit_left n c b (I B : list (list b64)) : (0 < n)%nat -> dunit n I -> shape n c B -> msized b B ->
  exists P, multiply I B = Ok P /\ shape n c P /\ forall i j, (i < n)%nat -> (j < c)%nat -> fin (dentry P i j) /\ val (dentry P i j) = val (dentry B i j).
Proof. exact (unit_left n c b I B). Qed.
Print Assumptions C142_unit_left.
Theorem C142_unit_right n r b (A I : list (list b64)) : (0 < n)%nat -> dunit n I -> shape r n A -> msized b A ->
  exists P, multiply A I = Ok P /\ shape r n P /\ forall i j, (i < r)%nat -> (j < n)%nat -> fin (dentry P i j) /\ val (dentry P i j) = val (dentry A i j).
Proof. exact (unit_right n r b A I). Qed.
Print Assumptions C142_unit_right.

(** Transposing moves the entries, bit for bit and whatever they are, and twice is not at all. *)
Theorem C142_transpose r c (M : list (list b64)) : (0 < r)%nat -> shape r c M ->
  exists N, transpose M = Ok N /\ shape c r N /\ (forall i j, (i < r)%nat -> (j < c)%nat -> dentry N j i = dentry M i j) /\ ((0 < c)%nat -> transpose N = Ok M).
Proof. exact (transpose_double r c M). Qed.
Print Assumptions C142_transpose.
(** The transpose of a product is the product of the transposes the other way round, to the last bit: infinities and NaNs included. *)
Theorem C142_transpose_product a k c (A B : list (list b64)) : (0 < a)%nat -> (0 < k)%nat -> (0 < c)%nat -> shape a k A -> shape k c B ->
  exists P At Bt Pt, multiply A B = Ok P /\ transpose A = Ok At /\ transpose B = Ok Bt /\ transpose P = Ok Pt /\ multiply Bt At = Ok Pt.
Proof. exact (transpose_product a k c A B). Qed.
Print Assumptions C142_transpose_product.

(** Two whole-number matrices that meet every hypothesis. *)
Definition A142 : list (list b64) := map (map bofZ) [[1; 0]; [-3; 3]]%Z.
Definition B142 : list (list b64) := map (map bofZ) [[2; 5; 1]; [4; -6; 7]]%Z.
Lemma sized_ints (b : Z) (l : list (list Z)) : (b < 2 ^ 53)%Z -> List.Forall (List.Forall (fun z => (Z.abs z <= b)%Z)) l ->
  msized (IZR b) (map (map bofZ) l) /\ mwhole (map (map bofZ) l).
Proof.
  intros B H. assert (K : forall z, (Z.abs z <= b)%Z -> (fin (bofZ z) /\ Rabs (val (bofZ z)) <= IZR b) /\ exists y, val (bofZ z) = IZR y).
  { intros z Z0. destruct (val_int z ltac:(lia)) as [F V]. rewrite V. split; [split; [exact F | rewrite <- abs_IZR; now apply IZR_le]|eauto]. }
  induction H as [|r l Hr Hl [IH1 IH2]]; [split; constructor|]. unfold msized, mwhole in *. simpl.
  assert (G : List.Forall (fun x => fin x /\ Rabs (val x) <= IZR b) (map bofZ r) /\ List.Forall (fun x => exists y, val x = IZR y) (map bofZ r)).
  { clear - Hr K. induction Hr as [|z r Hz Hr [J1 J2]]; [split; constructor|]. destruct (K z Hz). simpl. split; constructor; auto. }
  destruct G. split; constructor; auto.
Qed.
Example C142_whole_example : shape 2 2 A142 /\ shape 2 3 B142 /\ msized 3 A142 /\ msized 7 B142 /\ mwhole A142 /\ mwhole B142 /\ INR 2 * (3 * 7) < 2 ^ 53 /\
  match multiply A142 B142 with Ok [[a; b; c]; [d; e; f]] => neqb a (bofZ 2) && neqb b (bofZ 5) && neqb c (bofZ 1) && neqb d (bofZ 6) && neqb e (bofZ (-33)) && neqb f (bofZ 18) | _ => false end = true.
Proof.
  destruct (sized_ints 3 [[1; 0]; [-3; 3]]%Z) as [SA WA]; [lia | repeat constructor; lia|].
  destruct (sized_ints 7 [[2; 5; 1]; [4; -6; 7]]%Z) as [SB WB]; [lia | repeat constructor; lia|].
  split; [split; repeat constructor|]. split; [split; repeat constructor|]. repeat (split; [assumption|]).
  split; [simpl; lra|]. vm_compute. reflexivity.
Qed.
(** The rounding is real: 0.1 * 3 is not 0.3 but the next double up, and three tenths added one by one likewise. *)
Example C142_rounding_example : let t := nquot (bofZ 1) (bofZ 10) in
  match multiply [[t]] [[bofZ 3]], multiply [[t; t; t]] [[bofZ 1]; [bofZ 1]; [bofZ 1]] with
  | Ok [[x]], Ok [[y]] => nltb (nquot (bofZ 3) (bofZ 10)) x && neqb x y && nltb (nsub x (nquot (bofZ 3) (bofZ 10))) (nquot (bofZ 1) (bofZ (10 ^ 16)))
  | _, _ => false end = true.
Proof. vm_compute. reflexivity. Qed.
(** Without the bound on the sizes: 2^600 times 2^600 is infinite, and infinity less infinity no number. *)
Example C142_overflow_example : let h := bofZ (2 ^ 600) in
  match multiply [[h; nopp h]] [[h]; [h]] with Ok [[x]] => is_nan x | _ => false end = true.
Proof. vm_compute. reflexivity. Qed.
(** A unit matrix. *)
Example C142_unit_example : dunit 2 (map (map bofZ) [[1; 0]; [0; 1]]%Z) /\ msized 7 B142.
Proof.
  split; [|apply (sized_ints 7 [[2; 5; 1]; [4; -6; 7]]%Z); [lia | repeat constructor; lia]].
  destruct (val_int 0 ltac:(lia)), (val_int 1 ltac:(lia)). split; [split; repeat constructor|].
  intros [|[|i]] [|[|j]] Hi Hj; try lia; split; assumption.
Qed.
