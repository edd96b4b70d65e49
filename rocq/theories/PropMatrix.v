(** Properties C24-C26, C29: MatrixInversion.py and the matrix functions of CurveFitting.py.
    C26 for any number type, the others over exact reals. *)
From Coq Require Import List ZArith QArith Bool Reals Lra Lia.
From Verif Require Import Py Inst SpecGeom SpecMatrix MTransform MMatrix MCurveFit ProofMatrix ProofFit.
Import ListNotations.
Local Open Scope R_scope.

(** ** C24 *)
Theorem C24_sound (n : nat) (M I : list (list R)) : (0 < n)%nat -> shape n n M -> matrixInvert M = Ok (Some I) ->
  shape n n I /\ inverse_of n M I /\ inverse_of n I M.
Proof. exact (invert_sound n M I). Qed.
Print Assumptions C24_sound.
(** A run that has to swap rows, on rationals. *)
Example C24_case : exists I, matrixInvert [[0; 2; 1]; [1; 1; 0]; [0; 0; 4]]%Q = Ok (Some I)
  /\ Forall2 (Forall2 Qeq) I [[-(1 # 2); 1; 1 # 8]; [1 # 2; 0; -(1 # 8)]; [0; 0; 1 # 4]]%Q.
Proof. eexists. split; [vm_compute; reflexivity|]. repeat constructor. Qed.

(** ** C25 *)
Theorem C25_none_only_if_singular (n : nat) (M : list (list R)) : (0 < n)%nat -> shape n n M ->
  exists o, matrixInvert M = Ok o /\ (o = None -> singular n M).
Proof. exact (invert_complete n M). Qed.
Print Assumptions C25_none_only_if_singular.
Theorem C25_invertible_is_inverted (n : nat) (M X : list (list R)) : (0 < n)%nat -> shape n n M -> shape n n X ->
  inverse_of n M X \/ inverse_of n X M ->
  exists I, matrixInvert M = Ok (Some I) /\ forall i j, (i < n)%nat -> (j < n)%nat -> entry I i j = entry X i j.
Proof. exact (invert_invertible n M X). Qed.
Print Assumptions C25_invertible_is_inverted.
Example C25_case : singular 2 [[1; 2]; [2; 4]] /\ inverse_of 2 [[0; 2]; [1; 0]] [[0; 1]; [1 / 2; 0]] /\
  shape 2 2 [[0; 2]; [1; 0]].
Proof.
  split; [|split].
  - exists (fun k => match k with O => 2 | _ => -1 end). split; [exists 0%nat; split; [lia|lra]|].
    intros [|[|i]] Hi; [| |lia]; unfold entry; simpl; lra.
  - intros [|[|i]] [|[|j]] Hi Hj; try lia; unfold prod_entry, entry; simpl; lra.
  - split; auto.
Qed.

(** ** C26 *)
Theorem C26_shapes {T} `{NumOps T} (M : list (list T)) :
  (M = [] -> matrixInvert M = Err IndexError) /\
  (forall r0 rest, M = r0 :: rest ->
    (length M <> length r0 -> matrixInvert M = Ok None) /\
    (length M = length r0 ->
       ((exists r, In r M /\ (length r < length r0)%nat) -> matrixInvert M = Err IndexError) /\
       ((forall r, In r M -> (length r0 <= length r)%nat) ->
          matrixInvert M = Ok None \/ exists I, matrixInvert M = Ok (Some I) /\ shape (length M) (length M) I))).
Proof. exact (invert_shapes M). Qed.
Print Assumptions C26_shapes.
Example C26_case : matrixInvert [[1; 2]; [3]]%Q = Err IndexError /\ matrixInvert [[1; 2; 3]; [4; 5; 6]]%Q = Ok None /\
  exists I, matrixInvert [[1; 2]; [3; 4; 5]]%Q = Ok (Some I) /\ shape 2 2 I.
Proof. split; [reflexivity|]. split; [reflexivity|]. eexists. split; [vm_compute; reflexivity|]. split; auto. Qed.

(** ** C29 *)
Theorem C29_multiply (a b c : nat) (A B : list (list R)) : (0 < b)%nat -> shape a b A -> shape b c B ->
  exists P, multiply A B = Ok P /\ shape a c P /\ is_prod a b c A B P.
Proof. exact (multiply_full a b c A B). Qed.
Print Assumptions C29_multiply.
Theorem C29_associative (a b c d : nat) (A B C : list (list R)) : (0 < b)%nat -> (0 < c)%nat ->
  shape a b A -> shape b c B -> shape c d C ->
  exists AB BC P, multiply A B = Ok AB /\ multiply B C = Ok BC /\ multiply AB C = Ok P /\ multiply A BC = Ok P.
Proof. exact (multiply_assoc a b c d A B C). Qed.
Print Assumptions C29_associative.
Theorem C29_unit (a b : nat) (A I : list (list R)) : (0 < b)%nat -> (0 < a)%nat -> shape a b A ->
  (is_id b I -> multiply A I = Ok A) /\ (is_id a I -> multiply I A = Ok A).
Proof. exact (multiply_id a b A I). Qed.
Print Assumptions C29_unit.
Theorem C29_transpose (r c : nat) (M : list (list R)) : (0 < r)%nat -> shape r c M ->
  exists N, transpose M = Ok N /\ shape c r N /\
    (forall i j, (i < r)%nat -> (j < c)%nat -> entry N j i = entry M i j) /\
    ((0 < c)%nat -> transpose N = Ok M).
Proof. exact (transpose_full r c M). Qed.
Print Assumptions C29_transpose.
Theorem C29_transpose_product (a b c : nat) (A B : list (list R)) :
  (0 < a)%nat -> (0 < b)%nat -> (0 < c)%nat -> shape a b A -> shape b c B ->
  exists P At Bt Pt, multiply A B = Ok P /\ transpose A = Ok At /\ transpose B = Ok Bt /\
    transpose P = Ok Pt /\ multiply Bt At = Ok Pt.
Proof. exact (transpose_prod a b c A B). Qed.
Print Assumptions C29_transpose_product.
(** Error behaviour.  Full claim: every mismatched pair raises IndexError.  What holds: an empty
    second factor and one that is too short do; transposing [] or a matrix with a row shorter than the
    first does. *)
Theorem C29_errors_partial (A B : list (list R)) :
  (A <> [] -> B = [] -> multiply A B = Err IndexError) /\
  (forall a b b' c, (0 < a)%nat -> (0 < b')%nat -> (0 < c)%nat -> (b' < b)%nat -> shape a b A -> shape b' c B ->
     multiply A B = Err IndexError) /\
  (A = [] -> transpose A = Err IndexError) /\
  (forall r0 rest, A = r0 :: rest -> (exists r, In r A /\ (length r < length r0)%nat) -> transpose A = Err IndexError).
Proof. exact (conj (proj1 (proj2 (multiply_errors A B))) (conj (proj2 (proj2 (multiply_errors A B))) (transpose_errors A))). Qed.
Print Assumptions C29_errors_partial.
(** A second factor with too many rows is accepted and its extra rows are ignored; multiply([], X) is []. *)
Theorem C29_mismatch_raises_refuted (a b c d : nat) (A B B' : list (list R)) :
  (0 < b)%nat -> shape a b A -> shape b c B -> shape d c B' ->
  (exists P, multiply A (B ++ B') = Ok P) /\ multiply A (B ++ B') = multiply A B /\ multiply [] B = Ok [].
Proof.
  exact (fun Hb SA SB SB' => conj (ex_intro _ _ (eq_trans (multiply_taller a b c d A B B' Hb SA SB SB') (multiply_ok a b c A B Hb SA SB)))
    (conj (multiply_taller a b c d A B B' Hb SA SB SB') eq_refl)).
Qed.
Print Assumptions C29_mismatch_raises_refuted.
Example C29_case : multiply [[1; 2]]%Q [[3; 4]; [5; 6]]%Q = Ok [[13; 16]]%Q /\
  multiply [[1; 2]]%Q [[3; 4]; [5; 6]; [7; 8]]%Q = Ok [[13; 16]]%Q /\
  multiply [[1; 2]]%Q [[3; 4]]%Q = Err IndexError /\
  transpose [[1; 2]; [3; 4]; [5; 6]]%Q = Ok [[1; 3; 5]; [2; 4; 6]]%Q.
Proof. repeat split. Qed.
