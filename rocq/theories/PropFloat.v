(** Properties C101-C105: the arithmetic of IEEE double precision (Python's float).
    [ulp1] is 2^-53, [tiny] is 2^-1075. *)
From Coq Require Import List ZArith Bool Reals Lra Lia.
From Flocq Require Import Core BinarySingleNaN.
From Verif Require Import Py InstFloat SpecGeom SpecBezier SpecDouble MTransform MBezier MContour ProofDouble ProofDouble2.
Import ListNotations.
Local Open Scope R_scope.

(** ** C101 *)
Theorem C101_accuracy (b : bezier b64) (t : b64) (M : R) : (1 <= order b <= 3)%nat -> Forall (sized M) (cps b) -> M <= 2 ^ 1020 ->
  fin t -> 0 <= val t <= 1 ->
  exists p, get b t = Ok p /\ off (10 * ulp1 * M + 32 * tiny) p (curve (map vpt (cps b)) (val t)).
Proof. exact (get_accuracy b t M). Qed.
Print Assumptions C101_accuracy.
Theorem C101_higher_order (b : bezier b64) (t : b64) (M : R) : (4 <= order b)%nat -> INR (order b) <= 2 ^ 40 -> Forall (sized M) (cps b) -> M <= 2 ^ 1020 ->
  fin t -> 0 <= val t <= 1 ->
  exists p, get b t = Ok p /\ off (7 * INR (order b) * ulp1 * M + 5 * INR (order b) * tiny) p (curve (map vpt (cps b)) (val t)).
Proof. exact (get_accuracy_high b t M). Qed.
Print Assumptions C101_higher_order.
Example C101_case : let t := nquot (bofZ 1) (bofZ 2) in
  let b := mkBez [(bofZ 0, bofZ 0); (bofZ 100, bofZ 400); (bofZ 300, bofZ (-400)); (bofZ 500, bofZ 0)] (bofZ 0) (bofZ 1) in
  (1 <= order b <= 3)%nat /\ Forall (sized 500) (cps b) /\ 500 <= 2 ^ 1020 /\ fin t /\ 0 <= val t <= 1.
Proof.
  destruct half_val as [F V]. cbv zeta. split; [cbn; lia|]. split; [|split; [apply (Rle_trans _ (2 ^ 9)); [lra | apply Rle_pow; [lra | lia]]|split; [exact F | rewrite V; lra]]].
  cbn [cps]. repeat (apply Forall_cons; [apply sized_int; lia|]). apply Forall_nil.
Qed.

(** ** C102 *)
Theorem C102_affine_accuracy (a b c d m n p q s x y : b64) :
  Forall fin [a; b; c; d; m; n; p; q; s; x; y] -> val p = 0 -> val q = 0 -> val s = 1 ->
  let Sx := Rabs (val x) * Rabs (val a) + Rabs (val y) * Rabs (val c) + Rabs (val m) in
  let Sy := Rabs (val x) * Rabs (val b) + Rabs (val y) * Rabs (val d) + Rabs (val n) in
  Sx <= 2 ^ 1020 -> Sy <= 2 ^ 1020 ->
  exists r, applyToPoint [[a; b; p]; [c; d; q]; [m; n; s]] (x, y) = Ok r /\ fin (fst r) /\ fin (snd r) /\
    Rabs (val (fst r) - (val x * val a + val y * val c + val m)) <= 4 * ulp1 * Sx + 8 * tiny /\
    Rabs (val (snd r) - (val x * val b + val y * val d + val n)) <= 4 * ulp1 * Sy + 8 * tiny.
Proof. exact (affine_accuracy a b c d m n p q s x y). Qed.
Print Assumptions C102_affine_accuracy.
Example C102_case : let h := nquot (bofZ 1) (bofZ 2) in
  Forall fin [h; bofZ 0; bofZ 0; bofZ 3; bofZ 7; bofZ (-2); bofZ 0; bofZ 0; bofZ 1; bofZ 11; bofZ 5] /\ val (bofZ 0) = 0 /\ val (bofZ 1) = 1 /\
  Rabs (val (bofZ 11)) * Rabs (val h) + Rabs (val (bofZ 5)) * Rabs (val (bofZ 0)) + Rabs (val (bofZ 7)) <= 2 ^ 1020.
Proof.
  destruct half_val as [F V]. cbv zeta. split; [repeat apply Forall_cons; try apply Forall_nil; try exact F; apply val_int; lia|].
  rewrite V, !(fun z H => proj2 (val_int z H)) by lia. repeat split. apply (Rle_trans _ (2 ^ 9)); [|apply Rle_pow; [lra | lia]].
  rewrite !Rabs_pos_eq by lra. lra.
Qed.

(** ** C103 *)
Theorem C103_apply (mx : list (list b64)) (pt : point b64) (a b c d m n x y : Z) :
  int_matrix mx [[a; b; 0]; [c; d; 0]; [m; n; 1]]%Z -> int_pt pt (x, y) ->
  (Z.abs x * Z.abs a + Z.abs y * Z.abs c + Z.abs m < 2 ^ 53)%Z -> (Z.abs x * Z.abs b + Z.abs y * Z.abs d + Z.abs n < 2 ^ 53)%Z ->
  exists r, applyToPoint mx pt = Ok r /\ int_pt r (x * a + y * c + m, x * b + y * d + n)%Z.
Proof. exact (apply_int mx pt a b c d m n x y). Qed.
Print Assumptions C103_apply.
Theorem C103_product (m1 m2 : list (list b64)) (a b p c d q m n s a' b' p' c' d' q' m' n' s' A B : Z) :
  let z1 := [[a; b; p]; [c; d; q]; [m; n; s]] in let z2 := [[a'; b'; p']; [c'; d'; q']; [m'; n'; s']] in
  int_matrix m1 z1 -> int_matrix m2 z2 -> Forall (Forall (fun z => Z.abs z <= A)%Z) z1 -> Forall (Forall (fun z => Z.abs z <= B)%Z) z2 -> (3 * (A * B) < 2 ^ 53)%Z ->
  exists r, multiplyMatrixByMatrix m1 m2 = Ok r /\ int_matrix r
    [[a * a' + b * c' + p * m'; a * b' + b * d' + p * n'; a * p' + b * q' + p * s'];
     [c * a' + d * c' + q * m'; c * b' + d * d' + q * n'; c * p' + d * q' + q * s'];
     [m * a' + n * c' + s * m'; m * b' + n * d' + s * n'; m * p' + n * q' + s * s']]%Z.
Proof. exact (product_ints m1 m2 a b p c d q m n s a' b' p' c' d' q' m' n' s' A B). Qed.
Print Assumptions C103_product.
Theorem C103_translate (fx fy tx ty x y : Z) (f t p : point b64) : int_pt f (fx, fy) -> int_pt t (tx, ty) -> int_pt p (x, y) ->
  (Z.abs tx + Z.abs fx + Z.abs x < 2 ^ 53)%Z -> (Z.abs ty + Z.abs fy + Z.abs y < 2 ^ 53)%Z ->
  exists m r, translate f t = Ok m /\ applyToPoint m p = Ok r /\ int_pt r (x + (tx - fx), y + (ty - fy))%Z.
Proof. exact (translate_int fx fy tx ty x y f t p). Qed.
Print Assumptions C103_translate.
Theorem C103_scale (sx sy x y : Z) (fx fy : b64) (p : point b64) : is_int fx sx -> is_int fy sy -> int_pt p (x, y) ->
  (Z.abs (sx * x) < 2 ^ 53)%Z -> (Z.abs (sy * y) < 2 ^ 53)%Z ->
  exists m r, scale fx fy = Ok m /\ applyToPoint m p = Ok r /\ int_pt r (sx * x, sy * y)%Z.
Proof. exact (scale_int sx sy x y fx fy p). Qed.
Print Assumptions C103_scale.
Theorem C103_mirrorAround (cx cy x y : Z) (c p : point b64) (xAxis yAxis : bool) : int_pt c (cx, cy) -> int_pt p (x, y) ->
  (Z.abs cx <= 2 ^ 24)%Z -> (Z.abs cy <= 2 ^ 24)%Z -> (Z.abs x <= 2 ^ 51)%Z -> (Z.abs y <= 2 ^ 51)%Z ->
  exists m r, mirrorAround c xAxis yAxis = Ok m /\ applyToPoint m p = Ok r /\
    int_pt r (if yAxis then 2 * cx - x else x, if xAxis then 2 * cy - y else y)%Z.
Proof. exact (mirror_int cx cy x y c p xAxis yAxis). Qed.
Print Assumptions C103_mirrorAround.
Example C103_case : int_pt (bofZ 512, bofZ (-30)) (512, -30)%Z /\ int_pt (bofZ 1033, bofZ 700) (1033, 700)%Z /\ is_int (bofZ (-3)) (-3) /\
  int_matrix (map (map bofZ) [[2; 1; 0]; [-1; 3; 0]; [10; 20; 1]]%Z) [[2; 1; 0]; [-1; 3; 0]; [10; 20; 1]]%Z /\
  (Z.abs 1033 * Z.abs 2 + Z.abs 700 * Z.abs (-1) + Z.abs 10 < 2 ^ 53)%Z.
Proof.
  split; [split; cbn [fst snd]; apply val_int; lia|]. split; [split; cbn [fst snd]; apply val_int; lia|]. split; [apply val_int; lia|].
  split; [repeat (apply Forall2_cons || apply Forall2_nil); apply val_int; lia | lia].
Qed.

(** ** C104 *)
Theorem C104_accuracy (b : bezier b64) (t : b64) (M : R) : (length (cps b) = 3 \/ length (cps b) = 4)%nat -> fin t -> 0 <= val t <= 1 ->
  Forall (sized M) (cps b) -> M <= 2 ^ 1020 ->
  exists l r h, split1 b t = Ok (l, r, h) /\ order l = order b /\ order r = order b /\
    bstart l = bstart b /\ bend r = bend b /\ bend l = bstart r /\
    forall s, 0 <= s <= 1 -> let e := 21 * ulp1 * M + 15 * tiny in
      (let p := curve (map vpt (cps l)) s in let q := curve (map vpt (cps b)) (val t * s) in
       Rabs (fst p - fst q) <= e /\ Rabs (snd p - snd q) <= e) /\
      (let p := curve (map vpt (cps r)) s in let q := curve (map vpt (cps b)) (val t + (1 - val t) * s) in
       Rabs (fst p - fst q) <= e /\ Rabs (snd p - snd q) <= e).
Proof. exact (split_accuracy b t M). Qed.
Print Assumptions C104_accuracy.
Theorem C104_halving_exact (b : bezier b64) (t : b64) : (length (cps b) = 3 \/ length (cps b) = 4)%nat -> fin t -> val t = / 2 ->
  Forall (fun p => exists zx zy, int_pt p (zx, zy) /\ (Z.abs zx <= 2 ^ 47)%Z /\ (Z.abs zy <= 2 ^ 47)%Z) (cps b) ->
  exists l r h, split1 b t = Ok (l, r, h) /\ order l = order b /\ order r = order b /\
    (forall s, curve (map vpt (cps l)) s = curve (map vpt (cps b)) (s / 2)) /\
    (forall s, curve (map vpt (cps r)) s = curve (map vpt (cps b)) (/ 2 + s / 2)).
Proof. exact (split_half b t). Qed.
Print Assumptions C104_halving_exact.
Example C104_case : let t := nquot (bofZ 1) (bofZ 2) in fin t /\ val t = / 2 /\
  exists zx zy, int_pt (bofZ 101, bofZ (-7)) (zx, zy) /\ (Z.abs zx <= 2 ^ 47)%Z /\ (Z.abs zy <= 2 ^ 47)%Z.
Proof. split; [apply half_val|]. split; [apply half_val|]. exists 101%Z, (-7)%Z. split; [split; cbn [fst snd]; apply val_int; lia | lia]. Qed.

(** ** C105 *)
Theorem C105_table (b : bezier b64) (M : R) (steps : Z) : (1 <= order b <= 3)%nat -> Forall (sized M) (cps b) -> M <= 2 ^ 1020 ->
  (2 <= steps <= 2 ^ 53)%Z ->
  exists l, getLUT b steps = Ok l /\ length l = Z.to_nat steps /\ forall i, (i < Z.to_nat steps)%nat ->
    exists p s, nth_error l i = Some p /\ 0 <= s <= 1 /\ Rabs (s - INR i / (IZR steps - 1)) <= 2 * ulp1 /\
      off (10 * ulp1 * M + 32 * tiny) p (curve (map vpt (cps b)) s) /\
      (i = 0%nat -> s = 0 /\ bstart b = Ok p) /\ (i = (Z.to_nat steps - 1)%nat -> s = 1 /\ bend b = Ok p).
Proof. exact (table_accuracy b M steps). Qed.
Print Assumptions C105_table.
Example C105_case : Forall (sized 9) [(bofZ 0, bofZ 1); (bofZ 9, bofZ (-5))] /\ 9 <= 2 ^ 1020.
Proof.
  split; [|apply (Rle_trans _ (2 ^ 9)); [lra | apply Rle_pow; [lra | lia]]].
  repeat (apply Forall_cons; [apply sized_int; lia|]). apply Forall_nil.
Qed.
