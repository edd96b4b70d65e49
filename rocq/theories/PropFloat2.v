(** Properties C106-C108: bounding boxes and curve intersection in IEEE double precision.
    [ulp1] is 2^-53, [tiny] is 2^-1075.  [FTrig] fixes the square root to the correctly rounded one and
    leaves the other library functions, which play no part here, arbitrary. *)
From Coq Require Import List ZArith Bool Reals Lra Lia.
From Flocq Require Import Core BinarySingleNaN.
From Verif Require Import Py InstFloat SpecGeom SpecBezier SpecCurve SpecDouble MTransform MBounds MBezUtil MBezier
  ProofDouble ProofDouble2 ProofDouble3 ProofDouble4 ProofDouble5 ProofDouble6 ProofDouble7.
Import ListNotations.
Local Open Scope R_scope.

(** ** C106 *)
Theorem C106_pair_terminates (TO : TrigOps b64) (thr : b64) (M : R) (c1 c2 : bezier b64) (k fuel : nat) :
  (length (cps c1) = 3 \/ length (cps c1) = 4)%nat -> (length (cps c2) = 3 \/ length (cps c2) = 4)%nat ->
  Forall (sized M) (cps c1) -> Forall (sized M) (cps c2) -> M <= 32768 ->
  fin thr -> M / 2 ^ 43 <= val thr -> / 2 ^ 1000 <= val thr -> 24 * M <= 2 ^ k * val thr -> (k < fuel)%nat ->
  exists res, pairiteration fuel thr c1 c2 = Ok res.
Proof. exact (pair_endsF thr M c1 c2 k fuel). Qed.
Print Assumptions C106_pair_terminates.
Theorem C106_terminates (TO : TrigOps b64) (thr : b64) (M : R) (c1 c2 : list (bezier b64)) (fuel : nat) :
  Forall (fun c => (length (cps c) = 3 \/ length (cps c) = 4)%nat /\ Forall (sized M) (cps c)) c1 ->
  Forall (fun c => (length (cps c) = 3 \/ length (cps c) = 4)%nat /\ Forall (sized M) (cps c)) c2 -> M <= 32768 ->
  fin thr -> M / 2 ^ 43 <= val thr -> / 2 ^ 1000 <= val thr -> (49 <= fuel)%nat ->
  exists res, curveIntersects fuel thr c1 c2 = Ok res.
Proof. exact (curves_end49 thr M c1 c2 fuel). Qed.
Print Assumptions C106_terminates.
Theorem C106_fine_threshold_diverges (TO : TrigOps b64) (thr : b64) : fin thr -> val thr <= / 2 ^ 37 ->
  exists c1 c2, length (cps c1) = 3%nat /\ length (cps c2) = 3%nat /\ Forall (sized 16385) (cps c1) /\ Forall (sized 16385) (cps c2) /\
    forall fuel, curveIntersects fuel thr [c1] [c2] = Err RecursionError.
Proof. exact (fine_diverges thr). Qed.
Print Assumptions C106_fine_threshold_diverges.
Example C106_case : let thr := nquot (bofZ 1) (bofZ 2) in let c := mkBez [(bofZ 0, bofZ 0); (bofZ 400, bofZ (-30)); (bofZ 1000, bofZ 700)] (bofZ 0) (bofZ 1) in
  (length (cps c) = 3 \/ length (cps c) = 4)%nat /\ Forall (sized 1000) (cps c) /\ 1000 <= 32768 /\
  fin thr /\ 1000 / 2 ^ 43 <= val thr /\ / 2 ^ 1000 <= val thr /\ 24 * 1000 <= 2 ^ 16 * val thr.
Proof.
  destruct half_val as [F V]. cbv zeta. split; [now left|]. split; [cbn [cps]; repeat (apply Forall_cons; [apply sized_int; lia|]); apply Forall_nil|].
  split; [lra|]. split; [exact F|]. rewrite V. split; [lra|]. split; [|lra].
  rewrite <- (pow_1 2) at 2. apply Rinv_le_contravar; [apply pow_lt; lra | apply Rle_pow; [lra | lia]].
Qed.

(** ** C107 *)
Theorem C107_not_too_large (TO : TrigOps b64) (b : bezier b64) (M xlo xhi ylo yhi : R) : (length (cps b) = 3 \/ length (cps b) = 4)%nat -> Forall (sized M) (cps b) -> M <= 32768 ->
  (forall p, In p (cps b) -> xlo <= val (fst p) <= xhi /\ ylo <= val (snd p) <= yhi) -> - M <= xlo -> xhi <= M -> - M <= ylo -> yhi <= M ->
  exists r, boundsRectangle b = Ok r /\ let e := 10 * ulp1 * M + 32 * tiny in
    xlo - e <= val (left r) /\ val (right r) <= xhi + e /\ ylo - e <= val (bottom r) /\ val (MBounds.top r) <= yhi + e /\
    fin (left r) /\ fin (right r) /\ fin (bottom r) /\ fin (MBounds.top r).
Proof. exact (box_small b M xlo xhi ylo yhi). Qed.
Print Assumptions C107_not_too_large.
Theorem C107_quadratic_covers (TO : TrigOps b64) (b : bezier b64) (M : R) : length (cps b) = 3%nat -> Forall (sized M) (cps b) -> M <= 32768 ->
  exists r, boundsRectangle b = Ok r /\ forall s, 0 <= s <= 1 ->
    let p := curve (map vpt (cps b)) s in let e := 64 * ulp1 * M + 80 * tiny in
    val (left r) - e <= fst p <= val (right r) + e /\ val (bottom r) - e <= snd p <= val (MBounds.top r) + e.
Proof. exact (quad_box b M). Qed.
Print Assumptions C107_quadratic_covers.
Theorem C107_cubic_covers_partial sn cs ac at2 hy pw pi r15 (b : bezier b64) (e : nat) (N : Z) : length (cps b) = 4%nat -> Forall (on_grid e N) (cps b) ->
  (1 <= N <= 2 ^ 20)%Z -> (e <= 400)%nat -> let M := IZR N * / 2 ^ e in M <= 32768 ->
  exists r, @boundsRectangle _ _ (FTrig sn cs ac at2 hy pw pi r15) b = Ok r /\ forall s, 0 <= s <= 1 ->
    let p := curve (map vpt (cps b)) s in let e := 18 * ulp1 * M + 32 * tiny in
    val (left r) - e <= fst p <= val (right r) + e /\ val (bottom r) - e <= snd p <= val (MBounds.top r) + e.
Proof. exact (cubic_box sn cs ac at2 hy pw pi r15 b e N). Qed.
Print Assumptions C107_cubic_covers_partial.
Theorem C107_cubic_refuted sn cs ac at2 hy pw pi r15 : exists b : bezier b64, length (cps b) = 4%nat /\ Forall (sized 3) (cps b) /\
  exists r, @boundsRectangle _ _ (FTrig sn cs ac at2 hy pw pi r15) b = Ok r /\
    val (MBounds.top r) + 1 < snd (curve (map vpt (cps b)) (/ 2)).
Proof. exact (ex_intro _ thirds (box_wrong sn cs ac at2 hy pw pi r15)). Qed.
Print Assumptions C107_cubic_refuted.
Example C107_case : length (cps (mkBez [(bofZ 0, bofZ 0); (bofZ 100, bofZ 400); (bofZ 300, bofZ (-400)); (bofZ 500, bofZ 0)] (bofZ 0) (bofZ 1))) = 4%nat /\
  Forall (on_grid 0 500) [(bofZ 0, bofZ 0); (bofZ 100, bofZ 400); (bofZ 300, bofZ (-400)); (bofZ 500, bofZ 0)] /\ (1 <= 500 <= 2 ^ 20)%Z /\ IZR 500 * / 2 ^ 0 <= 32768.
Proof.
  split; [reflexivity|]. split; [|split; [lia | cbn [pow]; lra]].
  assert (K : forall x y, (Z.abs x <= 500)%Z -> (Z.abs y <= 500)%Z -> on_grid 0 500 (bofZ x, bofZ y)).
  { intros x y X Y. exists x, y. cbn [fst snd pow]. rewrite Rinv_1, !Rmult_1_r. split; [apply val_int; lia|]. split; [apply val_int; lia|]. auto. }
  repeat (apply Forall_cons; [apply K; lia|]). apply Forall_nil.
Qed.

(** ** C108 *)
Theorem C108_complete_refuted sn cs ac at2 hy pw pi r15 : exists c1 c2 : bezier b64,
  length (cps c1) = 4%nat /\ length (cps c2) = 3%nat /\ Forall (sized 3) (cps c1) /\ Forall (sized 3) (cps c2) /\
  (exists s, 0 <= s <= 1 /\ curve (map vpt (cps c1)) s = curve (map vpt (cps c2)) s) /\
  forall fuel thr, @curveIntersects _ _ (FTrig sn cs ac at2 hy pw pi r15) fuel thr [c1] [c2] = Ok [].
Proof. exact (missed_all sn cs ac at2 hy pw pi r15). Qed.
Print Assumptions C108_complete_refuted.
Theorem C108_sound_refuted sn cs ac at2 hy pw pi r15 : exists (c1 c2 : bezier b64) (thr h : b64),
  length (cps c1) = 4%nat /\ length (cps c2) = 3%nat /\ Forall (sized 21) (cps c1) /\ Forall (sized 21) (cps c2) /\ fin thr /\ val thr = / 2 /\ fin h /\ val h = / 2 /\
  (forall f, @curveIntersects _ _ (FTrig sn cs ac at2 hy pw pi r15) (3 + f) thr [c1] [c2] = Ok [(h, h)]) /\
  15 < snd (curve (map vpt (cps c1)) (val h)) - snd (curve (map vpt (cps c2)) (val h)).
Proof. exact (invented_all sn cs ac at2 hy pw pi r15). Qed.
Print Assumptions C108_sound_refuted.
(** Quadratics: what is reported is close, up to rounding, at the reported doubles themselves. *)
Theorem C108_quadratic_sound_partial (TO : TrigOps b64) (thr : b64) (M : R) (c1 c2 : list (bezier b64)) (fuel : nat) res t s :
  let good c := length (cps c) = 3%nat /\ Forall (sized M) (cps c) /\ is_int (bt1 c) 0 /\ is_int (bt2 c) 1 in
  Forall good c1 -> Forall good c2 -> M <= 32768 -> fin thr -> M / 2 ^ 43 <= val thr -> / 2 ^ 1000 <= val thr ->
  curveIntersects fuel thr c1 c2 = Ok res -> In (t, s) res ->
  exists a b, In a c1 /\ In b c2 /\ fin t /\ fin s /\ 0 <= val t <= 1 /\ 0 <= val s <= 1 /\
    taxi (curve (map vpt (cps a)) (val t)) (curve (map vpt (cps b)) (val s)) <= 2 * val thr + 4500 * ulp1 * M + 4000 * tiny.
Proof. exact (curves_soundF thr M c1 c2 fuel res t s). Qed.
Print Assumptions C108_quadratic_sound_partial.
(** Two quadratics with integer coordinates that touch: nothing is reported, at any depth and threshold. *)
Theorem C108_touching_refuted (TO : TrigOps b64) : exists c1 c2 : bezier b64, length (cps c1) = 3%nat /\ length (cps c2) = 3%nat /\
  Forall (on_grid 0 11) (cps c1) /\ Forall (on_grid 0 11) (cps c2) /\ curve (map vpt (cps c1)) (2 / 3) = curve (map vpt (cps c2)) (2 / 3) /\
  forall fuel thr, curveIntersects fuel thr [c1] [c2] = Ok [].
Proof. exact (ex_intro _ arch (ex_intro _ roof touch_whole)). Qed.
Print Assumptions C108_touching_refuted.
Example C108_case : let c := mkBez [(bofZ 0, bofZ 0); (bofZ 400, bofZ (-30)); (bofZ 1000, bofZ 700)] (bofZ 0) (bofZ 1) in
  length (cps c) = 3%nat /\ Forall (sized 1000) (cps c) /\ is_int (bt1 c) 0 /\ is_int (bt2 c) 1.
Proof.
  cbv zeta. split; [reflexivity|]. split; [cbn [cps]; repeat (apply Forall_cons; [apply sized_int; lia|]); apply Forall_nil|].
  split; apply val_int; lia.
Qed.
(** A case that does report something: a parabola and a level line that cross. *)
Example C108_reported (TO : TrigOps b64) : let c := mkBez [(bofZ 0, bofZ (-4)); (bofZ 2, bofZ 4); (bofZ 4, bofZ (-4))] (bofZ 0) (bofZ 1) in
  let d := mkBez [(bofZ 0, bofZ (-1)); (bofZ 2, bofZ (-1)); (bofZ 4, bofZ (-1))] (bofZ 0) (bofZ 1) in
  match curveIntersects 6 (bofZ 1) [c] [d] with Ok l => (0 <? length l)%nat | Err _ => false end = true.
Proof. vm_compute. reflexivity. Qed.
