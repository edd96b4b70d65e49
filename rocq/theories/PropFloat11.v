(** Property C127: glyphs drawn in IEEE double precision.  [vglyphs], [vglyph] and [vpen] replace every double by the real number
    it stands for, so the drawing on the right of each theorem is the one of exact arithmetic (C21 - C23, C110). *)
From Coq Require Import List ZArith Bool Reals Lra Lia String.
From Flocq Require Import Core BinarySingleNaN.
From Verif Require Import Py InstFloat SpecGeom SpecDouble SpecDouble5 MSegmentPen ProofDouble ProofDouble2 ProofDouble19.
Import ListNotations.
Local Open Scope R_scope.

(** ** C127.  TrueType numbers: coordinates and offsets are whole and at most 32768, scales are multiples of 2^-14 in [-2, 2]. *)
Theorem C127_truetype (gs : glyphset b64) (gl : glyph b64) (fuel : nat) :
  (forall k h, gs k = Some h -> Forall (grid_call 14 4 32768) h) -> Forall (grid_call 14 4 32768) gl -> (fuel <= 3)%nat ->
  forall s oe, drawGlyph gs fuel gl = (s, oe) -> drawGlyph (vglyphs gs) fuel (vglyph gl) = (vpen s, oe).
Proof. exact (font14 gs gl fuel). Qed.
Print Assumptions C127_truetype.
(** A glyph with at most two levels of components, under any recursion limit. *)
Theorem C127_two_levels (gs : glyphset b64) (gl : glyph b64) (s : pen b64) (fuel : nat) :
  (forall k h, gs k = Some h -> Forall (grid_call 14 4 32768) h) -> Forall (grid_call 14 4 32768) gl ->
  drawGlyph gs 3 gl = (s, None) -> (3 <= fuel)%nat ->
  drawGlyph gs fuel gl = (s, None) /\ drawGlyph (vglyphs gs) fuel (vglyph gl) = (vpen s, None).
Proof. exact (font14_any gs gl s fuel). Qed.
Print Assumptions C127_two_levels.
(** Components that are only shifted, mirrored or turned by quarter turns, nested to any depth that Python reaches. *)
Theorem C127_unscaled (gs : glyphset b64) (gl : glyph b64) (fuel : nat) :
  (forall k h, gs k = Some h -> Forall (grid_call 0 1 32768) h) -> Forall (grid_call 0 1 32768) gl -> INR fuel <= 1000000 ->
  forall s oe, drawGlyph gs fuel gl = (s, oe) -> drawGlyph (vglyphs gs) fuel (vglyph gl) = (vpen s, oe).
Proof. exact (font0 gs gl fuel). Qed.
Print Assumptions C127_unscaled.
(** Other grids: coordinates at most [B], scales multiples of 2^-g with row sums at most [S], [n] levels of components. *)
Theorem C127_grid (gs : glyphset b64) (gl : glyph b64) (g : nat) (S B : R) (n fuel : nat) : 1 <= S -> 1 <= B -> (1 + g * n <= 900)%nat ->
  reach S B n * 2 ^ (1 + g * n) < 2 ^ 53 ->
  (forall k h, gs k = Some h -> Forall (grid_call g S B) h) -> Forall (grid_call g S B) gl -> (fuel <= Datatypes.S n)%nat ->
  forall s oe, drawGlyph gs fuel gl = (s, oe) -> drawGlyph (vglyphs gs) fuel (vglyph gl) = (vpen s, oe).
Proof. exact (font_exact gs gl g S B n fuel). Qed.
Print Assumptions C127_grid.

Definition C127_half : b64 := nquot (bofZ 1) (bofZ 2).
Definition C127_base : glyph b64 := [MoveTo (bofZ 0, bofZ 0); LineTo (bofZ 0, bofZ 0); QCurveTo [(bofZ 1, bofZ 4); (bofZ 4, bofZ 5); (bofZ 9, bofZ 0)]; ClosePath].
Definition C127_font : glyphset b64 := fun n =>
  if string_dec n "base" then Some C127_base
  else if string_dec n "small" then Some [AddComponent "base" (C127_half, bofZ 0, bofZ 0, C127_half, bofZ 3, bofZ (-2))] else None.
Definition C127_glyph : glyph b64 := [AddComponent "small" (bofZ 0, bofZ 1, bofZ (-1), bofZ 0, bofZ 100, bofZ 0); AddComponent "small" (C127_half, bofZ 0, C127_half, C127_half, bofZ 0, bofZ 7)].
Lemma C127_font_ok : (forall k h, C127_font k = Some h -> Forall (grid_call 14 4 32768) h) /\ Forall (grid_call 14 4 32768) C127_glyph.
Proof.
  destruct half_val as (_ & Vh). fold C127_half in Vh. destruct (val_int 1 ltac:(lia)) as (_ & V1). destruct (val_int 0 ltac:(lia)) as (_ & V0). destruct (val_int (-1) ltac:(lia)) as (_ & Vm).
  assert (T : forall xs xys yxs ys a b, on_grid 14 xs -> on_grid 14 xys -> on_grid 14 yxs -> on_grid 14 ys -> Rabs (val xs) <= 1 -> Rabs (val xys) <= 1 -> Rabs (val yxs) <= 1 -> Rabs (val ys) <= 1 ->
    (Z.abs a <= 32768)%Z -> (Z.abs b <= 32768)%Z -> scaled 14 4 32768 (xs, xys, yxs, ys, bofZ a, bofZ b)).
  { intros. repeat (split; [first [assumption | lra]|]). apply whole_int; assumption. }
  split.
  - intros k h. unfold C127_font. destruct (string_dec k "base"); [|destruct (string_dec k "small"); [|discriminate]]; intros E; apply (f_equal (fun o => match o with Some l => l | None => h end)) in E; cbn beta iota in E; subst h.
    + unfold C127_base. repeat (apply Forall_nil || (apply Forall_cons; cbn [grid_call]) || (apply whole_int; lia) || exact I).
    + constructor; [|constructor]. apply T; try apply grid_half; try (apply grid_int; lia); try lia; rewrite ?Vh, ?V0; unfold Rabs; destruct (Rcase_abs _); lra.
  - constructor; [|constructor; [|constructor]]; apply T; try apply grid_half; try (apply grid_int; lia); try lia; rewrite ?Vh, ?V0, ?V1, ?Vm; unfold Rabs; destruct (Rcase_abs _); lra.
Qed.
(** Implied points at halves, scaled by one half twice, turned and skewed. *)
Example C127_case : ((forall k h, C127_font k = Some h -> Forall (grid_call 14 4 32768) h) /\ Forall (grid_call 14 4 32768) C127_glyph) /\
  snd (drawGlyph C127_font 3 C127_glyph) = None /\
  map (map (@List.length _)) (p_contours (fst (drawGlyph C127_font 3 C127_glyph))) = [[3; 3; 2]; [3; 3; 2]]%nat /\
  reach 4 32768 2 * 2 ^ (1 + 14 * 2) < 2 ^ 53.
Proof. split; [exact C127_font_ok|]. split; [vm_compute; reflexivity|]. split; [vm_compute; reflexivity | apply (reach_small14 2); lia]. Qed.
