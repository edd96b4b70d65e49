(** Colours: the keyword table and the conversion from hue, lightness and saturation. *)
From Coq Require Import List ZArith Bool String Ascii QArith Qround Qminmax Lia Lqa.
From Verif Require Import Py SpecColor MColor ProofColor.
Import ListNotations.
Local Open Scope string_scope.
Local Open Scope Z_scope.

Definition rgbeqb (a b : rgb) : bool :=
  (fst (fst a) =? fst (fst b)) && (snd (fst a) =? snd (fst b)) && (snd a =? snd b).
Lemma rgbeqb_eq a b : rgbeqb a b = true -> a = b.
Proof.
  destruct a as [[r g] b0], b as [[r' g'] b']. unfold rgbeqb. cbn [fst snd]. rewrite !andb_true_iff, !Z.eqb_eq. now intros [[-> ->] ->].
Qed.
Lemma css_in_table : forallb (fun kc => match lookup (fst kc) keywords with Some v => rgbeqb v (bytes (snd kc)) | None => false end) css3 = true.
Proof. vm_compute. reflexivity. Qed.
Fixpoint lookupZ (k : string) (l : list (string * Z)) : option Z :=
  match l with [] => None | (k', v) :: r => if String.eqb k k' then Some v else lookupZ k r end.
Lemma lookupZ_In k l v : lookupZ k l = Some v -> In (k, v) l.
Proof.
  induction l as [|[k' v'] l IH]; simpl; [discriminate|]. destruct (String.eqb_spec k k') as [->|]; [|auto]. intros E. injection E as <-. auto.
Qed.
Lemma table_in_css : forallb (fun kv => match lookupZ (fst kv) css3 with Some c => rgbeqb (snd kv) (bytes c) | None => false end) keywords = true.
Proof. vm_compute. reflexivity. Qed.
Theorem table_is_css k v : In (k, v) keywords <-> exists c, In (k, c) css3 /\ v = bytes c.
Proof.
  split.
  - intros I. pose proof (proj1 (forallb_forall _ _) table_in_css _ I) as K. cbn [fst snd] in K.
    destruct (lookupZ k css3) as [c|] eqn:E; [|discriminate]. exists c. split; [now apply lookupZ_In|now apply rgbeqb_eq].
  - intros (c & I & ->). pose proof (proj1 (forallb_forall _ _) css_in_table _ I) as K. cbn [fst snd] in K.
    destruct (lookup k keywords) as [w|] eqn:E; [|discriminate]. apply rgbeqb_eq in K. subst w. now apply lookup_In.
Qed.
Theorem fromName_css s v : fromName s = Ok (Some v) <-> exists k c, In (k, c) css3 /\ same_letters s k /\ v = bytes c.
Proof.
  split.
  - intros E. destruct (lookup (lower s) keywords) as [w|] eqn:L.
    + pose proof (lookup_In _ _ _ L) as I. destruct (proj1 (table_is_css _ _) I) as (c & C & V). exists (lower s), c.
      assert (S : same_letters s (lower s)).
      { apply same_letters_lower. symmetry. apply (key_lower _ _ I). }
      split; auto. split; auto. pose proof (from_known _ _ _ I S) as F. rewrite E in F. injection F as ->. exact V.
    + exfalso. unfold fromName, forKeyword in E. rewrite L in E. destruct (negb (isalpha s)); discriminate.
  - intros (k & c & I & S & ->). apply from_known with (k := k); auto. apply table_is_css. eauto.
Qed.
Theorem fromName_css_error s x : fromName s = Err x <-> x = ValueError /\ letters_only s /\ forall k c, In (k, c) css3 -> ~ same_letters s k.
Proof.
  rewrite from_error. split; intros (E & L & N); split; auto; split; auto; intros k c I.
  - apply (N k (bytes c)). apply table_is_css. eauto.
  - apply table_is_css in I. destruct I as (c' & I & _). eapply N; eauto.
Qed.

Local Open Scope Q_scope.
Lemma Qltb_true a b : Qltb a b = true <-> a < b.
Proof.
  unfold Qltb. rewrite negb_true_iff. split; intros K.
  - apply Qnot_le_lt. intros L. apply Qle_bool_iff in L. congruence.
  - destruct (Qle_bool b a) eqn:E; auto. apply Qle_bool_iff in E. exfalso. lra.
Qed.
Lemma Qltb_spec a b : Bool.reflect (a < b) (Qltb a b).
Proof. destruct (Qltb a b) eqn:E; constructor; [now apply Qltb_true|]. intros K. apply Qltb_true in K. congruence. Qed.
Lemma Qfloor_bounds x : inject_Z (Qfloor x) <= x /\ x < inject_Z (Qfloor x) + 1.
Proof. split; [apply Qfloor_le|]. pose proof (Qlt_floor x) as K. now rewrite inject_Z_plus in K. Qed.
Lemma Qfloor_unique x z : inject_Z z <= x -> x < inject_Z z + 1 -> Qfloor x = z.
Proof.
  intros A B. pose proof (Qfloor_bounds x) as [C D]. assert (E : inject_Z z < inject_Z (Qfloor x) + 1) by lra.
  assert (F : inject_Z (Qfloor x) < inject_Z z + 1) by lra. change 1 with (inject_Z 1) in E, F. rewrite <- inject_Z_plus in E, F.
  rewrite <- Zlt_Qlt in E, F. lia.
Qed.
(** The remainder is determined by its range and an integer multiple. *)
Lemma remainder_unique x k z : 0 <= k -> k < 12 -> x == k + 12 * inject_Z z -> remainder x 12 == k.
Proof.
  intros A B E. unfold remainder. rewrite (Qfloor_unique (x / 12) z).
  - rewrite E. ring.
  - apply Qle_shift_div_l; [lra|]. rewrite E. lra.
  - apply Qlt_shift_div_r; [lra|]. rewrite E. lra.
Qed.
Definition tri (k : Q) : Q := Qmax (-1) (Qmin (Qmin (k - 3) (9 - k)) 1).
Lemma tri_low k : 0 <= k -> k <= 2 -> tri k == -1.
Proof. intros. unfold tri. apply Q.max_l. apply Qle_trans with (k - 3); [|lra]. eapply Qle_trans; [apply Q.le_min_l|apply Q.le_min_l]. Qed.
Lemma tri_up k : 2 <= k -> k <= 4 -> tri k == k - 3.
Proof.
  intros. unfold tri. rewrite (Q.min_l (k - 3) (9 - k)) by lra. rewrite Q.min_l by lra. apply Q.max_r. lra.
Qed.
Lemma tri_mid k : 4 <= k -> k <= 8 -> tri k == 1.
Proof.
  intros. unfold tri. rewrite Q.min_r; [apply Q.max_r; lra|]. apply Q.min_glb; lra.
Qed.
Lemma tri_down k : 8 <= k -> k <= 10 -> tri k == 9 - k.
Proof.
  intros. unfold tri. rewrite (Q.min_r (k - 3) (9 - k)) by lra. rewrite Q.min_l by lra. apply Q.max_r. lra.
Qed.
Lemma tri_end k : 10 <= k -> k <= 12 -> tri k == -1.
Proof.
  intros. unfold tri. rewrite (Q.min_r (k - 3) (9 - k)) by lra. rewrite Q.min_l by lra. apply Q.max_l. lra.
Qed.
#[local] Instance tri_compat : Proper (Qeq ==> Qeq) tri.
Proof. intros a b E. unfold tri. rewrite E. reflexivity. Qed.
(** One channel. *)
Lemma channel (l a u : Q) (n : Q) : n == 12 * u - 4 ->
  hls_v (l - a) (l + a) u == l - a * tri (remainder n 12).
Proof.
  intros En. unfold hls_v, qmod1. pose proof (Qfloor_bounds u) as [A B]. set (z := Qfloor u) in *. set (w := u - inject_Z z).
  assert (W : 0 <= w /\ w < 1) by (unfold w; lra). assert (U : u == w + inject_Z z) by (unfold w; ring). clearbody w.
  assert (Lo : w < 1 # 3 -> remainder n 12 == 12 * w + 8).
  { intros. apply (remainder_unique _ _ (z - 1)); [lra|lra|]. rewrite En, U. unfold Z.sub. rewrite inject_Z_plus. simpl inject_Z. ring. }
  assert (Hi : 1 # 3 <= w -> remainder n 12 == 12 * w - 4).
  { intros. apply (remainder_unique _ _ z); lra. }
  destruct (Qltb_spec w (1 # 6)).
  - rewrite Lo by lra. rewrite tri_down by lra. ring.
  - destruct (Qltb_spec w (1 # 2)).
    + destruct (Qlt_le_dec w (1 # 3)); [rewrite Lo by lra; rewrite tri_end by lra; ring|].
      rewrite Hi by lra. rewrite tri_low by lra. ring.
    + rewrite Hi by lra. destruct (Qltb_spec w (2 # 3)).
      * rewrite tri_up by lra. ring.
      * rewrite tri_mid by lra. ring.
Qed.
Lemma hls_v_comp m1 m2 m1' m2' u : m1 == m1' -> m2 == m2' -> hls_v m1 m2 u == hls_v m1' m2' u.
Proof.
  intros E F. unfold hls_v. destruct (Qltb _ _); [now rewrite E, F|]. destruct (Qltb _ _); [auto|]. destruct (Qltb _ _); [now rewrite E, F|auto].
Qed.
(** colorsys agrees with the CSS conversion. *)
Theorem hls_css (h l s : Q) :
  let '(r, g, b) := hls_to_rgb (h / 360) l s in
  r == css_channel h s l 0 /\ g == css_channel h s l 8 /\ b == css_channel h s l 4.
Proof.
  unfold hls_to_rgb. destruct (Qeq_bool s 0) eqn:Z.
  - apply Qeq_bool_iff in Z. unfold css_channel. cbv zeta. rewrite !Z. split; [|split]; ring.
  - set (m2 := if Qle_bool l (1 # 2) then l * (1 + s) else l + s - l * s). cbv zeta.
    set (a := s * Qmin l (1 - l)).
    assert (M2 : m2 == l + a).
    { unfold m2, a. destruct (Qle_bool l (1 # 2)) eqn:E.
      - apply Qle_bool_iff in E. rewrite Q.min_l by lra. ring.
      - assert (K : ~ l <= 1 # 2) by (intros K; apply Qle_bool_iff in K; congruence). rewrite Q.min_r by lra. ring. }
    assert (M1 : 2 * l - m2 == l - a) by (rewrite M2; ring).
    unfold css_channel. cbv zeta. fold a. split; [|split].
    + rewrite (hls_v_comp _ _ _ _ _ M1 M2). apply channel. field.
    + rewrite (hls_v_comp _ _ _ _ _ M1 M2). rewrite (channel l a (h / 360) (8 + h / 30 - 12)) by field.
      fold (tri (remainder (8 + h / 30) 12)).
      assert (R : remainder (8 + h / 30 - 12) 12 == remainder (8 + h / 30) 12).
      { set (x := 8 + h / 30). apply (remainder_unique _ _ (Qfloor (x / 12) - 1)).
        - unfold remainder. pose proof (Qfloor_bounds (x / 12)) as [A _]. apply (Qmult_le_l _ _ 12) in A; [|lra].
          assert (12 * (x / 12) == x) by field. lra.
        - unfold remainder. pose proof (Qfloor_bounds (x / 12)) as [_ A]. apply (Qmult_lt_l _ _ 12) in A; [|lra].
          assert (12 * (x / 12) == x) by field. lra.
        - unfold remainder, Z.sub. rewrite inject_Z_plus. simpl inject_Z. ring. }
      rewrite R. reflexivity.
    + rewrite (hls_v_comp _ _ _ _ _ M1 M2). rewrite (channel l a (h / 360 - (1 # 3)) (4 + h / 30 - 12)) by field.
      fold (tri (remainder (4 + h / 30) 12)).
      assert (R : remainder (4 + h / 30 - 12) 12 == remainder (4 + h / 30) 12).
      { set (x := 4 + h / 30). apply (remainder_unique _ _ (Qfloor (x / 12) - 1)).
        - unfold remainder. pose proof (Qfloor_bounds (x / 12)) as [A _]. apply (Qmult_le_l _ _ 12) in A; [|lra].
          assert (12 * (x / 12) == x) by field. lra.
        - unfold remainder. pose proof (Qfloor_bounds (x / 12)) as [_ A]. apply (Qmult_lt_l _ _ 12) in A; [|lra].
          assert (12 * (x / 12) == x) by field. lra.
        - unfold remainder, Z.sub. rewrite inject_Z_plus. simpl inject_Z. ring. }
      rewrite R. reflexivity.
Qed.
Lemma pyround_nearest x : nearest_even x (pyround x).
Proof.
  unfold nearest_even, pyround. pose proof (Qfloor_bounds x) as [A B]. set (f := Qfloor x) in *.
  assert (P : inject_Z (f + 1) == inject_Z f + 1) by (rewrite inject_Z_plus; reflexivity).
  destruct (Qltb_spec (x - inject_Z f) (1 # 2)).
  - split; [lra|]. intros [K|K]; exfalso; lra.
  - destruct (Qltb_spec (1 # 2) (x - inject_Z f)).
    + split; [lra|]. intros [K|K]; exfalso; lra.
    + destruct (Z.even f) eqn:E.
      * split; [lra|auto].
      * split; [lra|]. intros _. rewrite Z.add_1_r, Z.even_succ. rewrite <- Z.negb_even, E. reflexivity.
Qed.
Lemma nearest_comp x y z : x == y -> nearest_even x z -> nearest_even y z.
Proof. intros E [A B]. unfold nearest_even. rewrite <- !E. auto. Qed.
Theorem random_color (h : Z) : let (h', c) := randomHSLColor h in
  h' = ((h + 73) mod 360)%Z /\
  (let '(r, g, b) := c in let q := inject_Z h' in
   nearest_even (css_channel q (1 # 2) (1 # 2) 0 * 255) r /\
   nearest_even (css_channel q (1 # 2) (1 # 2) 8 * 255) g /\ nearest_even (css_channel q (1 # 2) (1 # 2) 4 * 255) b).
Proof.
  unfold randomHSLColor. set (h' := ((h + 73) mod 360)%Z).
  pose proof (hls_css (inject_Z h') (50 / 100) (50 / 100)) as K.
  destruct (hls_to_rgb (inject_Z h' / 360) (50 / 100) (50 / 100)) as [[r g] b]. destruct K as (R & G & B).
  split; [reflexivity|]. cbv zeta.
  assert (C : forall n, css_channel (inject_Z h') (50 / 100) (50 / 100) n == css_channel (inject_Z h') (1 # 2) (1 # 2) n).
  { intros n. unfold css_channel. cbv zeta. assert (E : 50 / 100 == 1 # 2) by reflexivity. rewrite E. reflexivity. }
  rewrite C in R, G, B.
  split; [|split]; (eapply nearest_comp; [|apply pyround_nearest]); [rewrite R|rewrite G|rewrite B]; reflexivity.
Qed.
