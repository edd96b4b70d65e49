(** Colours. *)
From Coq Require Import List ZArith Bool String Ascii QArith Lia.
From Verif Require Import Py SpecColor MColor.
Import ListNotations.
Local Open Scope string_scope.
Local Open Scope Z_scope.

Lemma code_small c : 0 <= code c < 256.
Proof. unfold code. pose proof (nat_ascii_bounded c). lia. Qed.
Lemma code_inj c d : code c = code d -> c = d.
Proof. unfold code. intros E. apply Nat2Z.inj in E. rewrite <- (ascii_nat_embedding c), <- (ascii_nat_embedding d). now rewrite E. Qed.
Lemma isUpper_spec c : isUpper c = true <-> upper_letter c.
Proof. unfold isUpper, upper_letter, code. rewrite andb_true_iff, !Nat.leb_le. lia. Qed.
Lemma isLower_spec c : isLower c = true <-> lower_letter c.
Proof. unfold isLower, lower_letter, code. rewrite andb_true_iff, !Nat.leb_le. lia. Qed.
Lemma lowerChar_code c : (upper_letter c /\ code (lowerChar c) = code c + 32) \/ (~ upper_letter c /\ lowerChar c = c).
Proof.
  unfold lowerChar. destruct (isUpper c) eqn:E.
  - left. apply isUpper_spec in E. split; [exact E|]. unfold code in *. rewrite nat_ascii_embedding; unfold upper_letter, code in E; lia.
  - right. split; [|reflexivity]. intros U. apply isUpper_spec in U. congruence.
Qed.
Lemma same_lower c d : same_letter c d <-> lowerChar c = lowerChar d.
Proof.
  unfold same_letter. destruct (lowerChar_code c) as [(U & C)|(U & C)], (lowerChar_code d) as [(V & D)|(V & D)]; unfold upper_letter in *; split.
  - intros [->|[(_ & E)|(_ & E)]]; [reflexivity|lia|lia].
  - intros E. left. apply code_inj. rewrite E in C. lia.
  - intros [->|[(_ & E)|(V' & _)]]; [lia| |lia]. rewrite D. apply code_inj. lia.
  - intros E. right. left. rewrite E, D in C. auto.
  - intros [->|[(U' & _)|(_ & E)]]; [lia|lia|]. rewrite C. apply code_inj. lia.
  - intros E. right. right. rewrite <- E, C in D. auto.
  - intros [->|[(U' & _)|(V' & _)]]; [reflexivity|lia|lia].
  - intros E. left. congruence.
Qed.
Lemma same_letters_lower s : forall t, same_letters s t <-> lower s = lower t.
Proof.
  unfold same_letters. induction s as [|c s IH]; intros [|d t]; cbn [lower list_ascii_of_string]; split; intros H; try reflexivity; try (inversion H; fail); try discriminate; try constructor.
  - inversion H; subst. apply same_lower in H3. apply IH in H5. now rewrite H3, H5.
  - injection H as H1 H2. now apply same_lower.
  - injection H as H1 H2. now apply IH.
Qed.
Lemma allAlpha_spec s : allAlpha s = true <-> forall c, In c (list_ascii_of_string s) -> upper_letter c \/ lower_letter c.
Proof.
  induction s as [|c s IH]; cbn [allAlpha list_ascii_of_string]; [split; [intros _ c []|reflexivity]|].
  rewrite andb_true_iff, IH. unfold isAlphaChar. rewrite orb_true_iff, isUpper_spec, isLower_spec. split.
  - intros [A B] x [<-|X]; auto.
  - intros A. split; [apply A; now left|]. intros x X. apply A. now right.
Qed.
Lemma isalpha_spec s : isalpha s = true <-> letters_only s.
Proof.
  unfold isalpha, letters_only. destruct s as [|c s]; [split; [discriminate|intros [A _]; congruence]|]. rewrite allAlpha_spec. split; [intros A; split; [discriminate|exact A]|intros [_ A]; exact A].
Qed.
Lemma letters_same s t : same_letters s t -> letters_only s -> letters_only t.
Proof.
  intros S [N A]. split; [intros ->; destruct s; [congruence|inversion S]|]. unfold same_letters in S. clear N. induction S as [|c d s' t' H S IH]; [intros c []|].
  intros x [<-|X]; [|apply IH; auto; intros; apply A; now right]. destruct (A c (or_introl eq_refl)) as [U|U]; unfold same_letter, upper_letter, lower_letter in *; destruct H as [<-|[H|H]]; lia || auto.
Qed.

Lemma lookup_In k l v : lookup k l = Some v -> In (k, v) l.
Proof. induction l as [|[k' v'] l IH]; [discriminate|]. cbn [lookup]. destruct (String.eqb_spec k k') as [->|N]; [intros E; injection E as ->; now left|intros E; right; auto]. Qed.
Lemma lookup_none k l : lookup k l = None -> forall v, ~ In (k, v) l.
Proof.
  induction l as [|[k' v'] l IH]; [intros _ v []|]. cbn [lookup]. destruct (String.eqb_spec k k') as [->|N]; [discriminate|]. intros E v [X|X]; [congruence|exact (IH E v X)].
Qed.
(** Checks over the table. *)
Lemma keys_found : forallb (fun kv => match lookup (fst kv) keywords with Some w => (fst (fst w) =? fst (fst (snd kv))) && (snd (fst w) =? snd (fst (snd kv))) && (snd w =? snd (snd kv)) | None => false end) keywords = true.
Proof. vm_compute. reflexivity. Qed.
Lemma keys_lower : forallb (fun kv => String.eqb (lower (fst kv)) (fst kv) && isalpha (fst kv)) keywords = true.
Proof. vm_compute. reflexivity. Qed.
Lemma values_small : forallb (fun kv => let '(r, g, b) := snd kv in (0 <=? r) && (r <=? 255) && (0 <=? g) && (g <=? 255) && (0 <=? b) && (b <=? 255)) keywords = true.
Proof. vm_compute. reflexivity. Qed.
Lemma key_value k v : In (k, v) keywords -> lookup k keywords = Some v.
Proof.
  intros I. pose proof (proj1 (forallb_forall _ _) keys_found _ I) as H. cbn [fst snd] in H. destruct (lookup k keywords) as [[[r g] b]|]; [|discriminate]. destruct v as [[r' g'] b'].
  cbn [fst snd] in H. rewrite !andb_true_iff, !Z.eqb_eq in H. destruct H as [[-> ->] ->]. reflexivity.
Qed.
Lemma key_lower k v : In (k, v) keywords -> lower k = k /\ letters_only k.
Proof.
  intros I. pose proof (proj1 (forallb_forall _ _) keys_lower _ I) as H. cbn [fst] in H. apply andb_true_iff in H as [A B]. apply String.eqb_eq in A. apply isalpha_spec in B. auto.
Qed.

Theorem from_case s t : same_letters s t -> fromName s = fromName t.
Proof.
  intros S. unfold fromName, forKeyword. pose proof (proj1 (same_letters_lower s t) S) as L. rewrite L.
  replace (isalpha t) with (isalpha s); [reflexivity|]. destruct (isalpha s) eqn:A, (isalpha t) eqn:B; try reflexivity.
  - apply isalpha_spec in A. apply (letters_same s t S) in A. apply isalpha_spec in A. congruence.
  - apply isalpha_spec in B. apply (letters_same t s) in B; [apply isalpha_spec in B; congruence|]. now apply same_letters_lower.
Qed.
Theorem from_none s : fromName s = Ok None <-> ~ letters_only s.
Proof.
  unfold fromName, forKeyword. rewrite <- isalpha_spec. destruct (isalpha s); cbn [negb]; [|split; [discriminate|reflexivity]].
  destruct (lookup (lower s) keywords); split; try discriminate; intros H; exfalso; now apply H.
Qed.
Theorem from_error s x : fromName s = Err x <-> x = ValueError /\ letters_only s /\ forall k v, In (k, v) keywords -> ~ same_letters s k.
Proof.
  unfold fromName, forKeyword. rewrite <- isalpha_spec. destruct (isalpha s) eqn:A; cbn [negb].
  - destruct (lookup (lower s) keywords) as [v|] eqn:E; split.
    + discriminate.
    + intros (_ & _ & H). exfalso. apply lookup_In in E. apply (H _ _ E). apply same_letters_lower. symmetry. exact (proj1 (key_lower _ _ E)).
    + intros X. injection X as <-. split; [reflexivity|]. split; [reflexivity|]. intros k v I S. apply same_letters_lower in S. rewrite S in E. rewrite (proj1 (key_lower _ _ I)) in E. exact (lookup_none _ _ E _ I).
    + now intros (-> & _).
  - split; [discriminate|intros (_ & H & _); discriminate].
Qed.
Theorem from_known k v s : In (k, v) keywords -> same_letters s k -> fromName s = Ok (Some v).
Proof.
  intros I S. rewrite (from_case s k S). unfold fromName, forKeyword. destruct (key_lower k v I) as [L A]. apply isalpha_spec in A. rewrite A, L, (key_value k v I). reflexivity.
Qed.
Theorem from_range s r g b : fromName s = Ok (Some (r, g, b)) -> component r /\ component g /\ component b.
Proof.
  unfold fromName, forKeyword. destruct (isalpha s); cbn [negb]; [|discriminate]. destruct (lookup (lower s) keywords) as [v|] eqn:E; [|discriminate]. intros X. injection X as ->. apply lookup_In in E.
  pose proof (proj1 (forallb_forall _ _) values_small _ E) as H. cbn [snd] in H. rewrite !andb_true_iff, !Z.leb_le in H. unfold component. lia.
Qed.
(** gray and grey. *)
Definition swaps (a b : string) : bool :=
  forallb (fun kv => forallb (fun n =>
    if String.eqb (substring n 4 (fst kv)) a
    then match lookup (substring 0 n (fst kv) ++ b ++ substring (n + 4) (String.length (fst kv)) (fst kv)) keywords with Some w => (fst (fst w) =? fst (fst (snd kv))) && (snd (fst w) =? snd (fst (snd kv))) && (snd w =? snd (snd kv)) | None => false end
    else true) (seq 0 (S (String.length (fst kv))))) keywords.
Lemma swaps_ok : swaps "gray" "grey" = true /\ swaps "grey" "gray" = true.
Proof. split; vm_compute; reflexivity. Qed.
Lemma length_app a b : String.length (a ++ b) = (String.length a + String.length b)%nat.
Proof. induction a as [|c a IH]; [reflexivity|]. cbn [append String.length]. now rewrite IH. Qed.
Lemma substring_all : forall s n, (String.length s <= n)%nat -> substring 0 n s = s.
Proof. induction s as [|c s IH]; intros [|n] L; cbn in *; try reflexivity; try lia. now rewrite IH by lia. Qed.
Lemma substring_pre : forall p q, substring 0 (String.length p) (p ++ q) = p.
Proof. induction p as [|c p IH]; intros q; [destruct q; reflexivity|]. cbn. now rewrite IH. Qed.
Lemma substring_skip : forall p q n m, substring (String.length p + n) m (p ++ q) = substring n m q.
Proof. induction p as [|c p IH]; intros q n m; [reflexivity|]. cbn. apply IH. Qed.
Lemma swap_value a b p q v : String.length a = 4%nat -> swaps a b = true -> In ((p ++ a ++ q)%string, v) keywords -> lookup (p ++ b ++ q) keywords = Some v.
Proof.
  intros La S I. unfold swaps in S. pose proof (proj1 (forallb_forall _ _) S _ I) as H. cbn [fst snd] in H.
  assert (N : In (String.length p) (seq 0 (Datatypes.S (String.length (p ++ a ++ q))))) by (apply in_seq; rewrite length_app; lia).
  pose proof (proj1 (forallb_forall _ _) H _ N) as K. cbv beta in K.
  rewrite substring_pre in K. pose proof (substring_skip p (a ++ q) 0 4) as E1. rewrite Nat.add_0_r in E1. rewrite E1 in K.
  rewrite <- La in K at 1. rewrite substring_pre, String.eqb_refl in K. rewrite substring_skip in K.
  rewrite <- La in K at 1. pose proof (substring_skip a q 0 (String.length (p ++ a ++ q))) as E2. rewrite Nat.add_0_r in E2. rewrite E2 in K.
  rewrite substring_all in K by (rewrite !length_app; lia). destruct (lookup (p ++ b ++ q) keywords) as [[[r g] bl]|]; [|discriminate]. destruct v as [[r' g'] b'].
  cbn [fst snd] in K. rewrite !andb_true_iff, !Z.eqb_eq in K. destruct K as [[-> ->] ->]. reflexivity.
Qed.
Lemma lower_app a b : lower (a ++ b) = (lower a ++ lower b)%string.
Proof. induction a as [|c a IH]; [reflexivity|]. cbn. now rewrite IH. Qed.
Lemma alpha_app a b : allAlpha (a ++ b) = allAlpha a && allAlpha b.
Proof. induction a as [|c a IH]; [reflexivity|]. cbn. now rewrite IH, andb_assoc. Qed.
Theorem gray_grey p q : fromName (p ++ "gray" ++ q) = fromName (p ++ "grey" ++ q).
Proof.
  unfold fromName, forKeyword. rewrite !lower_app. change (lower "gray") with "gray". change (lower "grey") with "grey".
  assert (A : forall x, x = "gray" \/ x = "grey" -> isalpha (p ++ x ++ q) = allAlpha p && allAlpha q).
  { intros x X. assert (E : allAlpha (p ++ x ++ q) = allAlpha p && allAlpha q) by (rewrite !alpha_app; destruct X as [->| ->]; reflexivity).
    rewrite <- E. destruct p; destruct X as [->| ->]; reflexivity. }
  rewrite !A by auto. destruct (negb (allAlpha p && allAlpha q)); [reflexivity|].
  destruct swaps_ok as [S1 S2].
  destruct (lookup (lower p ++ "gray" ++ lower q) keywords) as [v|] eqn:E.
  - apply lookup_In in E. now rewrite (swap_value "gray" "grey" (lower p) (lower q) v eq_refl S1 E).
  - destruct (lookup (lower p ++ "grey" ++ lower q) keywords) as [v|] eqn:E'; [|reflexivity]. apply lookup_In in E'. rewrite (swap_value "grey" "gray" (lower p) (lower q) v eq_refl S2 E') in E. discriminate.
Qed.

(** Hues. *)
Lemma step_hue h : fst (randomHSLColor h) = (h + 73) mod 360.
Proof. unfold randomHSLColor. destruct (hls_to_rgb _ _ _) as [[r g] b]. reflexivity. Qed.
Theorem hue_formula h : forall n, (1 <= n)%nat -> hue_after n h = (h + 73 * Z.of_nat n) mod 360.
Proof.
  induction n as [|n IH]; [lia|]. intros _. cbn [hue_after]. rewrite step_hue. destruct n as [|n].
  - cbn [hue_after]. f_equal; lia.
  - rewrite IH by lia. rewrite Z.add_mod_idemp_l by lia. f_equal. lia.
Qed.
Theorem hue_range h n : (1 <= n)%nat -> 0 <= hue_after n h < 360.
Proof. intros N. rewrite hue_formula by exact N. apply Z.mod_pos_bound. lia. Qed.
Theorem hue_period h n : (1 <= n)%nat -> hue_after (n + 360) h = hue_after n h.
Proof. intros N. rewrite !hue_formula by lia. replace (h + 73 * Z.of_nat (n + 360)) with (h + 73 * Z.of_nat n + 73 * 360) by lia. apply Z.mod_add. lia. Qed.
Theorem hue_visits h k r : 0 <= r < 360 -> exists n, ((k < n <= k + 360)%nat /\ hue_after n h = r) /\ forall m, (k < m <= k + 360)%nat -> hue_after m h = r -> m = n.
Proof.
  intros R.
  set (x := (217 * (r - h - 73 * Z.of_nat (k + 1))) mod 360). assert (X : 0 <= x < 360) by (apply Z.mod_pos_bound; lia).
  set (y := 217 * (r - h - 73 * Z.of_nat (k + 1)) / 360).
  assert (XY : 217 * (r - h - 73 * Z.of_nat (k + 1)) = 360 * y + x) by (apply Z.div_mod; lia).
  exists (k + 1 + Z.to_nat x)%nat. split; [split; [lia|]|].
  - rewrite hue_formula by lia. symmetry. apply Z.mod_unique with (- (h + 73 * Z.of_nat (k + 1 + Z.to_nat x) - r) / 360 * (-1)); [left; exact R|].
    replace (Z.of_nat (k + 1 + Z.to_nat x)) with (Z.of_nat (k + 1) + x) by lia.
    set (w := r - h - 73 * Z.of_nat (k + 1)) in *.
    replace (h + 73 * (Z.of_nat (k + 1) + x)) with (r - w + 73 * x) by (unfold w; lia).
    replace (- (r - w + 73 * x - r)) with ((73 * y - 44 * w) * 360) by lia. rewrite Z.div_mul by lia. lia.
  - intros m M E. rewrite hue_formula in E by lia.
    pose proof (Z.div_mod (h + 73 * Z.of_nat m) 360 ltac:(lia)) as D. rewrite E in D. set (z := (h + 73 * Z.of_nat m) / 360) in *.
    set (w := r - h - 73 * Z.of_nat (k + 1)) in *. set (u := Z.of_nat m - Z.of_nat (k + 1)).
    assert (U : 0 <= u < 360) by (unfold u; lia). assert (Dw : 73 * u = 360 * z + w) by (unfold u, w; lia).
    assert (Q : u - x = 360 * (217 * z + y - 44 * u)) by lia.
    assert (u = x) by lia. unfold u in *. lia.
Qed.
Definition all_hues : bool := forallb (fun n => let '(r, g, b) := snd (randomHSLColor (Z.of_nat n - 73)) in
  (64 <=? r) && (r <=? 191) && (64 <=? g) && (g <=? 191) && (64 <=? b) && (b <=? 191)) (seq 0 360).
Lemma all_hues_ok : all_hues = true.
Proof. vm_compute. reflexivity. Qed.
Theorem color_range h r g b : snd (randomHSLColor h) = (r, g, b) -> 64 <= r <= 191 /\ 64 <= g <= 191 /\ 64 <= b <= 191.
Proof.
  intros E. set (n := Z.to_nat ((h + 73) mod 360)). assert (M : 0 <= (h + 73) mod 360 < 360) by (apply Z.mod_pos_bound; lia).
  assert (H : snd (randomHSLColor (Z.of_nat n - 73)) = (r, g, b)).
  { rewrite <- E. unfold randomHSLColor. replace ((Z.of_nat n - 73 + 73) mod 360) with ((h + 73) mod 360); [reflexivity|]. unfold n. rewrite Z2Nat.id by lia.
    replace ((h + 73) mod 360 - 73 + 73) with ((h + 73) mod 360) by lia. symmetry. apply Z.mod_mod. lia. }
  pose proof all_hues_ok as A. unfold all_hues in A. pose proof (proj1 (forallb_forall _ _) A n) as K. cbv beta in K. rewrite H in K.
  rewrite !andb_true_iff, !Z.leb_le in K. assert (N : In n (seq 0 360)) by (apply in_seq; unfold n; lia). specialize (K N). lia.
Qed.
