(** Properties C74 and C75: colour names and generated colours (Color.py). *)
From Coq Require Import List ZArith Bool String Ascii QArith Qround Qminmax Lia.
From Verif Require Import Py SpecColor MColor ProofColor ProofColor2.
Import ListNotations.
Local Open Scope string_scope.
Local Open Scope Z_scope.

(** ** C74 *)
Theorem C74_case_insensitive (s t : string) : same_letters s t -> fromName s = fromName t.
Proof. exact (from_case s t). Qed.
Print Assumptions C74_case_insensitive.
Theorem C74_none (s : string) : fromName s = Ok None <-> ~ letters_only s.
Proof. exact (from_none s). Qed.
Print Assumptions C74_none.
Theorem C74_error (s : string) (x : exn) : fromName s = Err x <-> x = ValueError /\ letters_only s /\ forall k v, In (k, v) keywords -> ~ same_letters s k.
Proof. exact (from_error s x). Qed.
Print Assumptions C74_error.
Theorem C74_known (k : string) (v : rgb) (s : string) : In (k, v) keywords -> same_letters s k -> fromName s = Ok (Some v).
Proof. exact (from_known k v s). Qed.
Print Assumptions C74_known.
Theorem C74_range (s : string) (r g b : Z) : fromName s = Ok (Some (r, g, b)) -> component r /\ component g /\ component b.
Proof. exact (from_range s r g b). Qed.
Print Assumptions C74_range.
Theorem C74_gray_grey (p q : string) : fromName (p ++ "gray" ++ q) = fromName (p ++ "grey" ++ q).
Proof. exact (gray_grey p q). Qed.
Print Assumptions C74_gray_grey.
Example C74_case : fromName "DarkSlateGrey" = Ok (Some (47, 79, 79)) /\ fromName "darkslategray" = Ok (Some (47, 79, 79)) /\ fromName "#ff0000" = Ok None /\ fromName "" = Ok None /\ fromName "blurple" = Err ValueError.
Proof. repeat split; vm_compute; reflexivity. Qed.
Example C74_case2 : same_letters "Teal" "tEAL" /\ letters_only "blurple" /\ ~ letters_only "red1".
Proof.
  split; [|split].
  - apply same_letters_lower. reflexivity.
  - apply isalpha_spec. reflexivity.
  - rewrite <- isalpha_spec. discriminate.
Qed.

(** ** C75 *)
(** Any 360 calls in a row visit every hue exactly once. *)
Theorem C75_visits (h : Z) (k : nat) (r : Z) : 0 <= r < 360 ->
  exists n, ((k < n <= k + 360)%nat /\ hue_after n h = r) /\ forall m, (k < m <= k + 360)%nat -> hue_after m h = r -> m = n.
Proof. exact (hue_visits h k r). Qed.
Print Assumptions C75_visits.
Theorem C75_repeats (h : Z) (n : nat) : (1 <= n)%nat -> hue_after (n + 360) h = hue_after n h.
Proof. exact (hue_period h n). Qed.
Print Assumptions C75_repeats.
Theorem C75_range (h : Z) (n : nat) : (1 <= n)%nat -> 0 <= hue_after n h < 360.
Proof. exact (hue_range h n). Qed.
Print Assumptions C75_range.
Theorem C75_components (h : Z) (n : nat) (r g b : Z) : color_after n h = (r, g, b) -> 64 <= r <= 191 /\ 64 <= g <= 191 /\ 64 <= b <= 191.
Proof. exact (color_range (hue_after n h) r g b). Qed.
Print Assumptions C75_components.
Example C75_case : hue_after 5 (-100) = 265 /\ color_after 0 47 = (64, 191, 64).
Proof. split; vm_compute; reflexivity. Qed.

(** ** C93 *)
(** [css3] in SpecColor.v is the table of the CSS recommendation, written as hexadecimal codes. *)
Theorem C93_css_keywords (s : string) (v : rgb) :
  fromName s = Ok (Some v) <-> exists k c, In (k, c) css3 /\ same_letters s k /\ v = bytes c.
Proof. exact (fromName_css s v). Qed.
Print Assumptions C93_css_keywords.
Theorem C93_other_names (s : string) (x : exn) :
  fromName s = Err x <-> x = ValueError /\ letters_only s /\ forall k c, In (k, c) css3 -> ~ same_letters s k.
Proof. exact (fromName_css_error s x). Qed.
Print Assumptions C93_other_names.
Example C93_case : In ("rebeccapurple", 0x663399) css3 -> False.
Proof. vm_compute. intuition discriminate. Qed.
Example C93_case2 : In ("tomato", 0xff6347) css3 /\ fromName "Tomato" = Ok (Some (255, 99, 71)) /\ List.length css3 = 147%nat.
Proof. split; [vm_compute; tauto|]. split; vm_compute; reflexivity. Qed.

(** ** C94 *)
(** The colour of the [hue] after the step, saturation 50% and lightness 50%, with components rounded to nearest. *)
Theorem C94_random_color (h : Z) : let (h', c) := randomHSLColor h in
  h' = (h + 73) mod 360 /\
  (let '(r, g, b) := c in let q := inject_Z h' in
   nearest_even (css_channel q (1 # 2) (1 # 2) 0 * 255) r /\
   nearest_even (css_channel q (1 # 2) (1 # 2) 8 * 255) g /\ nearest_even (css_channel q (1 # 2) (1 # 2) 4 * 255) b).
Proof. exact (random_color h). Qed.
Print Assumptions C94_random_color.
(** Every hue, lightness and saturation. *)
Theorem C94_conversion (h l s : Q) : let '(r, g, b) := hls_to_rgb (h / 360) l s in
  (r == css_channel h s l 0 /\ g == css_channel h s l 8 /\ b == css_channel h s l 4)%Q.
Proof. exact (hls_css h l s). Qed.
Print Assumptions C94_conversion.
Example C94_case : randomHSLColor 300 = (13, (191, 91, 64)) /\ (css_channel 13 (1 # 2) (1 # 2) 8 * 255 == 731 # 8)%Q.
Proof. split; vm_compute; reflexivity. Qed.
