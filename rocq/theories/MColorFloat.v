(** Color.py with Python floats: generated colours in IEEE double precision.  (MColor.v has the same functions in exact
    arithmetic.) *)
From Coq Require Import List ZArith Bool.
From Flocq Require Import Core BinarySingleNaN.
From Verif Require Import Py InstFloat MColor.
#[local] Existing Instance InstFloat.prec_gt_0.
#[local] Existing Instance InstFloat.prec_lt_emax.
Local Open Scope num_scope.

(** C's [fmod] for a finite divisor other than 0: exact, with the sign of the dividend. *)
Definition fmod (x y : b64) : b64 :=
  match x, y with
  | B754_finite sx mx ex _, B754_finite _ my ey _ =>
      let k := Z.min ex ey in
      let a := cond_Zopp sx (Zpos mx * 2 ^ (ex - k))%Z in
      binary_normalize prec emax prec_gt_0 prec_lt_emax mode_NE (Z.rem a (Zpos my * 2 ^ (ey - k))) k sx
  | B754_zero s, B754_finite _ _ _ _ => B754_zero s
  | _, _ => B754_nan
  end.
(** Python's [x % y] on floats (floatobject.c, float_rem). *)
Definition pymod (x y : b64) : b64 :=
  let m := fmod x y in
  if m != nofZ 0 then (if xorb (y <? nofZ 0) (m <? nofZ 0) then m + y else m)
  else B754_zero (Bsign y).

(** Python's colorsys (standard library): ONE_THIRD, ONE_SIXTH, TWO_THIRD, _v, hls_to_rgb. *)
Definition one_third : b64 := nquot (nofZ 1) (nofZ 3).
Definition one_sixth : b64 := nquot (nofZ 1) (nofZ 6).
Definition two_third : b64 := nquot (nofZ 2) (nofZ 3).
Definition half : b64 := nquot (nofZ 1) (nofZ 2).
Definition fhls_v (m1 m2 hue : b64) : b64 :=
  let hue := pymod hue (nofZ 1) in
  if hue <? one_sixth then m1 + (m2 - m1) * hue * nofZ 6
  else if hue <? half then m2
  else if hue <? two_third then m1 + (m2 - m1) * (two_third - hue) * nofZ 6
  else m1.
Definition fhls_to_rgb (h l s : b64) : b64 * b64 * b64 :=
  if s =? nofZ 0 then (l, l, l)
  else
    let m2 := if l <=? half then l * (nofZ 1 + s) else l + s - l * s in
    let m1 := nofZ 2 * l - m2 in
    (fhls_v m1 m2 (h + one_third), fhls_v m1 m2 h, fhls_v m1 m2 (h - one_third)).

(** Python's [round(x)] on floats: nearest integer, ties to even; NaN and infinities raise. *)
Definition fround (x : b64) : res Z :=
  match x with
  | B754_nan => Err ValueError
  | B754_infinity _ => Err OverflowError
  | _ => Ok (Btrunc (Bnearbyint mode_NE x))
  end.

(** Color.py:214-218, from the hue over 360 on. *)
Definition hueColor (h : b64) : res rgb :=
  let '(r, g, b) := fhls_to_rgb h (nquot (nofZ 50) (nofZ 100)) (nquot (nofZ 50) (nofZ 100)) in
  let* r := fround (r * nofZ 255) in
  let* g := fround (g * nofZ 255) in
  let* b := fround (b * nofZ 255) in
  Ok (r, g, b).
(** Color.py:212-218 randomHSLColor when [_current_hue] is an int: [hue / 360] is the correctly rounded quotient. *)
Definition randomHSLColorI (current_hue : Z) : Z * res rgb :=
  let hue := ((current_hue + 73) mod 360)%Z in (hue, hueColor (nquot (bofZ hue) (nofZ 360))).
(** Color.py:212-218 randomHSLColor when [_current_hue] is a float (setCurrentHue takes one). *)
Definition randomHSLColorF (current_hue : b64) : b64 * res rgb :=
  let hue := pymod (current_hue + nofZ 73) (nofZ 360) in (hue, hueColor (nquot hue (nofZ 360))).
