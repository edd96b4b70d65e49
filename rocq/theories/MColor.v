(** Model of PathLib/Color.py.

    Strings are ASCII strings: [isalpha] and [lower] are modelled on the ASCII range only (the
    Python methods also accept other Unicode letters).  FontDocTools' Color, which the class
    extends, is not part of the repository: a colour is its (red, green, blue) triple. *)
From Coq Require Import List ZArith Bool String Ascii QArith Qround.
From Verif Require Import Py.
Import ListNotations.
Local Open Scope string_scope.
Local Open Scope Z_scope.

Definition rgb : Set := (Z * Z * Z)%type.

(** Color.py:24-172 _keywords (generated from the source text). *)
Definition keywords : list (string * rgb) :=
  [("aliceblue", (240, 248, 255));
   ("antiquewhite", (250, 235, 215));
   ("aqua", (0, 255, 255));
   ("aquamarine", (127, 255, 212));
   ("azure", (240, 255, 255));
   ("beige", (245, 245, 220));
   ("bisque", (255, 228, 196));
   ("black", (0, 0, 0));
   ("blanchedalmond", (255, 235, 205));
   ("blue", (0, 0, 255));
   ("blueviolet", (138, 43, 226));
   ("brown", (165, 42, 42));
   ("burlywood", (222, 184, 135));
   ("cadetblue", (95, 158, 160));
   ("chartreuse", (127, 255, 0));
   ("chocolate", (210, 105, 30));
   ("coral", (255, 127, 80));
   ("cornflowerblue", (100, 149, 237));
   ("cornsilk", (255, 248, 220));
   ("crimson", (220, 20, 60));
   ("cyan", (0, 255, 255));
   ("darkblue", (0, 0, 139));
   ("darkcyan", (0, 139, 139));
   ("darkgoldenrod", (184, 134, 11));
   ("darkgray", (169, 169, 169));
   ("darkgreen", (0, 100, 0));
   ("darkgrey", (169, 169, 169));
   ("darkkhaki", (189, 183, 107));
   ("darkmagenta", (139, 0, 139));
   ("darkolivegreen", (85, 107, 47));
   ("darkorange", (255, 140, 0));
   ("darkorchid", (153, 50, 204));
   ("darkred", (139, 0, 0));
   ("darksalmon", (233, 150, 122));
   ("darkseagreen", (143, 188, 143));
   ("darkslateblue", (72, 61, 139));
   ("darkslategray", (47, 79, 79));
   ("darkslategrey", (47, 79, 79));
   ("darkturquoise", (0, 206, 209));
   ("darkviolet", (148, 0, 211));
   ("deeppink", (255, 20, 147));
   ("deepskyblue", (0, 191, 255));
   ("dimgray", (105, 105, 105));
   ("dimgrey", (105, 105, 105));
   ("dodgerblue", (30, 144, 255));
   ("firebrick", (178, 34, 34));
   ("floralwhite", (255, 250, 240));
   ("forestgreen", (34, 139, 34));
   ("fuchsia", (255, 0, 255));
   ("gainsboro", (220, 220, 220));
   ("ghostwhite", (248, 248, 255));
   ("gold", (255, 215, 0));
   ("goldenrod", (218, 165, 32));
   ("gray", (128, 128, 128));
   ("green", (0, 128, 0));
   ("greenyellow", (173, 255, 47));
   ("grey", (128, 128, 128));
   ("honeydew", (240, 255, 240));
   ("hotpink", (255, 105, 180));
   ("indianred", (205, 92, 92));
   ("indigo", (75, 0, 130));
   ("ivory", (255, 255, 240));
   ("khaki", (240, 230, 140));
   ("lavender", (230, 230, 250));
   ("lavenderblush", (255, 240, 245));
   ("lawngreen", (124, 252, 0));
   ("lemonchiffon", (255, 250, 205));
   ("lightblue", (173, 216, 230));
   ("lightcoral", (240, 128, 128));
   ("lightcyan", (224, 255, 255));
   ("lightgoldenrodyellow", (250, 250, 210));
   ("lightgray", (211, 211, 211));
   ("lightgreen", (144, 238, 144));
   ("lightgrey", (211, 211, 211));
   ("lightpink", (255, 182, 193));
   ("lightsalmon", (255, 160, 122));
   ("lightseagreen", (32, 178, 170));
   ("lightskyblue", (135, 206, 250));
   ("lightslategray", (119, 136, 153));
   ("lightslategrey", (119, 136, 153));
   ("lightsteelblue", (176, 196, 222));
   ("lightyellow", (255, 255, 224));
   ("lime", (0, 255, 0));
   ("limegreen", (50, 205, 50));
   ("linen", (250, 240, 230));
   ("magenta", (255, 0, 255));
   ("maroon", (128, 0, 0));
   ("mediumaquamarine", (102, 205, 170));
   ("mediumblue", (0, 0, 205));
   ("mediumorchid", (186, 85, 211));
   ("mediumpurple", (147, 112, 219));
   ("mediumseagreen", (60, 179, 113));
   ("mediumslateblue", (123, 104, 238));
   ("mediumspringgreen", (0, 250, 154));
   ("mediumturquoise", (72, 209, 204));
   ("mediumvioletred", (199, 21, 133));
   ("midnightblue", (25, 25, 112));
   ("mintcream", (245, 255, 250));
   ("mistyrose", (255, 228, 225));
   ("moccasin", (255, 228, 181));
   ("navajowhite", (255, 222, 173));
   ("navy", (0, 0, 128));
   ("oldlace", (253, 245, 230));
   ("olive", (128, 128, 0));
   ("olivedrab", (107, 142, 35));
   ("orange", (255, 165, 0));
   ("orangered", (255, 69, 0));
   ("orchid", (218, 112, 214));
   ("palegoldenrod", (238, 232, 170));
   ("palegreen", (152, 251, 152));
   ("paleturquoise", (175, 238, 238));
   ("palevioletred", (219, 112, 147));
   ("papayawhip", (255, 239, 213));
   ("peachpuff", (255, 218, 185));
   ("peru", (205, 133, 63));
   ("pink", (255, 192, 203));
   ("plum", (221, 160, 221));
   ("powderblue", (176, 224, 230));
   ("purple", (128, 0, 128));
   ("red", (255, 0, 0));
   ("rosybrown", (188, 143, 143));
   ("royalblue", (65, 105, 225));
   ("saddlebrown", (139, 69, 19));
   ("salmon", (250, 128, 114));
   ("sandybrown", (244, 164, 96));
   ("seagreen", (46, 139, 87));
   ("seashell", (255, 245, 238));
   ("sienna", (160, 82, 45));
   ("silver", (192, 192, 192));
   ("skyblue", (135, 206, 235));
   ("slateblue", (106, 90, 205));
   ("slategray", (112, 128, 144));
   ("slategrey", (112, 128, 144));
   ("snow", (255, 250, 250));
   ("springgreen", (0, 255, 127));
   ("steelblue", (70, 130, 180));
   ("tan", (210, 180, 140));
   ("teal", (0, 128, 128));
   ("thistle", (216, 191, 216));
   ("tomato", (255, 99, 71));
   ("turquoise", (64, 224, 208));
   ("violet", (238, 130, 238));
   ("wheat", (245, 222, 179));
   ("white", (255, 255, 255));
   ("whitesmoke", (245, 245, 245));
   ("yellow", (255, 255, 0));
   ("yellowgreen", (154, 205, 50))].

(** [str.isalpha] on ASCII: non-empty and letters only. *)
Definition isUpper (c : ascii) : bool := let n := nat_of_ascii c in Nat.leb 65 n && Nat.leb n 90.
Definition isLower (c : ascii) : bool := let n := nat_of_ascii c in Nat.leb 97 n && Nat.leb n 122.
Definition isAlphaChar (c : ascii) : bool := isUpper c || isLower c.
Fixpoint allAlpha (s : string) : bool :=
  match s with EmptyString => true | String c r => isAlphaChar c && allAlpha r end.
Definition isalpha (s : string) : bool :=
  match s with EmptyString => false | _ => allAlpha s end.

(** [str.lower] on ASCII. *)
Definition lowerChar (c : ascii) : ascii :=
  if isUpper c then ascii_of_nat (nat_of_ascii c + 32) else c.
Fixpoint lower (s : string) : string :=
  match s with EmptyString => EmptyString | String c r => String (lowerChar c) (lower r) end.

(** Dictionary lookup. *)
Fixpoint lookup (k : string) (l : list (string * rgb)) : option rgb :=
  match l with
  | [] => None
  | (k', v) :: r => if String.eqb k k' then Some v else lookup k r
  end.

(** Color.py:175-186 _forKeyword, 189-193 fromName. *)
Definition forKeyword (color : string) : res (option rgb) :=
  if negb (isalpha color) then Ok None
  else match lookup (lower color) keywords with
       | Some v => Ok (Some v)
       | None => Err ValueError
       end.
Definition fromName (name : string) : res (option rgb) := forKeyword name.

(** Color.py:196-200 randomRGBColor: [r], [g], [b] are the three values drawn by
    random.randint(0, 255). *)
Definition randomRGBColor (r g b : Z) : rgb := (r, g, b).

(** Python's colorsys._v and hls_to_rgb (standard library), in exact rational arithmetic. *)
Local Open Scope Q_scope.
Definition Qltb (a b : Q) : bool := negb (Qle_bool b a).
Definition qmod1 (h : Q) : Q := h - inject_Z (Qfloor h).
Definition hls_v (m1 m2 hue : Q) : Q :=
  let hue := qmod1 hue in
  if Qltb hue (1 # 6) then m1 + (m2 - m1) * hue * 6
  else if Qltb hue (1 # 2) then m2
  else if Qltb hue (2 # 3) then m1 + (m2 - m1) * ((2 # 3) - hue) * 6
  else m1.
Definition hls_to_rgb (h l s : Q) : Q * Q * Q :=
  if Qeq_bool s 0 then (l, l, l)
  else
    let m2 := if Qle_bool l (1 # 2) then l * (1 + s) else l + s - l * s in
    let m1 := 2 * l - m2 in
    (hls_v m1 m2 (h + (1 # 3)), hls_v m1 m2 h, hls_v m1 m2 (h - (1 # 3))).

(** Python's round to the nearest integer, ties to even. *)
Definition pyround (x : Q) : Z :=
  let f := Qfloor x in
  let r := x - inject_Z f in
  if Qltb r (1 # 2) then f
  else if Qltb (1 # 2) r then (f + 1)%Z
  else if Z.even f then f else (f + 1)%Z.

Local Open Scope Z_scope.
(** Color.py:202-206 _current_hue, setCurrentHue: the class attribute is the state (an integer
    hue; Python also accepts floats). *)
Definition setCurrentHue (hue : Z) : Z := hue.

(** Color.py:212-218 randomHSLColor: new state and colour. *)
Definition randomHSLColor (current_hue : Z) : Z * rgb :=
  let hue := (current_hue + 73) mod 360 in
  let '(r, g, b) := hls_to_rgb (inject_Z hue / 360)%Q (50 / 100)%Q (50 / 100)%Q in
  (hue, (pyround (r * 255)%Q, pyround (g * 255)%Q, pyround (b * 255)%Q)).
