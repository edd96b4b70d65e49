(** The HSL colours of CSS Color Module Level 4 (section 7.1, sample code), over the reals. *)
From Coq Require Import ZArith Reals List QArith.
From Flocq Require Import Core.
Import ListNotations.
Local Open Scope R_scope.

Definition remainderR (x m : R) : R := x - m * IZR (Zfloor (x / m)).
(** Hue [h] in degrees, saturation [s], lightness [l]; the channel is given by [n]: 0 red, 8 green, 4 blue. *)
Definition css_channelR (h s l n : R) : R :=
  let k := remainderR (n + h / 30) 12 in
  l - s * Rmin l (1 - l) * Rmax (-1) (Rmin (Rmin (k - 3) (9 - k)) 1).

(** A nearest integer, whichever way a tie goes. *)
Definition nearest (z : Z) (q : Q) : Prop := (- (1 # 2) <= inject_Z z - q)%Q /\ (inject_Z z - q <= 1 # 2)%Q.
(** The whole hues at which double precision gives another colour than exact arithmetic: a component whose exact
    value ends in one half is rounded the other way. *)
Definition ties : list Z := [66; 106; 114; 174; 210; 226; 270; 278; 306; 314; 346; 354]%Z.
