(** Model of pvtrace/light/utils.py: the colour of a wavelength. *)
From Coq Require Import Reals ZArith List Bool.
From Verif Require Import Base TallyModel.
Import ListNotations.
Open Scope R_scope.

(** 26-40: the colour before the intensity correction, for w = int(nanometers) *)
Definition base_colour (w : Z) : R * R * R :=
  (if (380 <=? w)%Z && (w <? 440)%Z then (- (IZR w - 440) / (440 - 350), 0, 1)
   else if (440 <=? w)%Z && (w <? 490)%Z then (0, (IZR w - 440) / (490 - 440), 1)
   else if (490 <=? w)%Z && (w <? 510)%Z then (0, 1, - (IZR w - 510) / (510 - 490))
   else if (510 <=? w)%Z && (w <? 580)%Z then ((IZR w - 510) / (580 - 510), 1, 0)
   else if (580 <=? w)%Z && (w <? 645)%Z then (1, - (IZR w - 645) / (645 - 580), 0)
   else if (645 <=? w)%Z && (w <=? 780)%Z then (1, 0, 0)
   else (0, 0, 0)).

(** 42-51: the intensity correction, times 255 *)
Definition intensity (w : Z) : R :=
  (if (380 <=? w)%Z && (w <? 420)%Z then 3 / 10 + 7 / 10 * (IZR w - 350) / (420 - 350)
   else if (420 <=? w)%Z && (w <=? 700)%Z then 1
   else if (700 <? w)%Z && (w <=? 780)%Z then 3 / 10 + 7 / 10 * (780 - IZR w) / (780 - 700)
   else 0) * 255.

(** 7-53 wavelength_to_rgb; int() is [trunc] of TallyModel.v.  Rounding of the floats is not
    modelled. *)
Definition wavelength_to_rgb (nanometers : R) : Z * Z * Z :=
  let w := trunc nanometers in
  let '(r, g, b) := base_colour w in
  let s := intensity w in
  (trunc (s * r), trunc (s * g), trunc (s * b)).

(** 77-78 *)
Definition clamp (x : Z) : Z := Z.max 0 (Z.min x 255).
(** "{:02x}": the hexadecimal digits of 0 <= x <= 255, at least two *)
Definition hex2 (x : Z) : list Z := [x / 16; x mod 16]%Z.
(** int(digits, 16) *)
Definition parse_hex (digits : list Z) : Z := fold_left (fun acc d => acc * 16 + d)%Z digits 0%Z.
(** 56-82 rgb_to_hex_int *)
Definition rgb_to_hex_int (rgb : Z * Z * Z) : Z :=
  let '(r, g, b) := rgb in parse_hex (hex2 (clamp r) ++ hex2 (clamp g) ++ hex2 (clamp b)).
(** 85-86 *)
Definition wavelength_to_hex_int (nanometers : R) : Z := rgb_to_hex_int (wavelength_to_rgb nanometers).
