(** Model of the bundled dyes (pvtrace/data/lumogen_f_red_305.py, pvtrace/data/fluro_red.py) and
    of load_named_spectrum (pvtrace/cli/parse.py 214-226). *)
From Coq Require Import Reals ZArith List.
From Verif Require Import Base.
Import ListNotations.
Open Scope R_scope.

(** a * np.exp(-(((p - x) / w) ** 2)) *)
Definition gauss (a p w x : R) : R := a * exp (- (((p - x) / w) * ((p - x) / w))).
(** np.max *)
Definition np_max (l : list R) : R := match l with [] => 0 | x :: r => fold_left Rmax r x end.

(** ** lumogen_f_red_305.py *)
(** 32-43: the sum of Gaussians *)
Definition lumogen_sum (x : R) : R :=
  gauss (9454846839252642 / 10 ^ 16) (5786167306868869 / 10 ^ 13) (2269760939870020 / 10 ^ 14) x +
  gauss (6430326869158796 / 10 ^ 16) (5351850303736512 / 10 ^ 13) (2863029894331116 / 10 ^ 14) x +
  gauss (1243340609168971 / 10 ^ 16) (4945721783546976 / 10 ^ 13) (1398438275367119 / 10 ^ 14) x +
  gauss (3651471532322375 / 10 ^ 16) (4404679754085741 / 10 ^ 13) (3491923613222621 / 10 ^ 14) x +
  gauss (7042787252835550 / 10 ^ 16) (3360548556730901 / 10 ^ 13) (3424136755250487 / 10 ^ 14) x.
(** spec / np.max(spec); the empty array (ValueError) is not modelled *)
Definition normalised (f : R -> R) (xs : list R) : list R := map (fun y => y / np_max (map f xs)) (map f xs).
(** 4-45 *)
Definition lumogen_absorption (xs : list R) : list R := normalised lumogen_sum xs.
(** 48-77 *)
Definition lumogen_emission (xs : list R) : list R := map (fun x => 1 * exp (- (((600 - x) / (386 / 10)) * ((600 - x) / (386 / 10))))) xs.

(** ** fluro_red.py *)
(** 30-50 *)
Definition fluro_sum (x : R) : R :=
  gauss (43906754804626956 / 10 ^ 14) (54906438843562137 / 10 ^ 14) (24298601639828647 / 10 ^ 15) x +
  gauss (85177292848284353 / 10 ^ 15) (37948645797468572 / 10 ^ 14) (13513987279089216 / 10 ^ 15) x +
  gauss (6601731296017241 / 10 ^ 13) (51958858977131513 / 10 ^ 14) (38263352007649125 / 10 ^ 15) x +
  gauss (51111501615291041 / 10 ^ 14) (49005625608592726 / 10 ^ 14) (52213294432464529 / 10 ^ 15) x.
Definition fluro_absorption (xs : list R) : list R := normalised fluro_sum xs.
Section Fluro.
(** scipy.special.erf *)
Variable erf : R -> R.
(** 81-85 emg *)
Definition emg (x a b c d : R) : R :=
  let r2 := sqrt 2 in
  a * c * sqrt (2 * PI) / (2 * d) * exp ((c * c / (2 * (d * d))) - ((x - b) / d)) * (d / Rabs d + erf ((x - b) / (r2 * c) - c / (r2 * d))).
(** 55-92 *)
Definition fluro_emission (xs : list R) : list R :=
  map (fun x => emg x (11477763237584664 / 10 ^ 16) (59206478874548839 / 10 ^ 14) (19981040318195117 / 10 ^ 15) (12723704058786568 / 10 ^ 15)) xs.

(** ** parse.py 214-226 *)
(** np.arange(start, stop, step) for positive step: ceil((stop - start) / step) points *)
Definition np_arange (start stop step : R) : list R :=
  map (fun k => start + INR k * step) (seq 0 (Z.to_nat (- (up (- ((stop - start) / step)) - 1)))).
Inductive dye := Lumogen | FluroRed.
Inductive named_type := Absorption | Emission.
Definition load_named_spectrum (min max spacing : R) (name : dye) (t : named_type) : list (R * R) :=
  let x := np_arange min (max + spacing) spacing in
  combine x (match name, t with
             | Lumogen, Absorption => lumogen_absorption x
             | Lumogen, Emission => lumogen_emission x
             | FluroRed, Absorption => fluro_absorption x
             | FluroRed, Emission => fluro_emission x
             end).
End Fluro.
