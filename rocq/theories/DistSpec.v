(** What a user expects of a sampled spectrum, independent of the code. *)
From Coq Require Import Reals List.
Import ListNotations.
Open Scope R_scope.

(** [l] never decreases. *)
Fixpoint nondecreasing (l : list R) : Prop :=
  match l with
  | a :: ((b :: _) as r) => a <= b /\ nondecreasing r
  | _ => True
  end.

Fixpoint increasing (l : list R) : Prop :=
  match l with
  | a :: ((b :: _) as r) => a < b /\ increasing r
  | _ => True
  end.

(** A cumulative table: from 0 to 1 without decreasing. *)
Definition proper_cdf (l : list R) : Prop :=
  nondecreasing l /\ hd 1 l = 0 /\ last l 0 = 1.

(** Area under the polyline through (x_i, y_i), up to knot [i]. *)
Fixpoint area_to (i : nat) (xs ys : list R) : R :=
  match i, xs, ys with
  | S j, x0 :: ((x1 :: _) as xr), y0 :: ((y1 :: _) as yr) =>
      (x1 - x0) * (y0 + y1) / 2 + area_to j xr yr
  | _, _, _ => 0
  end.

(** Equally spaced abscissae. *)
Fixpoint uniform_spacing (h : R) (xs : list R) : Prop :=
  match xs with
  | a :: ((b :: _) as r) => b - a = h /\ uniform_spacing h r
  | _ => True
  end.
