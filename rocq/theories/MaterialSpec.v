(** Specifications for the volume physics. *)
From Coq Require Import Reals List.
From Verif Require Import Base.
Import ListNotations.
Open Scope R_scope.

(** Sum of the first [i] attenuation coefficients. *)
Definition psum (coefs : list R) (i : nat) : R := rsum (firstn i coefs).

(** Beer-Lambert: probability of being absorbed within distance [D]. *)
Definition absorbed_fraction (alpha D : R) : R := 1 - exp (- alpha * D).
