(** Model of the direction and position samplers: pvtrace/material/utils.py 91-186,
    pvtrace/light/light.py 48-77 and 235-262, pvtrace/engine/emit.py 15-89,
    pvtrace/engine/_kernel.pyx 449-476.  Each uniform draw is an argument, in the
    order in which the code makes the draws. *)
From Coq Require Import Reals List Bool.
From Verif Require Import Base Vec.
Import ListNotations.
Open Scope R_scope.

(** geometry/utils.py 12: EPS_ZERO = finfo(float).eps * 1000, eps = 2^-52 *)
Definition EPS_ZERO : R := 1000 / 2 ^ 52.

(** geometry/utils.py 356 close_to_zero *)
Definition close_to_zero (x : R) : bool := Rltb (Rabs x) EPS_ZERO.

(** material/utils.py 91-98 spherical_to_cart (r = 1) *)
Definition spherical_to_cart (theta phi : R) : vec :=
  V (sin theta * cos phi) (sin theta * sin phi) (cos theta).

(** material/utils.py 104-111 isotropic *)
Definition isotropic (g1 g2 : R) : vec :=
  let phi := 2 * PI * g1 in
  let mu := 2 * g2 - 1 in
  let theta := acos mu in
  spherical_to_cart theta phi.

(** material/utils.py 114-127 henyey_greenstein.  [p] is drawn first; [u2] is the
    azimuth draw; in the isotropic branch two further draws are made, here [u2],[u3].
    [None] = ZeroDivisionError (1/(2*g) is evaluated before the close_to_zero test). *)
Definition hg_mu (g p : R) : R :=
  let s := 2 * p - 1 in
  1 / (2 * g) * (1 + g ^ 2 - ((1 - g ^ 2) / (1 + g * s)) ^ 2).
Definition henyey_greenstein (g p u2 u3 : R) : option vec :=
  if Reqb (2 * g) 0 then None
  else if Reqb (1 + g * (2 * p - 1)) 0 then None
  else
    let mu := hg_mu g p in
    if close_to_zero g then Some (isotropic u2 u3)
    else Some (spherical_to_cart (acos mu) (2 * PI * u2)).

(** material/utils.py 143-163 cone; [None] = ValueError.
    np.isclose(theta_max, 0.0) is |theta_max| <= 1e-8. *)
Definition cone (theta_max p1 p2 : R) : option vec :=
  if Rleb (Rabs theta_max) (/ 10 ^ 8) || Rltb (PI / 2) theta_max then None
  else Some (spherical_to_cart (asin (sqrt p1 * sin theta_max)) (2 * PI * p2)).

(** material/utils.py 176-186 lambertian *)
Definition lambertian (p1 p2 : R) : vec :=
  spherical_to_cart (asin (sqrt p1)) (2 * PI * p2).

(** _kernel.pyx phase types and sample_phase 455-476 *)
Inductive phase := PhIsotropic | PhHenyeyGreenstein (g : R) | PhCone (theta_max : R).
Definition k_sample_phase (ph : phase) (d1 d2 : R) : vec :=
  match ph with
  | PhHenyeyGreenstein g =>
      if Rleb EPS_ZERO (Rabs g) then
        let s := 2 * d1 - 1 in
        let mu := 1 / (2 * g) * (1 + g * g - ((1 - g * g) / (1 + g * s)) ^ 2) in
        let phi := 2 * PI * d2 in
        spherical_to_cart (acos mu) phi
      else spherical_to_cart (acos (2 * d2 - 1)) (2 * PI * d1)
  | PhCone t => spherical_to_cart (asin (sqrt d1 * sin t)) (2 * PI * d2)
  | PhIsotropic => spherical_to_cart (acos (2 * d2 - 1)) (2 * PI * d1)
  end.

(** engine/emit.py 62-89 _sample_directions, one row.  Draws in array order. *)
Definition e_isotropic (d1 d2 : R) : vec := spherical_to_cart (acos (2 * d2 - 1)) (2 * PI * d1).
Definition e_cone (t d1 d2 : R) : vec := spherical_to_cart (asin (sqrt d1 * sin t)) (2 * PI * d2).
Definition e_lambertian (d1 d2 : R) : vec := spherical_to_cart (asin (sqrt d1)) (2 * PI * d2).
Definition e_henyey_greenstein (g d1 d2 : R) : vec :=
  if Rltb (Rabs g) (/ 10 ^ 12) then e_isotropic d1 d2
  else
    let s := 2 * d1 - 1 in
    let mu := (1 + g * g - ((1 - g * g) / (1 + g * s)) ^ 2) / (2 * g) in
    spherical_to_cart (acos mu) (2 * PI * d2).

(** np.random.uniform(a, b) for the underlying draw u *)
Definition uniform (a b u : R) : R := a + (b - a) * u.

(** light/light.py 60-61, 64-69, 72-77 *)
Definition rectangular_mask (X Y u1 u2 : R) : vec := V (uniform (- X) X u1) (uniform (- Y) Y u2) 0.
Definition circular_mask (radius u1 u2 : R) : vec :=
  let rads := uniform 0 (2 * PI) u1 in
  let r := sqrt u2 * radius in
  V (r * cos rads) (r * sin rads) 0.
Definition cube_mask (X Y Z u1 u2 u3 : R) : vec :=
  V (uniform (- X) X u1) (uniform (- Y) Y u2) (uniform (- Z) Z u3).

(** light/light.py 235-262 Light.emit: the number of rays the iterator yields.
    [None] for num_rays=None. The loop is transcribed with fuel for the while. *)
Fixpoint light_emit_loop (fuel : nat) (num_rays count : nat) : nat :=
  match fuel with
  | O => 0
  | S f => let count := S count in
           if Nat.ltb num_rays count then 0 else S (light_emit_loop f num_rays count)
  end.
Definition light_emit (num_rays : option nat) (fuel : nat) : nat :=
  match num_rays with
  | None => 0
  | Some O => 0
  | Some n => light_emit_loop fuel n 0
  end.
