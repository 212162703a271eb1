(** Model of pvtrace/material/material.py, pvtrace/material/component.py and the
    volume part of pvtrace/engine/_kernel.pyx trace_one. *)
From Coq Require Import Reals ZArith List Bool Arith.
From Verif Require Import Base Vec Interp DistModel.
Import ListNotations.
Open Scope R_scope.

(** material/component.py class hierarchy 18-273; isinstance tests in
    photon_tracer.py 204-209, 221 and compiler.py 253-260 distinguish exactly
    these four kinds. *)
Inductive ckind := Scatterer | Absorber | Reactor | Luminophore.

(** A component.  [c_tau_rad]/[c_tau_nr] are 0 when the Python attribute is None
    or 0 (both are falsy in the tests of component.py 159 and 430).
    [c_phase] is the phase function as a function of its two uniform draws;
    [None] = it raises. [c_ems] is used by luminophores only. *)
Record component := Component {
  c_kind : ckind;
  c_dist : dist;
  c_qy : R;
  c_tau_rad : R;
  c_tau_nr : R;
  c_phase : R -> R -> option vec;
  c_ems : dist }.

(** Optional arguments for the quantum yield. *)
Inductive qy_result := QyOk (q : R) | QyError.

(** material/component.py 121-134: quantum yield from the constructor arguments.
    A zero denominator gives nan (numpy) or ZeroDivisionError (float): error. *)
Definition mk_qy (qy tau_rad tau_nr : option R) : qy_result :=
  match tau_rad, tau_nr with
  | Some r, Some n => if Reqb (n + r) 0 then QyError else QyOk (n / (n + r))
  | _, _ => match qy with Some q => QyOk q | None => QyError end
  end.

(** material/component.py 191-224: Absorber (hence Reactor) always passes
    quantum_yield=0.0 and tau_rad=0.0. *)
Definition mk_qy_absorber (tau_nr : option R) : qy_result := mk_qy (Some 0) (Some 0) tau_nr.

(** component.py 147-150 and 226-229 is_radiative for draw [u] *)
Definition is_radiative (k : ckind) (qy u : R) : bool :=
  match k with
  | Absorber | Reactor => false
  | Scatterer | Luminophore => Rltb u qy
  end.

(** _kernel.pyx 793-795: the kernel's test *)
Definition k_is_radiative (k : ckind) (qy u : R) : bool :=
  match k with
  | Scatterer | Luminophore => Rltb u qy
  | _ => false
  end.

(** component.py 152-162 / 428-431: exponential delay, 0 without a lifetime;
    _kernel.pyx 818-819 and 828-829 test tau > 0 instead of truthiness. *)
Definition delay (tau u : R) : R := if Reqb tau 0 then 0 else - ln (1 - u) * tau.
Definition k_delay (tau u : R) : R := if Rltb 0 tau then - ln (1 - u) * tau else 0.

(** material.py 17-20; [None] when some component raises (x outside its data) *)
Fixpoint coefficients (cs : list component) (nm : R) : option (list R) :=
  match cs with
  | [] => Some []
  | c :: r =>
      match dist_call (c_dist c) nm, coefficients r nm with
      | Some a, Some l => Some (a :: l)
      | _, _ => None
      end
  end.
Definition total_attenuation (cs : list component) (nm : R) : option R :=
  match coefficients cs nm with Some l => Some (rsum l) | None => None end.

(** _kernel.pyx 746-752: running sum over the container's components *)
Fixpoint k_total_from (acc : R) (cs : list component) (nm : R) : R :=
  match cs with
  | [] => acc
  | c :: r => k_total_from (acc + k_coefficient (c_dist c) nm) r nm
  end.
Definition k_total (cs : list component) (nm : R) : R := k_total_from 0 cs nm.

(** A depth in centimetres or float('inf'). *)
Inductive depth := Fin (d : R) | Infinite.

(** np.isclose(alpha, 0.0): |alpha| <= atol = 1e-8 *)
Definition alpha_tol : R := / 10 ^ 8.
Definition isclose_zero (a : R) : bool := Rleb (Rabs a) alpha_tol.

(** material.py 26-45 penetration_depth for draw [u].  Non-finite alpha cannot
    occur over the reals. *)
Definition penetration_depth (alpha u : R) : depth :=
  if isclose_zero alpha then Infinite else Fin (- ln (1 - u) / alpha).

(** material.py 22-24 is_absorbed *)
Definition depth_ltb (d : depth) (x : R) : bool :=
  match d with Fin v => Rltb v x | Infinite => false end.

(** _kernel.pyx 753-757 *)
Definition k_depth (alpha u : R) : depth :=
  if Rltb alpha_tol alpha then Fin (- ln (1 - u) / alpha) else Infinite.

(** Consecutive integers k, k+1, ... as reals *)
Fixpoint from_nat (k : nat) (n : nat) : list R :=
  match n with O => [] | S m => INR k :: from_nat (S k) m end.

(** int(np.floor(x)) for x >= 0 *)
Definition floor_nat (x : R) : nat := Z.to_nat (Int_part x).

(** material.py 47-63 Material.component: index of the chosen component for draw
    [u].  np.interp without left/right clamps; for u in [0,1) it is inside. *)
Definition select_component (coefs : list R) (u : R) : option nat :=
  if existsb (fun c => Rltb c 0) coefs then None
  else match cumsum coefs with
  | [] => None
  | c0 :: cr =>
      let m := np_max c0 cr in
      if Reqb m 0 then None
      else
        let pdf := 0 :: map (fun v => v / m) (c0 :: cr) in
        match np_interp (combine pdf (from_nat 0 (S (length coefs)))) u with
        | Some v => Some (floor_nat v)
        | None => None
        end
  end.

(** _kernel.pyx 765-778: first index whose running sum reaches the target,
    index 0 if none does. *)
Fixpoint k_select_from (k : nat) (running target : R) (coefs : list R) : option nat :=
  match coefs with
  | [] => None
  | a :: r => if Rleb target (running + a) then Some k
              else k_select_from (S k) (running + a) target r
  end.
Definition k_select (coefs : list R) (u : R) : nat :=
  match k_select_from 0 0 (u * rsum coefs) coefs with Some k => k | None => 0 end.
