(** Model of trace_one (pvtrace/engine/_kernel.pyx 603-897) with its random number generator: the
    numbers are taken from the generator one after the other, where KernelModel.v is given the
    numbers of each pass by purpose.  Everything else is as in KernelModel.v. *)
From Coq Require Import Reals List Bool Arith.
From Verif Require Import Base Vec Interp DistModel MaterialModel OpticsModel PhaseModel TransformModel GeomModel TracerModel KernelModel RngModel.
Import ListNotations.
Open Scope R_scope.

Section Stream.
(** the RNG struct (76-80), the number rng_uniform returns and the struct after it (103-113) *)
Variable G : Type.
Variable draw : G -> R.
Variable next : G -> G.
Definition uniform (g : G) : R * G := (draw g, next g).

(** 455-476 sample_phase *)
Definition s_phase (ph : phase) (g : G) : vec * G :=
  match ph with
  | PhHenyeyGreenstein p =>
      if Rleb EPS_ZERO (Rabs p) then
        let '(g1, g) := uniform g in
        let s := 2 * g1 - 1 in
        let mu := 1 / (2 * p) * (1 + p * p - ((1 - p * p) / (1 + p * s)) ^ 2) in
        let '(u, g) := uniform g in
        (spherical_to_cart (acos mu) (2 * PI * u), g)
      else
        let '(g1, g) := uniform g in
        let '(g2, g) := uniform g in
        (spherical_to_cart (acos (2 * g2 - 1)) (2 * PI * g1), g)
  | PhCone t =>
      let '(g1, g) := uniform g in
      let '(g2, g) := uniform g in
      (spherical_to_cart (asin (sqrt g1 * sin t)) (2 * PI * g2), g)
  | PhIsotropic =>
      let '(g1, g) := uniform g in
      let '(g2, g) := uniform g in
      (spherical_to_cart (acos (2 * g2 - 1)) (2 * PI * g1), g)
  end.

(** 809-810 and 818-819 *)
Definition s_delay (tau : R) (g : G) : R * G :=
  if Rltb 0 tau then let '(u, g) := uniform g in (- ln (1 - u) * tau, g) else (0, g).

(** 787-788: the number is drawn only when the type of the component is one of the two *)
Definition s_radiative (k : ckind) (qy : R) (g : G) : bool * G :=
  match k with
  | Scatterer | Luminophore => let '(u, g) := uniform g in (Rltb u qy, g)
  | _ => (false, g)
  end.

(** 762-832 *)
Definition s_absorb (K : kscene) (m : emit_method) (container : nat) (depth : R) (r : ray) (g : G) : koutcome * G :=
  let cs := k_comps K container in
  let r := k_propagate r depth (k_idx K container) in
  let '(u, g) := uniform g in
  let k := k_select (map (fun c => k_coefficient (c_dist (fst c)) (wavelength r)) cs) u in
  match nth_error cs k with
  | None => (KNan, g)
  | Some (c, ph) =>
      let ev := Event ABSORB r None (Some container) None (Some k) None in
      let '(radiative, g) := s_radiative (c_kind c) (c_qy c) g in
      if radiative then
        let '(d, g) := s_phase ph g in
        match c_kind c with
        | Luminophore =>
            match c_ems c with
            | DConst _ => (KNan, g)
            | DTable _ xs _ cdf =>
                let '(u, g) := uniform g in
                let w := k_emit_wavelength xs cdf m (wavelength r) u in
                let '(dt, g) := s_delay (c_tau_rad c) g in
                let r' := Ray (position r) d w (travelled r) (duration r + dt) (Emitter container k) in
                (KContinue [ev; Event EMIT r' None (Some container) None (Some k) None] [] r', g)
            end
        | _ =>
            let r' := Ray (position r) d (wavelength r) (travelled r) (duration r) (Emitter container k) in
            (KContinue [ev; Event SCATTER r' None (Some container) None (Some k) None] [] r', g)
        end
      else
        let '(dt, g) := s_delay (c_tau_nr c) g in
        let r' := Ray (position r) (direction r) (wavelength r) (travelled r) (duration r + dt) (source r) in
        let '(kd, sel) := match c_kind c with Reactor => (REACT, Reacted) | _ => (NONRADIATIVE, Lost) end in
        (KStop [ev; Event kd r' None (Some container) None (Some k) None] [tally_of K sel container None 0 r'], g)
  end.

(** 834-895; the number is drawn only when the surface can reflect (872-873) *)
Definition s_surface (K : kscene) (hit container : nat) (adjacent : option nat) (t0 : R) (r : ray) (g : G) : koutcome * G :=
  let r := k_propagate r t0 (k_idx K container) in
  match adjacent with
  | None => (KStop [Event KILL r (Some hit) (Some container) None None None] [], g)
  | Some a =>
      let nrm := to_vector (k_l2w K hit) (local_normal (k_shape K hit) (to_point (k_w2l K hit) (position r))) in
      let flipped := if Rltb (dot nrm (direction r)) 0 then vneg nrm else nrm in
      let angle := k_angle nrm (direction r) in
      let n1 := k_idx K container in
      let n2 := k_idx K a in
      match (if k_fresnel K hit then k_fresnel_reflectivity angle n1 n2 else Some 0) with
      | None => (KNan, g)
      | Some refl =>
          let '(u, g) := if Rltb 0 refl then uniform g else (1, g) in
          if Rltb u refl then
            let r' := with_direction r (k_specular_reflect (direction r) nrm) in
            (KContinue [Event REFLECT r' (Some hit) (Some container) (Some a) None (Some nrm)]
                      (if Nat.eqb container hit then [] else [tally_of K Reflected hit (Some nrm) angle r']) r', g)
          else
            match (if k_fresnel K hit then k_fresnel_refract (direction r) flipped n1 n2 else Some (direction r)) with
            | None => (KNan, g)
            | Some d =>
                let r' := with_direction r d in
                (KContinue [Event TRANSMIT r' (Some hit) (Some container) (Some a) None (Some nrm)]
                          [tally_of K (if Nat.eqb container hit then Escaping else Entering) hit (Some nrm) angle r'] r', g)
            end
      end
  end.

(** 658-895; the depth is drawn only in a medium that attenuates (758-760) *)
Definition s_pass (K : kscene) (maxsteps : nat) (m : emit_method) (count : nat) (r : ray) (g : G) : koutcome * G :=
  match k_next_hit K (position r) (direction r) with
  | None => (KStop [] [], g)
  | Some (hit, container, adjacent, t0) =>
      if Nat.ltb maxsteps count then
        (KStop [Event KILL r None (Some container) None None None] [tally_of K Killed container None 0 r], g)
      else if Nat.eqb hit (k_root K) then
        let r' := k_propagate r t0 (k_idx K container) in
        let nrm := to_vector (k_l2w K hit) (local_normal (k_shape K hit) (to_point (k_w2l K hit) (position r'))) in
        (KStop [Event EXIT r' (Some hit) (Some container) adjacent None None]
              [tally_of K Exit hit (Some nrm) (k_exit_angle nrm (direction r')) r'], g)
      else
        let alpha := k_total (map fst (k_comps K container)) (wavelength r) in
        let '(depth, g) := if Rltb alpha_tol alpha then let '(u, g) := uniform g in (Fin (- ln (1 - u) / alpha), g) else (Infinite, g) in
        match depth with
        | Fin x => if Rltb x t0 then s_absorb K m container x r g else s_surface K hit container adjacent t0 r g
        | Infinite => s_surface K hit container adjacent t0 r g
        end
  end.

(** 651-895: log, tally calls, how it ended, and the generator *)
Fixpoint s_loop (fuel : nat) (K : kscene) (budget : option nat) (maxsteps : nat) (m : emit_method)
    (count : nat) (log : list event) (r : ray) (g : G) : list event * list tally_call * kstatus * G :=
  match fuel with
  | O => (log, [], KRunning, g)
  | S fuel' =>
      if budget_spent budget log then
        (record budget log (Event KILL r None None None None None), [], KBudget, g)
      else
        match s_pass K maxsteps m (S count) r g with
        | (KNan, g) => (log, [], KBroken, g)
        | (KStop evs ts, g) => (fold_left (record budget) evs log, ts, KDone, g)
        | (KContinue evs ts r', g) =>
            let '(log', ts', st, g) := s_loop fuel' K budget maxsteps m (S count) (fold_left (record budget) evs log) r' g in
            (log', ts ++ ts', st, g)
        end
  end.
Definition s_trace (fuel : nat) (K : kscene) (budget : option nat) (maxsteps : nat) (m : emit_method)
    (r : ray) (g : G) : list event * list tally_call * kstatus * G :=
  s_loop fuel K budget maxsteps m 0 (record budget [] (Event GENERATE r None None None None None)) r g.
End Stream.

(** trace_one: the generator is seeded from the argument (649) *)
Definition trace_seeded (fuel : nat) (K : kscene) (budget : option nat) (maxsteps : nat) (m : emit_method) (seed : Z) (r : ray)
    : list event * list tally_call * kstatus :=
  fst (s_trace rng rng_draw rng_next fuel K budget maxsteps m r (rng_seed seed)).
