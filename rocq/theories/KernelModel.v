(** Model of pvtrace/engine/_kernel.pyx trace_one 603-897 (the compiled tracer).

    Rays, events, draws and components are those of TracerModel.v.  The flat tables
    that compiler.py builds are kept as lists and functions; the global component
    number cbase + k is the pair (container, k), and source = -1 stands for the
    light of the initial ray, as in EngineResult.histories (api.py 172-176). *)
From Coq Require Import Reals List Bool Arith.
From Verif Require Import Base Vec Interp DistModel MaterialModel OpticsModel PhaseModel TransformModel GeomModel TracerModel.
Import ListNotations.
Open Scope R_scope.

(** compiler.py 206-222: geom_type and geom_params *)
Inductive shape := Box (size : vec) | Sphere (radius : R) | Cylinder (length radius : R).

(** compiler.py 57-132 and _kernel.pyx 120-143 SceneT without the recorders.  Nodes are
    0 .. k_nodes - 1 in pre-order. [k_comps n] are the rows comp_start[n] ..
    comp_start[n] + comp_count[n] - 1 with the phase function tag and parameter; the
    field c_phase of the component is not used by the kernel. *)
Record kscene := KScene {
  k_nodes : nat;
  k_root : nat;
  k_l2w : nat -> rigid; k_w2l : nat -> rigid;
  k_shape : nat -> shape;
  k_idx : nat -> R;
  k_fresnel : nat -> bool;
  k_comps : nat -> list (component * phase) }.

(** _kernel.pyx 67-69 *)
Definition MAX_HITS : nat := 512.

(** _kernel.pyx 348-356 intersect_node and 359-400 local_normal *)
Definition intersect_node (s : shape) (o d : vec) : list R :=
  match s with
  | Box size => k_intersect_box size o d
  | Sphere r => k_intersect_sphere r o d
  | Cylinder l r => k_intersect_cylinder l r o d
  end.
Definition local_normal (s : shape) (p : vec) : vec :=
  match s with
  | Box size => k_box_normal size p
  | Sphere _ => k_sphere_normal p
  | Cylinder l _ => k_cylinder_normal l p
  end.

(** 664-666: the ray in the frame of the node *)
Definition node_ts (K : kscene) (p d : vec) (n : nat) : list R :=
  intersect_node (k_shape K n) (to_point (k_w2l K n) p) (to_vector (k_w2l K n) d).

(** 660-677: hit_node/hit_t, the first MAX_HITS crossings in node order *)
Definition all_hits (K : kscene) (p d : vec) : list (nat * R) :=
  flat_map (fun n => map (pair n) (node_ts K p d n)) (seq 0 (k_nodes K)).
Definition hit_table (K : kscene) (p d : vec) : list (nat * R) := firstn MAX_HITS (all_hits K p d).

Definition t_of (h : list (nat * R)) (i : nat) : R := snd (nth i h (0%nat, 0)).
Definition n_at (h : list (nat * R)) (i : nat) : nat := fst (nth i h (0%nat, 0)).

(** 681-684 *)
Definition k_first (h : list (nat * R)) : nat :=
  fold_left (fun first i => if Rltb (t_of h i) (t_of h first) then i else first) (seq 1 (length h - 1)) 0%nat.
(** 685-689; None is -1 *)
Definition k_second (h : list (nat * R)) (first : nat) : option nat :=
  fold_left (fun second i =>
      if Nat.eqb i first then second
      else match second with
           | None => Some i
           | Some s => if Rltb (t_of h i) (t_of h s) then Some i else second
           end) (seq 0 (length h)) None.

(** 669-676: node_hits and node_min_t (None = INFINITY) of a node *)
Definition node_min (ts : list R) : option R :=
  fold_left (fun m t => match m with None => Some t | Some v => if Rltb t v then Some t else m end) ts None.
Definition lt_best (t best : option R) : bool :=
  match t, best with
  | None, _ => false
  | Some _, None => true
  | Some a, Some b => Rltb a b
  end.
(** 698-706: container (None = -1) and best *)
Definition k_container (K : kscene) (p d : vec) : option nat :=
  fst (fold_left (fun (acc : option nat * option R) n =>
         let ts := node_ts K p d n in
         if Nat.eqb (length ts) 1 && lt_best (node_min ts) (snd acc) then (Some n, node_min ts) else acc)
       (seq 0 (k_nodes K)) (None, None)).

(** 678-712: hit, container, adjacent (None = -1), t0; None = nothing is hit *)
Definition k_next_hit (K : kscene) (p d : vec) : option (nat * nat * option nat * R) :=
  let h := hit_table K p d in
  match h with
  | [] => None
  | _ =>
      let first := k_first h in
      let hit := n_at h first in
      let t0 := t_of h first in
      if Nat.eqb (length h) 1 then Some (hit, hit, None, t0)
      else
        let container := match k_container K p d with Some c => c | None => hit end in
        let adjacent := if Nat.eqb container hit
                        then match k_second h first with Some s => n_at h s | None => hit end
                        else hit in
        Some (hit, container, Some adjacent, t0)
  end.

(** recorder.py 46-54 EVENTS / _kernel.pyx 167-173 *)
Inductive selector := Entering | Escaping | Reflected | Lost | Reacted | Killed | Exit.

(** One call of tally.  [tc_lpos] is in the frame of the node.  The guards
    n_recorders > 0 around the calls change nothing: tally loops over the recorders. *)
Record tally_call := Tally {
  tc_sel : selector; tc_node : nat; tc_normal : option vec; tc_lpos : vec;
  tc_angle : R; tc_wavelength : R; tc_travelled : R; tc_duration : R }.
Definition tally_of (K : kscene) (s : selector) (n : nat) (normal : option vec) (angle : R) (r : ray) : tally_call :=
  Tally s n normal (to_point (k_w2l K n) (position r)) angle (wavelength r) (travelled r) (duration r).

(** pos += direction * t; travelled += t; duration += t * n / C (725-728, 760-763, 840-843) *)
Definition k_propagate (r : ray) (t n : R) : ray :=
  Ray (vadd (position r) (vscale t (direction r))) (direction r) (wavelength r)
      (travelled r + t) (duration r + t * n / speed_of_light) (source r).

Inductive koutcome :=
| KStop (evs : list event) (ts : list tally_call)
| KContinue (evs : list event) (ts : list tally_call) (r : ray)
| KNan.   (** a nan enters the state (or an unsupported emission table) *)

(** 733-735: angle at the exit *)
Definition k_exit_angle (nrm d : vec) : R :=
  let dd := Rabs (dot nrm d) in acos (if Rltb 1 dd then 1 else dd).

(** 759-837 *)
Definition k_absorb (K : kscene) (m : emit_method) (u : draws) (container : nat) (depth : R) (r : ray) : koutcome :=
  let cs := k_comps K container in
  let r := k_propagate r depth (k_idx K container) in
  let k := k_select (map (fun c => k_coefficient (c_dist (fst c)) (wavelength r)) cs) (u_comp u) in
  match nth_error cs k with
  | None => KNan
  | Some (c, ph) =>
      let ev := Event ABSORB r None (Some container) None (Some k) None in
      if k_is_radiative (c_kind c) (c_qy c) (u_rad u) then
        let d := k_sample_phase ph (u_ph1 u) (u_ph2 u) in
        match c_kind c with
        | Luminophore =>
            match c_ems c with
            | DConst _ => KNan
            | DTable _ xs _ cdf =>
                let r' := Ray (position r) d (k_emit_wavelength xs cdf m (wavelength r) (u_wl u)) (travelled r)
                              (duration r + k_delay (c_tau_rad c) (u_tau u)) (Emitter container k) in
                KContinue [ev; Event EMIT r' None (Some container) None (Some k) None] [] r'
            end
        | _ =>
            let r' := Ray (position r) d (wavelength r) (travelled r) (duration r) (Emitter container k) in
            KContinue [ev; Event SCATTER r' None (Some container) None (Some k) None] [] r'
        end
      else
        let r' := Ray (position r) (direction r) (wavelength r) (travelled r)
                      (duration r + k_delay (c_tau_nr c) (u_tau u)) (source r) in
        let '(kd, sel) := match c_kind c with Reactor => (REACT, Reacted) | _ => (NONRADIATIVE, Lost) end in
        KStop [ev; Event kd r' None (Some container) None (Some k) None] [tally_of K sel container None 0 r']
  end.

(** 839-895 *)
Definition k_surface (K : kscene) (u : draws) (hit container : nat) (adjacent : option nat) (t0 : R) (r : ray) : koutcome :=
  let r := k_propagate r t0 (k_idx K container) in
  match adjacent with
  | None => KStop [Event KILL r (Some hit) (Some container) None None None] []
  | Some a =>
      let nrm := to_vector (k_l2w K hit) (local_normal (k_shape K hit) (to_point (k_w2l K hit) (position r))) in
      let flipped := if Rltb (dot nrm (direction r)) 0 then vneg nrm else nrm in
      let angle := k_angle nrm (direction r) in
      let n1 := k_idx K container in
      let n2 := k_idx K a in
      match (if k_fresnel K hit then k_fresnel_reflectivity angle n1 n2 else Some 0) with
      | None => KNan
      | Some refl =>
          if k_is_reflected refl (u_surf u) then
            let r' := with_direction r (k_specular_reflect (direction r) nrm) in
            KContinue [Event REFLECT r' (Some hit) (Some container) (Some a) None (Some nrm)]
                      (if Nat.eqb container hit then [] else [tally_of K Reflected hit (Some nrm) angle r']) r'
          else
            match (if k_fresnel K hit then k_fresnel_refract (direction r) flipped n1 n2 else Some (direction r)) with
            | None => KNan
            | Some d =>
                let r' := with_direction r d in
                KContinue [Event TRANSMIT r' (Some hit) (Some container) (Some a) None (Some nrm)]
                          [tally_of K (if Nat.eqb container hit then Escaping else Entering) hit (Some nrm) angle r'] r'
            end
      end
  end.

(** 658-895: one pass after the event-budget test, with counter value [count] *)
Definition k_pass (K : kscene) (maxsteps : nat) (m : emit_method) (u : draws) (count : nat) (r : ray) : koutcome :=
  match k_next_hit K (position r) (direction r) with
  | None => KStop [] []
  | Some (hit, container, adjacent, t0) =>
      if Nat.ltb maxsteps count then
        KStop [Event KILL r None (Some container) None None None] [tally_of K Killed container None 0 r]
      else if Nat.eqb hit (k_root K) then
        let r' := k_propagate r t0 (k_idx K container) in
        let nrm := to_vector (k_l2w K hit) (local_normal (k_shape K hit) (to_point (k_w2l K hit) (position r'))) in
        KStop [Event EXIT r' (Some hit) (Some container) adjacent None None]
              [tally_of K Exit hit (Some nrm) (k_exit_angle nrm (direction r')) r']
      else
        match k_depth (k_total (map fst (k_comps K container)) (wavelength r)) (u_depth u) with
        | Fin x => if Rltb x t0 then k_absorb K m u container x r else k_surface K u hit container adjacent t0 r
        | Infinite => k_surface K u hit container adjacent t0 r
        end
  end.

(** 562-597 record.  [budget] is None when the ray is not logged (base < 0) and
    max_events otherwise; the log is the list of rows written for this ray, so count[0]
    is its length. *)
Definition record (budget : option nat) (log : list event) (e : event) : list event :=
  match budget with
  | None => log
  | Some max_events => if Nat.leb max_events (length log) then log else log ++ [e]
  end.

(** 655-656: the event-budget test (max_events - 1 in signed arithmetic) *)
Definition budget_spent (budget : option nat) (log : list event) : bool :=
  match budget with None => false | Some max_events => Nat.leb max_events (length log + 1) end.

Inductive kstatus := KDone | KBudget | KBroken | KRunning.

(** 651-895 the while loop: log, tally calls, how it ended *)
Fixpoint k_loop (fuel : nat) (K : kscene) (budget : option nat) (maxsteps : nat) (m : emit_method)
    (us : nat -> draws) (count : nat) (log : list event) (r : ray) : list event * list tally_call * kstatus :=
  match fuel with
  | O => (log, [], KRunning)
  | S fuel' =>
      if budget_spent budget log then
        (record budget log (Event KILL r None None None None None), [], KBudget)
      else
        match k_pass K maxsteps m (us (S count)) (S count) r with
        | KNan => (log, [], KBroken)
        | KStop evs ts => (fold_left (record budget) evs log, ts, KDone)
        | KContinue evs ts r' =>
            let '(log', ts', st) := k_loop fuel' K budget maxsteps m us (S count) (fold_left (record budget) evs log) r' in
            (log', ts ++ ts', st)
        end
  end.

(** 603-897 trace_one for draws [us]: log rows, tally calls *)
Definition trace_one (fuel : nat) (K : kscene) (budget : option nat) (maxsteps : nat) (m : emit_method)
    (us : nat -> draws) (r : ray) : list event * list tally_call * kstatus :=
  k_loop fuel K budget maxsteps m us 0 (record budget [] (Event GENERATE r None None None None None)) r.
