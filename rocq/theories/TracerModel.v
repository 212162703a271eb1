(** Model of pvtrace/algorithm/photon_tracer.py (the Python tracer), with
    light/ray.py and light/event.py. *)
From Coq Require Import Reals List Bool Arith.
From Verif Require Import Base Vec DistModel MaterialModel OpticsModel PhaseModel TransformModel.
Import ListNotations.
Open Scope R_scope.

(** light/ray.py 42: name of the light, or of the component that emitted last.
    Components are identified by node and position in its material instead of by
    name. *)
Inductive src := Light (l : nat) | Emitter (node comp : nat).

(** light/ray.py 38-43.  [wavelength] is never None once a light emitted the ray. *)
Record ray := Ray {
  position : vec; direction : vec; wavelength : R; travelled : R; duration : R; source : src }.

(** light/ray.py 12 *)
Definition speed_of_light : R := 299792458 * 100.

(** light/ray.py 52-75.  For distance 0 numpy gives 1 / inf = 0. *)
Definition flight_time (distance n : R) : R :=
  if Reqb distance 0 then 0 else 1 / (speed_of_light / n / distance).
Definition propagate (r : ray) (distance n : R) : ray :=
  Ray (vadd (position r) (vscale distance (direction r))) (direction r) (wavelength r)
      (travelled r + distance) (duration r + flight_time distance n) (source r).

(** light/ray.py 77-95, with the transformation between the two nodes given *)
Definition representation (g : rigid) (r : ray) : ray :=
  Ray (to_point g (position r)) (to_vector g (direction r)) (wavelength r) (travelled r) (duration r) (source r).
Definition with_direction (r : ray) (d : vec) : ray :=
  Ray (position r) d (wavelength r) (travelled r) (duration r) (source r).

(** light/event.py *)
Inductive kind := GENERATE | REFLECT | TRANSMIT | ABSORB | NONRADIATIVE | SCATTER | EMIT | EXIT | REACT | KILL.

(** What step_forward yields.  Metadata keys that are absent are None; the KILL
    metadata numbers and emit_method are not kept.  [e_comp] is the position of the
    component in the container's material. *)
Record event := Event {
  e_kind : kind; e_ray : ray;
  e_hit : option nat; e_container : option nat; e_adjacent : option nat;
  e_comp : option nat; e_normal : option vec }.

(** The uniform draws one pass of the loop can use, by purpose.  Each purpose draws
    at most once per pass, so any sequence of numbers from the generator gives some
    assignment. [u_d1], [u_d2] are for custom surface delegates. *)
Record draws := Draws {
  u_depth : R; u_comp : R; u_rad : R; u_ph1 : R; u_ph2 : R; u_wl : R; u_tau : R;
  u_surf : R; u_d1 : R; u_d2 : R }.

(** material/surface.py: a surface as its delegate's three methods.  Arguments: draws,
    ray in the frame of the hit node, hit, container, adjacent; None = raises. *)
Definition delegate_method A := draws -> ray -> nat -> nat -> option nat -> option A.
Record surface := Surface {
  s_reflectivity : delegate_method R;
  s_reflected : delegate_method vec;
  s_transmitted : delegate_method vec }.

(** A scene as seen by the tracer.  [l2w n]/[w2l n] are n.transformation_to(root) and
    root.transformation_to(n); [hits] is scene.intersections (ray in world
    coordinates); [normal_of] is geometry.normal of the node (None = raises);
    every node with geometry has a material. *)
Record scene := Scene {
  root : nat;
  l2w : nat -> rigid; w2l : nat -> rigid;
  hits : vec -> vec -> list intersection;
  n_of : nat -> R;
  comps : nat -> list component;
  normal_of : nat -> vec -> option vec;
  surf : nat -> surface }.

(** photon_tracer.py 26-57 find_container; None = ValueError from unpacking zip() of
    an empty list.  Counter(...)[node] == 1 is [count_hits]. *)
Definition count_hits (n : nat) (l : list intersection) : nat :=
  length (filter (fun i => Nat.eqb (h_node i) n) l).
Definition find_container (l : list intersection) : option nat :=
  match l with
  | [i] => Some (h_node i)
  | _ =>
      match sort_by h_distance (filter (fun i => Nat.eqb (count_hits (h_node i) l) 1) l) with
      | [] => None
      | i :: _ => Some (h_node i)
      end
  end.

Inductive hit_info :=
| NoHit
| HitError
| HitOk (hit container : nat) (adjacent : option nat) (distance : R).

(** photon_tracer.py 60-109 next_hit.  The point itself is not used by the caller.
    Intersections are already in the root frame (x.to(scene.root) is the identity). *)
Definition next_hit (S : scene) (r : ray) : hit_info :=
  let l := filter (fun i => negb (close_to_zero (h_distance i))) (hits S (position r) (direction r)) in
  match l with
  | [] => NoHit
  | [i] => HitOk (h_node i) (h_node i) None (h_distance i)
  | i :: j :: _ =>
      match find_container l with
      | None => HitError
      | Some container =>
          let adjacent := if Nat.eqb container (h_node i) then h_node j else h_node i in
          HitOk (h_node i) container (Some adjacent) (distance_between (position r) (h_point i))
      end
  end.

(** component.py 164-169 and 380-438: emit, in the container's frame *)
Definition T_default : R := 300.
Definition emit (node k : nat) (c : component) (m : emit_method) (u : draws) (r : ray) : option ray :=
  match c_phase c (u_ph1 u) (u_ph2 u) with
  | None => None
  | Some d =>
      match c_kind c with
      | Luminophore =>
          match emit_wavelength (c_ems c) m T_default (wavelength r) (u_wl u) with
          | None => None
          | Some w => Some (Ray (position r) d w (travelled r)
                              (duration r + delay (c_tau_rad c) (u_tau u)) (Emitter node k))
          end
      | _ => Some (Ray (position r) d (wavelength r) (travelled r) (duration r) (Emitter node k))
      end
  end.

(** component.py 152-162 *)
Definition nonradiative_absorb (c : component) (u : draws) (r : ray) : ray :=
  Ray (position r) (direction r) (wavelength r) (travelled r) (duration r + delay (c_tau_nr c) (u_tau u)) (source r).

(** The result of one pass of the loop in step_forward: events yielded, and what
    happens next. *)
Inductive outcome :=
| Stop (evs : list event)
| Raise (evs : list event)
| Continue (evs : list event) (r : ray).

(** photon_tracer.py 190-233: absorption at [depth] in the container *)
Definition absorb_step (S : scene) (m : emit_method) (u : draws) (container : nat) (at_distance : R) (r : ray) : outcome :=
  let n := n_of S container in
  let r := propagate r at_distance n in
  match coefficients (comps S container) (wavelength r) with
  | None => Raise []
  | Some coefs =>
  match select_component coefs (u_comp u) with
  | None => Raise []
  | Some k =>
  match nth_error (comps S container) k with
  | None => Raise []
  | Some c =>
      let ev := Event ABSORB r None (Some container) None (Some k) None in
      if is_radiative (c_kind c) (c_qy c) (u_rad u) then
        match emit container k c m u (representation (w2l S container) r) with
        | None => Raise [ev]
        | Some r' =>
            let r' := representation (l2w S container) r' in
            let kd := match c_kind c with Luminophore => EMIT | _ => SCATTER end in
            Continue [ev; Event kd r' None (Some container) None (Some k) None] r'
        end
      else
        let r' := nonradiative_absorb c u r in
        let kd := match c_kind c with Reactor => REACT | _ => NONRADIATIVE end in
        Stop [ev; Event kd r' None (Some container) None (Some k) None]
  end end end.

(** photon_tracer.py 234-273: interaction with the surface of [hit].  The metadata of
    TRANSMIT needs adjacent.name. *)
Definition surface_step (S : scene) (u : draws) (hit container : nat) (adjacent : option nat) (distance : R) (r : ray) : outcome :=
  let r := propagate r distance (n_of S container) in
  let local_ray := representation (w2l S hit) r in
  match normal_of S hit (position local_ray) with
  | None => Raise []
  | Some nl =>
  let normal := to_vector (l2w S hit) nl in
  match s_reflectivity (surf S hit) u local_ray hit container adjacent with
  | None => Raise []
  | Some refl =>
      if is_reflected refl (u_surf u) then
        match s_reflected (surf S hit) u local_ray hit container adjacent with
        | None => Raise []
        | Some d =>
            let r' := representation (l2w S hit) (with_direction local_ray d) in
            Continue [Event REFLECT r' (Some hit) (Some container) adjacent None (Some normal)] r'
        end
      else
        match s_transmitted (surf S hit) u local_ray hit container adjacent with
        | None => Raise []
        | Some d =>
            let r' := representation (l2w S hit) (with_direction local_ray d) in
            match adjacent with
            | None => Raise []
            | Some _ => Continue [Event TRANSMIT r' (Some hit) (Some container) adjacent None (Some normal)] r'
            end
        end
  end end.

(** float('inf') as maxpathlength is None *)
Definition over_path (maxpath : option R) (r : ray) : bool :=
  match maxpath with None => false | Some L => Rltb L (travelled r) end.

(** photon_tracer.py 155-273: one pass with counter value [count] *)
Definition pass (S : scene) (maxsteps : nat) (maxpath : option R) (m : emit_method) (u : draws) (count : nat) (r : ray) : outcome :=
  match next_hit S r with
  | NoHit => Stop []
  | HitError => Raise []
  | HitOk hit container adjacent full_distance =>
      if Nat.ltb maxsteps count || over_path maxpath r then
        Stop [Event KILL r None (Some container) None None None]
      else if Nat.eqb hit (root S) then
        Stop [Event EXIT (propagate r full_distance (n_of S container)) (Some hit) (Some container) adjacent None None]
      else
        match total_attenuation (comps S container) (wavelength r) with
        | None => Raise []
        | Some alpha =>
            match penetration_depth alpha (u_depth u) with
            | Fin x => if Rltb x full_distance then absorb_step S m u container x r
                       else surface_step S u hit container adjacent full_distance r
            | Infinite => surface_step S u hit container adjacent full_distance r
            end
        end
  end.

Inductive status := Done | Raised | OutOfFuel.

(** The while loop; [fuel] bounds the number of passes modelled (OutOfFuel = still
    running), [us i] are the draws of pass i. *)
Fixpoint loop (fuel : nat) (S : scene) (maxsteps : nat) (maxpath : option R) (m : emit_method)
    (us : nat -> draws) (count : nat) (r : ray) : list event * status :=
  match fuel with
  | O => ([], OutOfFuel)
  | Datatypes.S fuel' =>
      match pass S maxsteps maxpath m (us (Datatypes.S count)) (Datatypes.S count) r with
      | Stop evs => (evs, Done)
      | Raise evs => (evs, Raised)
      | Continue evs r' =>
          let '(rest, st) := loop fuel' S maxsteps maxpath m us (Datatypes.S count) r' in
          (evs ++ rest, st)
      end
  end.

(** photon_tracer.py 112-273 step_forward *)
Definition step_forward (fuel : nat) (S : scene) (maxsteps : nat) (maxpath : option R) (m : emit_method)
    (us : nat -> draws) (r : ray) : list event * status :=
  let '(evs, st) := loop fuel S maxsteps maxpath m us 0 r in
  (Event GENERATE r None None None None None :: evs, st).

(** photon_tracer.py 276-328 follow: the list of (ray, event); None = an exception
    escaped or it is still running *)
Definition follow (fuel : nat) (S : scene) (maxsteps : nat) (maxpath : option R) (m : emit_method)
    (us : nat -> draws) (r : ray) : option (list (ray * kind)) :=
  match step_forward fuel S maxsteps maxpath m us r with
  | (evs, Done) => Some (map (fun e => (e_ray e, e_kind e)) evs)
  | _ => None
  end.

(** surface.py 102-177 FresnelSurfaceDelegate; accessing adjacent.geometry raises when
    adjacent is None *)
Definition fresnel_surface (n_of : nat -> R) (normal_of : nat -> vec -> option vec) : surface :=
  Surface
    (fun _ r hit container adjacent =>
       match adjacent with
       | None => None
       | Some a => match normal_of hit (position r) with
                   | None => None
                   | Some n => fresnel_delegate_reflectivity n (direction r) (n_of container) (n_of a)
                   end
       end)
    (fun _ r hit _ _ =>
       match normal_of hit (position r) with
       | None => None
       | Some n => Some (fresnel_delegate_reflected n (direction r))
       end)
    (fun _ r hit container adjacent =>
       match adjacent with
       | None => None
       | Some a => match normal_of hit (position r) with
                   | None => None
                   | Some n => fresnel_delegate_transmitted n (direction r) (n_of container) (n_of a)
                   end
       end).

(** surface.py 79-99 NullSurfaceDelegate *)
Definition null_surface : surface :=
  Surface (fun _ _ _ _ _ => Some null_reflectivity) (fun _ _ _ _ _ => None)
          (fun _ r _ _ _ => Some (null_transmitted (direction r))).
