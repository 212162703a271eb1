(** Model of pvtrace/device/lsc.py: the surface delegate of the plate, the record kept
    of the traced photons, the labelling of faces and the reported figures.
    (AirGapMirror is in OpticsModel.)

    pandas frames are lists of rows.  Names of lights and components are the sources of
    TracerModel; arguments of the wrong type (which raise) are excluded by typing.
    Drawing and printing are left out. *)
From Coq Require Import Reals List Bool Arith.
From Verif Require Import Base Vec DistModel MaterialModel OpticsModel PhaseModel TransformModel GeomModel TracerModel.
Import ListNotations.
Open Scope R_scope.

(** lsc.py 284, 468: the names of faces *)
Inductive facet := Left | Right | Near | Far | Top | Bottom.
Definition facet_eqb (a b : facet) : bool :=
  match a, b with
  | Left, Left | Right, Right | Near, Near | Far, Far | Top, Top | Bottom, Bottom => true
  | _, _ => false
  end.
(** lsc.py 468 (and 474, 482, 488, 581) *)
Definition all_facets : list facet := [Left; Right; Near; Far; Top; Bottom].

(** lsc.py 95-113: what of the configuration is used below.  [cells] is
    _solar_cell_surfaces as a membership test. *)
Record config := Config { size : vec; n1_of : R; cells : facet -> bool; back_mirror : bool }.

(** lsc.py 280-288 add_solar_cell; None = ValueError *)
Definition allowed_cell (f : facet) : bool := match f with Left | Near | Far | Right => true | _ => false end.
Definition add_solar_cell (fs : list facet) (c : config) : option config :=
  if forallb allowed_cell fs then
    Some (Config (size c) (n1_of c) (fun f => existsb (facet_eqb f) fs || cells c f) (back_mirror c))
  else None.
(** lsc.py 290-291 *)
Definition add_back_surface_mirror (c : config) : config := Config (size c) (n1_of c) (cells c) true.

(** lsc.py 53-58, also the last four tests of 38-45 *)
Definition cell_at (c : config) (normal : vec) : bool :=
  (np_allclose (V (-1) 0 0) normal && cells c Left) ||
  (np_allclose (V 1 0 0) normal && cells c Right) ||
  (np_allclose (V 0 (-1) 0) normal && cells c Near) ||
  (np_allclose (V 0 1 0) normal && cells c Far).

(** lsc.py 22-62 OptionalMirrorAndSolarCell over the methods of FresnelSurfaceDelegate *)
Definition lsc_surface (n_of : nat -> R) (normal_of : nat -> vec -> option vec) (c : config) : surface :=
  let super := fresnel_surface n_of normal_of in
  Surface
    (fun u r hit container adjacent =>
       match normal_of hit (position r) with
       | None => None
       | Some normal =>
           if np_allclose (V 0 0 (-1)) normal && back_mirror c then Some 1
           else if np_allclose (V (-1) 0 0) normal && cells c Left then Some 0
           else if np_allclose (V 1 0 0) normal && cells c Right then Some 0
           else if np_allclose (V 0 (-1) 0) normal && cells c Near then Some 0
           else if np_allclose (V 0 1 0) normal && cells c Far then Some 0
           else s_reflectivity super u r hit container adjacent
       end)
    (s_reflected super)
    (fun u r hit container adjacent =>
       match normal_of hit (position r) with
       | None => None
       | Some normal =>
           if cell_at c normal then Some (direction r)
           else s_transmitted super u r hit container adjacent
       end).

(** np.isclose(x, edge, atol=EPS_ZERO), default rtol 1e-5 *)
Definition at_edge (x edge : R) : bool := Rleb (Rabs (x - edge)) (EPS_ZERO + / 10 ^ 5 * Rabs edge).
(** lsc.py 435-454 label_facets for one row; a later assignment overwrites *)
Definition label_facet (size p : vec) : option facet :=
  let xmin := - (1/2) * vx size in let xmax := 1/2 * vx size in
  let ymin := - (1/2) * vy size in let ymax := 1/2 * vy size in
  let zmin := - (1/2) * vz size in let zmax := 1/2 * vz size in
  let f := None in
  let f := if at_edge (vx p) xmin then Some Left else f in
  let f := if at_edge (vx p) xmax then Some Right else f in
  let f := if at_edge (vy p) ymin then Some Far else f in
  let f := if at_edge (vy p) ymax then Some Near else f in
  let f := if at_edge (vz p) zmin then Some Bottom else f in
  let f := if at_edge (vz p) zmax then Some Top else f in
  f.

(** lsc.py 345: the two lists of the store *)
Definition history := list (ray * kind).
Record store := Store { entrance_rays : history; exit_rays : history }.

Definition kind_eqb (a b : kind) : bool :=
  match a, b with
  | GENERATE, GENERATE | REFLECT, REFLECT | TRANSMIT, TRANSMIT | ABSORB, ABSORB
  | NONRADIATIVE, NONRADIATIVE | SCATTER, SCATTER | EMIT, EMIT | EXIT, EXIT
  | REACT, REACT | KILL, KILL => true
  | _, _ => false
  end.

(** lsc.py 350-359: the entries of one history; None = IndexError.  [rev] gives the
    indices -1 and -2. *)
Definition record_history (h : history) (s : store) : option store :=
  match nth_error h 1 with
  | None => None
  | Some first =>
      let s := Store (entrance_rays s ++ [first]) (exit_rays s) in
      match nth_error (rev h) 0 with
      | None => None
      | Some last =>
          if kind_eqb (snd last) ABSORB || kind_eqb (snd last) KILL then
            Some (Store (entrance_rays s) (exit_rays s ++ [last]))
          else if kind_eqb (snd last) EXIT then
            match nth_error (rev h) 1 with
            | None => None
            | Some before => Some (Store (entrance_rays s) (exit_rays s ++ [before]))
            end
          else Some s
      end
  end.
Fixpoint record_all (hs : list history) (s : store) : option store :=
  match hs with
  | [] => Some s
  | h :: hs => match record_history h s with None => None | Some s => record_all hs s end
  end.

(** lsc.py 379-399 and the "facet" column *)
Inductive row_kind := Entrance | Exit.
Record row := Row { row_kind_of : row_kind; row_event : kind; row_source : src; row_wavelength : R; row_facet : option facet }.
Definition make_row (size : vec) (k : row_kind) (e : ray * kind) : row :=
  Row k (snd e) (source (fst e)) (wavelength (fst e)) (label_facet size (position (fst e))).
Definition make_dataframe (size : vec) (s : store) : list row :=
  map (make_row size Entrance) (entrance_rays s) ++ map (make_row size Exit) (exit_rays s).

(** lsc.py 338-377 simulate on the histories that photon_tracer.follow returns.  The
    local [store] is only assigned when self._store is None, so otherwise the first
    use raises UnboundLocalError.  An empty frame has no "direction" column, so
    expand_coords raises after the store was kept.  State: _store and _df. *)
Record lsc_state := LscState { st_store : option store; st_df : option (list row) }.
Definition new_lsc : lsc_state := LscState None None.
Definition simulate (size : vec) (hs : list history) (st : lsc_state) : lsc_state * bool :=
  match st_store st with
  | Some _ => (st, false)
  | None =>
      match record_all hs (Store [] []) with
      | None => (st, false)
      | Some s =>
          let df := make_dataframe size s in
          match df with
          | [] => (LscState (Some s) (Some []), false)
          | _ => (LscState (Some s) (Some df), true)
          end
      end
  end.

(** lsc.py 505-566 spectrum; an empty [facets] does not filter, nor does [events] None *)
Definition row_kind_eqb (a b : row_kind) : bool :=
  match a, b with Entrance, Entrance | Exit, Exit => true | _, _ => false end.
Definition want (facets : list facet) (k : option row_kind) (sources : src -> bool) (events : option (list kind)) (x : row) : bool :=
  match k with None => true | Some k => row_kind_eqb (row_kind_of x) k end &&
  sources (row_source x) &&
  match facets with
  | [] => true
  | _ => match row_facet x with None => false | Some f => existsb (facet_eqb f) facets end
  end &&
  match events with None => true | Some es => existsb (kind_eqb (row_event x)) es end.
Definition spectrum (df : list row) facets k sources events : list R :=
  map row_wavelength (filter (want facets k sources events) df).

(** lsc.py 463-464: names of lights, names of components; 523: both *)
Definition all_lights (s : src) : bool := match s with Light _ => true | Emitter _ _ => false end.
Definition all_components (s : src) : bool := match s with Light _ => false | Emitter _ _ => true end.
Definition all_sources (s : src) : bool := true.

(** lsc.py 456-503 *)
Definition solar_out (df : list row) (f : facet) : nat := length (spectrum df [f] (Some Exit) all_lights None).
Definition solar_in (df : list row) (f : facet) : nat := length (spectrum df [f] (Some Entrance) all_lights None).
Definition lum_out (df : list row) (f : facet) : nat := length (spectrum df [f] (Some Exit) all_components None).
Definition lum_in (df : list row) (f : facet) : nat := length (spectrum df [f] (Some Entrance) all_components None).

(** lsc.py 579-620.  A ratio is None when its denominator is 0 (numpy gives nan or
    inf). *)
Definition total (g : facet -> nat) (fs : list facet) : nat := fold_right plus 0%nat (map g fs).
Definition lum_collected (c : config) (df : list row) : nat := total (lum_out df) (filter (cells c) all_facets).
Definition lum_escaped (c : config) (df : list row) : nat := total (lum_out df) (filter (fun f => negb (cells c f)) all_facets).
Definition incident (df : list row) : nat := total (solar_in df) all_facets.
Definition lost (df : list row) : nat := length (spectrum df [] (Some Exit) all_sources (Some [ABSORB])).
Definition ratio (a b : nat) : option R := if Nat.eqb b 0 then None else Some (INR a / INR b).
Definition optical_efficiency c df := ratio (lum_collected c df) (incident df).
Definition waveguide_efficiency c df := ratio (lum_collected c df) (lum_collected c df + lum_escaped c df).
Definition loss_fraction df := ratio (lost df) (incident df).
Definition geometric_concentration (size : vec) : R :=
  vy size * vx size / (2 * vx size * vz size + 2 * vy size * vz size).
Definition thermodynamic_prediction (c : config) : R :=
  n1_of c ^ 2 / (geometric_concentration (size c) + n1_of c ^ 2).
