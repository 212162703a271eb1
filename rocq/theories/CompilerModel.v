(** Model of pvtrace/engine/compiler.py 57-131 and 206-326 (scene tables), of the way
    _kernel.pyx reads them, and of the Python objects they are built from.  The recorder
    tables (133-204) are in TallyModel.v. *)
From Coq Require Import Reals List Bool Arith String.
From Verif Require Import Base Vec Interp DistModel MaterialModel PhaseModel TransformModel TracerModel KernelModel.
Import ListNotations.
Open Scope R_scope.

(** ** The scene *)
(** Which isinstance tests of 253-264 hold: material/component.py 18-273 (a Reactor is an
    Absorber, an Absorber and a Luminophore are Scatterers) *)
Inductive sclass := ClsReactor | ClsAbsorber | ClsLuminophore | ClsScatterer | ClsOther.
(** 300-310: [phase is isotropic], HenyeyGreenstein and Cone objects, or anything else *)
Inductive sphase := SIsotropic | SHenyeyGreenstein (g : R) | SCone (theta_max : R) | SCustom.
(** A component object.  [sc_ems] matters for luminophores only.  tau None is None. *)
Record scomp := SComp {
  sc_class : sclass; sc_name : string; sc_phase : sphase; sc_abs : dist; sc_ems : dist;
  sc_qy : R; sc_tau_rad : option R; sc_tau_nr : option R }.
(** type(material.surface.delegate) *)
Inductive sdelegate := FresnelDelegate | NullDelegate | CustomDelegate.
Record smaterial := SMaterial { sm_index : R; sm_delegate : sdelegate; sm_comps : list scomp }.
Inductive sgeometry := GBox (size : vec) | GSphere (radius : R) | GCylinder (length radius : R) | GOther.
(** scene/node.py 15-34; [n_id] stands for the identity of the object *)
Inductive stree := SNode (n_id : nat) (n_name : string) (n_pose : rigid)
  (n_geometry : option (sgeometry * option smaterial)) (n_children : list stree).

(** A node of PreOrderIter(scene.root) with a geometry, and its transformation_to(root)
    (node.py 73-95: the product of the poses below the root; the identity for the root
    itself, see C45) *)
Record placed := Placed { p_id : nat; p_name : string; p_to_root : rigid; p_geometry : sgeometry; p_material : option smaterial }.
Fixpoint preorder (t : stree) (to_root : rigid) : list placed :=
  match t with
  | SNode id name _ geometry children =>
      (match geometry with Some (g, m) => [Placed id name to_root g m] | None => [] end)
      ++ flat_map (fun c => match c with SNode _ _ cp _ _ => preorder c (rcomp to_root cp) end) children
  end.
Definition geometry_nodes (root : stree) : list placed := preorder root rid.

(** ** The tables *)
(** One row of comp_rows (287-298).  Simplification: the row is converted to float64 and
    the integer columns back to int32 (114-126); tags and offsets survive that below 2^31. *)
Record crow := CRow {
  r_type : nat; r_qy : R; r_tau_rad : R; r_tau_nr : R; r_phase_type : nat; r_phase_param : R;
  r_abs_start : nat; r_abs_n : nat; r_ems_start : nat; r_ems_n : nat }.
Record tables := Tables {
  t_names : list string; t_geom_type : list nat; t_geom_params : list (list R);
  t_l2w : list rigid; t_w2l : list rigid; t_index : list R; t_surf : list nat;
  t_comp_start : list nat; t_comp_count : list nat;
  t_rows : list crow; t_comp_names : list string;
  t_abs_x : list R; t_abs_y : list R; t_ems_x : list R; t_ems_cdf : list R }.
Definition tables0 : tables := Tables [] [] [] [] [] [] [] [] [] [] [] [] [] [] [].

(** 25-48: the tags *)
Definition GEOM_BOX := 0%nat.   Definition GEOM_SPHERE := 1%nat.   Definition GEOM_CYLINDER := 2%nat.
Definition SURF_FRESNEL := 0%nat.   Definition SURF_NULL := 1%nat.
Definition COMP_ABSORBER := 0%nat.   Definition COMP_SCATTERER := 1%nat.
Definition COMP_LUMINOPHORE := 2%nat.   Definition COMP_REACTOR := 3%nat.
Definition PHASE_ISOTROPIC := 0%nat.   Definition PHASE_HENYEY_GREENSTEIN := 1%nat.   Definition PHASE_CONE := 2%nat.

(** 208-223 _compile_geometry: geom_type[i] and geom_params[i] (zeros where not assigned);
    None = UnsupportedSceneError *)
Definition compile_geometry (g : sgeometry) : option (nat * list R) :=
  match g with
  | GBox s => Some (GEOM_BOX, [vx s; vy s; vz s; 0])
  | GSphere r => Some (GEOM_SPHERE, [r; 0; 0; 0])
  | GCylinder l r => Some (GEOM_CYLINDER, [l; r; 0; 0])
  | GOther => None
  end.

(** 228: np.allclose(rotation @ rotation.T, np.eye(3), atol=1e-9); rtol is the default 1e-5 *)
Definition np_allclose1 (a b : R) : bool := Rleb (Rabs (a - b)) (/ 10 ^ 9 + / 10 ^ 5 * Rabs b).
Definition np_allclose3 (a b : vec) : bool :=
  np_allclose1 (vx a) (vx b) && np_allclose1 (vy a) (vy b) && np_allclose1 (vz a) (vz b).
Definition rigid_check (rotation : mat) : bool :=
  let p := mmul rotation (mtrans rotation) in
  np_allclose3 (r1 p) (r1 mid) && np_allclose3 (r2 p) (r2 mid) && np_allclose3 (r3 p) (r3 mid).
(** 225-233 _compile_transform: local_to_world[i], world_to_local[i] *)
Definition compile_transform (l2w : rigid) : option (rigid * rigid) :=
  if rigid_check (rot l2w) then Some (l2w, ainv l2w) else None.

(** 237-247 _surface_tag *)
Definition surface_tag (d : sdelegate) : option nat :=
  match d with FresnelDelegate => Some SURF_FRESNEL | NullDelegate => Some SURF_NULL | CustomDelegate => None end.

(** 300-310 _phase_tag *)
Definition phase_tag (p : sphase) : option (nat * R) :=
  match p with
  | SIsotropic => Some (PHASE_ISOTROPIC, 0)
  | SHenyeyGreenstein g => Some (PHASE_HENYEY_GREENSTEIN, g)
  | SCone t => Some (PHASE_CONE, t)
  | SCustom => None
  end.
(** 253-264 *)
Definition class_tag (c : sclass) : option nat :=
  match c with
  | ClsReactor => Some COMP_REACTOR | ClsAbsorber => Some COMP_ABSORBER
  | ClsLuminophore => Some COMP_LUMINOPHORE | ClsScatterer => Some COMP_SCATTERER | ClsOther => None
  end.

(** 312-326 _compile_distribution: the numbers appended to xs and ys *)
Definition distribution_columns (d : dist) : option (list R * list R) :=
  match d with
  | DConst y => Some ([0], [y])
  | DTable true _ _ _ => None
  | DTable false xs ys _ => Some (xs, ys)
  end.
(** 274-283: the numbers appended to ems_x and ems_cdf.  A constant emission spectrum has
    _x = None, which extend cannot take (TypeError). *)
Definition emission_columns (tag : nat) (d : dist) : option (list R * list R) :=
  if Nat.eqb tag COMP_LUMINOPHORE
  then match d with DTable false xs _ cdf => Some (xs, cdf) | _ => None end
  else Some ([], []).

(** 285-286: component.tau if component.tau else 0.0 *)
Definition tau_or_zero (t : option R) : R := match t with Some x => x | None => 0 end.

(** 251-298 _compile_component and 103-109 *)
Definition compile_component (T : tables) (c : scomp) : option tables :=
  match class_tag (sc_class c), phase_tag (sc_phase c), distribution_columns (sc_abs c) with
  | Some tag, Some (ptype, pparam), Some (xs, ys) =>
      match emission_columns tag (sc_ems c) with
      | Some (ex, ec) =>
          let row := CRow tag (sc_qy c) (tau_or_zero (sc_tau_rad c)) (tau_or_zero (sc_tau_nr c)) ptype pparam
                          (List.length (t_abs_x T)) (List.length xs)
                          (if Nat.eqb tag COMP_LUMINOPHORE then List.length (t_ems_x T) else 0%nat) (List.length ex) in
          Some (Tables (t_names T) (t_geom_type T) (t_geom_params T) (t_l2w T) (t_w2l T) (t_index T) (t_surf T)
                       (t_comp_start T) (t_comp_count T)
                       (t_rows T ++ [row]) (t_comp_names T ++ [sc_name c])
                       (t_abs_x T ++ xs) (t_abs_y T ++ ys) (t_ems_x T ++ ex) (t_ems_cdf T ++ ec))
      | None => None
      end
  | _, _, _ => None
  end.
Fixpoint compile_components (T : tables) (cs : list scomp) : option tables :=
  match cs with
  | [] => Some T
  | c :: rest => match compile_component T c with Some T' => compile_components T' rest | None => None end
  end.

(** 89-110: one node *)
Definition compile_node (T : tables) (n : placed) : option tables :=
  match compile_geometry (p_geometry n), compile_transform (p_to_root n), p_material n with
  | Some (gt, gp), Some (l2w, w2l), Some m =>
      match surface_tag (sm_delegate m) with
      | Some st =>
          compile_components
            (Tables (t_names T ++ [p_name n]) (t_geom_type T ++ [gt]) (t_geom_params T ++ [gp])
                    (t_l2w T ++ [l2w]) (t_w2l T ++ [w2l]) (t_index T ++ [sm_index m]) (t_surf T ++ [st])
                    (t_comp_start T ++ [List.length (t_rows T)]) (t_comp_count T ++ [List.length (sm_comps m)])
                    (t_rows T) (t_comp_names T) (t_abs_x T) (t_abs_y T) (t_ems_x T) (t_ems_cdf T))
            (sm_comps m)
      | None => None
      end
  | _, _, _ => None
  end.
Fixpoint compile_nodes (T : tables) (ns : list placed) : option tables :=
  match ns with
  | [] => Some T
  | n :: rest => match compile_node T n with Some T' => compile_nodes T' rest | None => None end
  end.
(** 73: nodes.index(scene.root); None = ValueError *)
Fixpoint index_of (id : nat) (ns : list placed) : option nat :=
  match ns with
  | [] => None
  | n :: rest => if Nat.eqb (p_id n) id then Some 0%nat else option_map S (index_of id rest)
  end.
(** 60-131 CompiledScene.__init__: the tables and root_id; None = UnsupportedSceneError.
    The number of nodes is limited by trace_bundle, not here. *)
Definition compile_scene (root : stree) : option (tables * nat) :=
  match root with
  | SNode id _ _ geometry _ =>
      match geometry_nodes root, geometry, index_of id (geometry_nodes root) with
      | [], _, _ => None
      | _, None, _ => None
      | _, _, None => None
      | ns, Some _, Some root_id =>
          match compile_nodes tables0 ns with Some T => Some (T, root_id) | None => None end
      end
  end.

(** ** How the kernel reads the tables *)
(** A C array starting at p of which n elements are used: S.abs_x + S.abs_start[comp] *)
Definition slice {A} (l : list A) (start n : nat) : list A := firstn n (skipn start l).
Definition row0 : crow := CRow 0 0 0 0 0 0 0 0 0 0.
(** _kernel.pyx 348-400: geom_type and geom_params *)
Definition read_shape (T : tables) (i : nat) : shape :=
  let p := nth i (t_geom_params T) [] in
  let gtype := nth i (t_geom_type T) 0%nat in
  if Nat.eqb gtype GEOM_BOX then KernelModel.Box (V (nth 0 p 0) (nth 1 p 0) (nth 2 p 0))
  else if Nat.eqb gtype GEOM_SPHERE then KernelModel.Sphere (nth 0 p 0)
  else KernelModel.Cylinder (nth 0 p 0) (nth 1 p 0).
(** 791-832: the comparisons with ctype *)
Definition read_kind (tag : nat) : ckind :=
  if Nat.eqb tag COMP_SCATTERER then Scatterer
  else if Nat.eqb tag COMP_LUMINOPHORE then Luminophore
  else if Nat.eqb tag COMP_REACTOR then Reactor else Absorber.
(** 455-476: the comparisons with phase_type *)
Definition read_phase (tag : nat) (param : R) : phase :=
  if Nat.eqb tag PHASE_HENYEY_GREENSTEIN then PhHenyeyGreenstein param
  else if Nat.eqb tag PHASE_CONE then PhCone param else PhIsotropic.
(** 747-752 and 803-817: row [comp] *)
Definition read_component (T : tables) (comp : nat) : component * phase :=
  let r := nth comp (t_rows T) row0 in
  (Component (read_kind (r_type r))
     (DTable false (slice (t_abs_x T) (r_abs_start r) (r_abs_n r)) (slice (t_abs_y T) (r_abs_start r) (r_abs_n r)) [])
     (r_qy r) (r_tau_rad r) (r_tau_nr r) (fun _ _ => None)
     (DTable false (slice (t_ems_x T) (r_ems_start r) (r_ems_n r)) [] (slice (t_ems_cdf T) (r_ems_start r) (r_ems_n r))),
   read_phase (r_phase_type r) (r_phase_param r)).
(** The scene that trace_one sees *)
Definition read_scene (T : tables) (root_id : nat) : kscene :=
  KScene (List.length (t_geom_type T)) root_id
    (fun i => nth i (t_l2w T) rid) (fun i => nth i (t_w2l T) rid) (read_shape T)
    (fun i => nth i (t_index T) 0) (fun i => Nat.eqb (nth i (t_surf T) SURF_NULL) SURF_FRESNEL)
    (fun i => map (read_component T) (seq (nth i (t_comp_start T) 0%nat) (nth i (t_comp_count T) 0%nat))).
