(** The scene the Python tracer (TracerModel.v) walks through when it is built of library
    objects: the same tree of nodes that engine/compiler.py reads (CompilerModel.v). *)
From Coq Require Import Reals List Bool Arith String.
From Verif Require Import Base Vec Interp DistModel MaterialModel PhaseModel TransformModel GeomModel TracerModel KernelModel CompilerModel.
Import ListNotations.
Open Scope R_scope.

(** material/utils.py 104-163: the phase function objects of a component.  An exception is
    None.  Simplification: henyey_greenstein takes a third number when g is close to zero;
    it is 0 here and the theorems ask for EPS_ZERO <= |g|. *)
Definition py_phase (p : sphase) : R -> R -> option vec :=
  match p with
  | SIsotropic => fun u v => Some (isotropic u v)
  | SHenyeyGreenstein g => fun u v => henyey_greenstein g u v 0
  | SCone t => cone t
  | SCustom => fun _ _ => None
  end.
(** material/component.py 18-273: the class of the object decides how it acts *)
Definition py_kind (c : sclass) : ckind :=
  match c with
  | ClsReactor => Reactor | ClsLuminophore => Luminophore | ClsScatterer => Scatterer
  | ClsAbsorber | ClsOther => Absorber
  end.
Definition py_component (c : scomp) : component :=
  Component (py_kind (sc_class c)) (sc_abs c) (sc_qy c) (tau_or_zero (sc_tau_rad c)) (tau_or_zero (sc_tau_nr c))
    (py_phase (sc_phase c)) (sc_ems c).

(** geometry/sphere.py 35-66, cylinder.py 48-50 and mesh.py 44-61.  A Box (box.py 22-44) is a mesh: [mesh] is
    what trimesh's ray caster returns for a box of the given size. *)
Definition py_geometry (mesh : vec -> vec -> vec -> list vec) (g : sgeometry) : vec -> vec -> list vec :=
  match g with
  | GBox s => mesh s
  | GSphere r => sphere_intersections r
  | GCylinder l r => cylinder_intersections l r
  | GOther => fun _ _ => []
  end.
(** sphere.py 68-74, cylinder.py 52-65, box.py 50-66; None = exception *)
Definition py_normal (g : sgeometry) (p : vec) : option vec :=
  match g with
  | GBox s => box_normal s p
  | GSphere _ => sphere_normal p
  | GCylinder l r => cylinder_normal l r p
  | GOther => None
  end.
(** scene/node.py 15-34: the node objects, as scene.intersections walks them *)
Fixpoint py_tree (mesh : vec -> vec -> vec -> list vec) (t : stree) : node :=
  match t with
  | SNode id _ pose geometry children =>
      Node id pose (option_map (fun gm => py_geometry mesh (fst gm)) geometry) (map (py_tree mesh) children)
  end.

(** the attributes of node [i] that the tracer reads: node.transformation_to(root),
    node.geometry.material.refractive_index and so on (photon_tracer.py 60-300) *)
Definition of_node {A} (root : stree) (d : A) (f : placed -> smaterial -> A) (i : nat) : A :=
  match find (fun n => Nat.eqb (p_id n) i) (geometry_nodes root) with
  | Some n => match p_material n with Some m => f n m | None => d end
  | None => d
  end.
(** A node whose material is None makes the tracer raise; the theorems exclude it, and here
    it counts as a vacuum.  surface.py 79-177: FresnelSurfaceDelegate and
    NullSurfaceDelegate; other delegates are the user's code. *)
Definition python_scene (mesh : vec -> vec -> vec -> list vec) (root : stree) : scene :=
  let index := of_node root 1 (fun _ m => sm_index m) in
  let normal i p := of_node root None (fun n _ => py_normal (p_geometry n) p) i in
  Scene 0 (of_node root rid (fun n _ => p_to_root n)) (of_node root rid (fun n _ => ainv (p_to_root n)))
    (scene_intersections (py_tree mesh root)) index
    (of_node root [] (fun _ m => map py_component (sm_comps m))) normal
    (of_node root null_surface (fun _ m => match sm_delegate m with FresnelDelegate => fresnel_surface index normal | _ => null_surface end)).
