(** Model of pvtrace/geometry/mesh.py (Mesh) and geometry/box.py 22-44 (Box).

    The class wraps a trimesh object.  trimesh is a third-party library; what is assumed of
    it is written at each definition below that stands for one of its functions.  A mesh is
    the list of its faces; the vertex array that faces share is not represented. *)
From Coq Require Import Reals List Bool Arith.
From Verif Require Import Base Vec PhaseModel GeomModel.
Import ListNotations.
Open Scope R_scope.

Definition face : Type := vec * vec * vec.
Definition mesh := list face.

(** ** trimesh *)
(** trimesh.triangles.cross: the product of two edge vectors; its length is twice the area *)
Definition edge_cross (f : face) : vec := let '(a, b, c) := f in cross (vsub b a) (vsub c b).
(** trimesh.face_normals *)
Definition face_normal (f : face) : vec := vscale (/ norm (edge_cross f)) (edge_cross f).
Definition total (l : list R) : R := fold_right Rplus 0 l.
(** trimesh.triangles.mass_properties: integrals over the surface, by the divergence theorem.
    Third-party formula.  Simplification: a volume of exactly 0 stands for one below the
    tolerance of trimesh; the centre is then the origin. *)
Definition f1 (k : vec -> R) (f : face) : R := let '(a, b, c) := f in k a + k b + k c.
Definition f2 (k : vec -> R) (f : face) : R :=
  let '(a, b, c) := f in k a * k a + k b * k b + k c * k c + k a * k b + k b * k c + k c * k a.
Definition volume (m : mesh) : R := total (map (fun f => vx (edge_cross f) * f1 vx f) m) / 6.
Definition moment (k : vec -> R) (m : mesh) : R := total (map (fun f => k (edge_cross f) * f2 k f) m) / 24.
Definition center_mass (m : mesh) : vec :=
  if Reqb (volume m) 0 then vzero
  else V (moment vx m / volume m) (moment vy m / volume m) (moment vz m / volume m).
(** trimesh.vertices -= c *)
Definition move_face (c : vec) (f : face) : face := let '(p, q, r) := f in (vsub p c, vsub q c, vsub r c).
Definition move (c : vec) (m : mesh) : mesh := map (move_face c) m.

(** trimesh.triangles.points_to_barycentric (Cramer's rule) *)
Definition barycentric (f : face) (p : vec) : R * R * R :=
  let '(a, b, c) := f in
  let e0 := vsub b a in let e1 := vsub c a in let w := vsub p a in
  let det := dot e0 e0 * dot e1 e1 - dot e0 e1 * dot e0 e1 in
  let v := (dot e1 e1 * dot e0 w - dot e0 e1 * dot e1 w) / det in
  let u := (dot e0 e0 * dot e1 w - dot e0 e1 * dot e0 w) / det in
  (1 - v - u, v, u).
(** trimesh.ray.ray_triangle.ray_triangle_id for one ray and one face: faces parallel to the
    ray are left out, hits behind the origin too.  Simplification: no tolerances. *)
Definition hit_face (o d : vec) (f : face) : list R :=
  let '(a, _, _) := f in
  let n := edge_cross f in
  if Reqb (dot n d) 0 then []
  else
    let t := dot n (vsub a o) / dot n d in
    let '(u, v, w) := barycentric f (at_ray o d t) in
    if Rleb 0 u && Rleb 0 v && Rleb 0 w && Rleb 0 t then [t] else [].
(** hits at the same place are merged (grouping.unique_rows) *)
Fixpoint merge (l : list R) : list R :=
  match l with [] => [] | t :: r => if existsb (Reqb t) r then merge r else t :: merge r end.
(** mesh.ray.intersects_location with one ray: the places, in some order; this order is the
    order of the faces, and the theorems allow any other. *)
Definition intersects_location (m : mesh) (o d : vec) : list vec := map (at_ray o d) (merge (flat_map (hit_face o d) m)).

(** trimesh.creation.box: eight corners and twelve faces, two on each side *)
Definition corner (size : vec) (i : nat) : vec :=
  let at_bit b s := if Nat.testbit i b then s / 2 else - (s / 2) in
  V (at_bit 2%nat (vx size)) (at_bit 1%nat (vy size)) (at_bit 0%nat (vz size)).
Definition box_faces : list (nat * nat * nat) :=
  [(1, 3, 0); (4, 1, 0); (0, 3, 2); (2, 4, 0); (1, 7, 3); (5, 1, 4); (5, 7, 1); (3, 7, 2); (6, 4, 2); (2, 7, 6); (6, 5, 4); (7, 5, 6)]%nat.
Definition creation_box (size : vec) : mesh :=
  map (fun '(i, j, k) => (corner size i, corner size j, corner size k)) box_faces.

(** ** mesh.py *)
(** 15-19 __init__.  The assignment is made in place: the caller's trimesh object is the one
    that moves, and it is the result here. *)
Definition wrap (m : mesh) : mesh := move (center_mass m) m.

(** 44-61 intersections; [locations] is what intersects_location returns *)
Definition mesh_intersections (locations : mesh -> vec -> vec -> list vec) (m : mesh) (o d : vec) : list vec :=
  let l := locations m o d in
  match l with
  | [] => []
  | _ => sort_by (fun p => norm (vsub p o)) l
  end.

(** mesh.nearest.on_surface with one point: closest point, distance, number of the face.
    closest_points.shape is then (1, 3), so that the first GeometryError of normal (69-72)
    is never raised. *)
Definition nearest_result : Type := vec * R * nat.
(** 34-42 *)
Definition mesh_on_surface (nearest : mesh -> vec -> nearest_result) (m : mesh) (p : vec) : bool :=
  let '(_, d, _) := nearest m p in Rltb (Rabs d) EPS_ZERO.
(** 63-85; None = GeometryError *)
Definition mesh_normal (nearest : mesh -> vec -> nearest_result) (m : mesh) (p : vec) : option vec :=
  let '(_, d, i) := nearest m p in
  if negb (Rltb (Rabs d) EPS_ZERO) then None else option_map face_normal (nth_error m i).
(** 87-94 *)
Definition mesh_is_entering (nearest : mesh -> vec -> nearest_result) (m : mesh) (p d : vec) : option bool :=
  match mesh_normal nearest m p with
  | None => None
  | Some n => Some (if Rltb (dot n d) 0 then true else false)
  end.

(** box.py 36-44 *)
Definition box_mesh (size : vec) : mesh := wrap (creation_box size).
