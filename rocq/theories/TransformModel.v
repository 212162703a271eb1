(** Model of coordinate systems: pvtrace/geometry/transformable.py,
    pvtrace/geometry/transformations.py 223-389, pvtrace/scene/node.py,
    pvtrace/light/ray.py 77-95 and pvtrace/scene/scene.py 153-195.

    A 4x4 homogeneous matrix with last row (0,0,0,1) is the affine map
    [Rigid rot tra] of Vec.v ([rot] need not be orthogonal here).  All poses the
    library itself builds have that last row. *)
From Coq Require Import Reals List Bool Arith.
From Verif Require Import Base Vec OpticsModel PhaseModel.
Import ListNotations.
Open Scope R_scope.

(** ** numpy.linalg.inv of an affine matrix *)
Definition minv (m : mat) : mat :=
  let d := / mdet m in
  mtrans (M (vscale d (cross (r2 m) (r3 m))) (vscale d (cross (r3 m) (r1 m))) (vscale d (cross (r1 m) (r2 m)))).
Definition ainv (g : rigid) : rigid :=
  Rigid (minv (rot g)) (vneg (mvec (minv (rot g)) (tra g))).

(** ** transformations.py *)
(** translation_matrix 223-233 *)
Definition translation_matrix (v : vec) : rigid := Rigid mid v.

(** unit_vector 1770-1806; None = division 0/0 (nan) *)
Definition unit_vector (v : vec) : option vec :=
  if Reqb (norm v) 0 then None else Some (vscale (/ norm v) v).

(** rotation_matrix 303-348 for a unit direction [u] *)
Definition rodrigues (sina cosa : R) (u : vec) : mat :=
  let f := 1 - cosa in
  M (V (cosa + vx u * vx u * f) (vx u * vy u * f - vz u * sina) (vx u * vz u * f + vy u * sina))
    (V (vy u * vx u * f + vz u * sina) (cosa + vy u * vy u * f) (vy u * vz u * f - vx u * sina))
    (V (vz u * vx u * f - vy u * sina) (vz u * vy u * f + vx u * sina) (cosa + vz u * vz u * f)).
Definition rotation_matrix (angle : R) (axis point : vec) : option rigid :=
  match unit_vector axis with
  | None => None
  | Some u => let r := rodrigues (sin angle) (cos angle) u in
              Some (Rigid r (vsub point (mvec r point)))
  end.

(** math.atan2 for (s, c) not both 0 *)
Definition atan2 (s c : R) : R :=
  let h := sqrt (s * s + c * c) in
  if Rleb 0 s then acos (c / h) else - acos (c / h).

(** rotation_from_matrix 351-389: [w] is the unit eigenvector returned by
    numpy.linalg.eig (an oracle, see [eig_spec] below); the returned point is not
    used by look_at. *)
Definition mtrace (m : mat) : R := vx (r1 m) + vy (r2 m) + vz (r3 m).
Definition rotation_from_matrix (m : mat) (w : vec) : R * vec :=
  let cosa := (mtrace m - 1) / 2 in
  let sina :=
    if Rltb (/ 10 ^ 8) (Rabs (vz w)) then (vx (r2 m) + (cosa - 1) * vx w * vy w) / vz w
    else if Rltb (/ 10 ^ 8) (Rabs (vy w)) then (vz (r1 m) + (cosa - 1) * vx w * vz w) / vy w
    else (vy (r3 m) + (cosa - 1) * vy w * vz w) / vx w in
  (atan2 sina cosa, w).

(** ** transformable.py *)
(** [loc_int]: the location array has an integer dtype (np.array of Python ints). *)
Record tf := Tf { loc : vec; loc_int : bool; pose : rigid }.

(** __init__ 25-49 *)
Definition tf_init (location : option (vec * bool)) : tf :=
  match location with
  | None => Tf vzero false (translation_matrix vzero)
  | Some (l, i) => Tf l i (translation_matrix l)
  end.

(** Operations; [i] says whether the argument consists of Python ints. *)
Inductive op :=
| SetPose (g : rigid)
| SetLocation (v : vec) (i : bool)
| Translate (v : vec) (i : bool)
| Rotate (angle : R) (axis : vec)
| LookAt (v : vec) (w : vec).

(** location.setter 74-78 *)
Definition set_location (t : tf) (v : vec) (i : bool) : tf := Tf v i (Rigid (rot (pose t)) v).
(** pose.setter 63-67 *)
Definition set_pose (g : rigid) : tf := Tf (tra g) false g.
(** translate 80-86; None = UFuncTypeError of int_array += float_array *)
Definition translate (t : tf) (v : vec) (i : bool) : option tf :=
  if loc_int t && negb i then None
  else Some (Tf (vadd (loc t) v) (loc_int t) (rcomp (translation_matrix v) (pose t))).
(** rotate 88-96; None = nan pose *)
Definition rotate (t : tf) (angle : R) (axis : vec) : option tf :=
  match rotation_matrix angle axis (loc t) with
  | None => None
  | Some m => Some (Tf (loc t) (loc_int t) (rcomp m (pose t)))
  end.

(** node.py 39-69 look_at. [w]: eigenvector returned by numpy for the matrix [look_matrix v]. *)
Definition skew (v : vec) : mat :=
  M (V 0 (- vz v) (vy v)) (V (vz v) 0 (- vx v)) (V (- vy v) (vx v) 0).
Definition madd (a b : mat) : mat := M (vadd (r1 a) (r1 b)) (vadd (r2 a) (r2 b)) (vadd (r3 a) (r3 b)).
Definition mscale (k : R) (a : mat) : mat := M (vscale k (r1 a)) (vscale k (r2 a)) (vscale k (r3 a)).
Definition zaxis := V 0 0 1.
Definition look_matrix (b : vec) : mat :=
  let c := dot zaxis b in
  let v := cross zaxis b in
  madd (madd mid (skew v)) (mscale (1 / (1 + c)) (mmul (skew v) (skew v))).
Definition look_at (t : tf) (b w : vec) : option tf :=
  if np_close (dot zaxis b) (-1) then rotate t PI (V 0 1 0)
  else let (angle, direc) := rotation_from_matrix (look_matrix b) w in rotate t angle direc.

Definition apply_op (t : tf) (o : op) : option tf :=
  match o with
  | SetPose g => Some (set_pose g)
  | SetLocation v i => Some (set_location t v i)
  | Translate v i => translate t v i
  | Rotate a x => rotate t a x
  | LookAt v w => look_at t v w
  end.
Fixpoint apply_ops (t : tf) (os : list op) : option tf :=
  match os with
  | [] => Some t
  | o :: r => match apply_op t o with None => None | Some t' => apply_ops t' r end
  end.

(** What numpy.linalg.eig promises about the selected eigenvector: unit length,
    eigenvalue 1 of the transposed matrix (R33.T). *)
Definition eig_spec (m : mat) (w : vec) : Prop := is_unit w /\ mvec (mtrans m) w = w.

(** ** node.py conversions in a tree *)
(** A tree: each node has a path root..node (anytree NodeMixin.path) and a pose. *)
Record hierarchy := Hier { hpath : nat -> list nat; hpose : nat -> rigid }.

(** anytree Walker.walk: strip the longest common prefix of the two paths *)
Fixpoint strip (a b : list nat) : list nat * list nat :=
  match a, b with
  | x :: a', y :: b' => if Nat.eqb x y then strip a' b' else (a, b)
  | _, _ => (a, b)
  end.

(** np.linalg.multi_dot(transforms[::-1]): the first transform of the tuple acts first *)
Definition compose_in_order (l : list rigid) : rigid := fold_left (fun acc g => rcomp g acc) l rid.

(** node.py 73-95 transformation_to *)
Definition transformation_to (h : hierarchy) (a b : nat) : rigid :=
  if Nat.eqb a b then rid
  else
    let '(up, down) := strip (hpath h a) (hpath h b) in
    compose_in_order (map (hpose h) (rev up) ++ map (fun n => ainv (hpose h n)) down).

(** node.py 97-114 and 116-130 *)
Definition point_to_node (h : hierarchy) (a : nat) (p : vec) (b : nat) : vec := to_point (transformation_to h a b) p.
Definition vector_to_node (h : hierarchy) (a : nat) (v : vec) (b : nat) : vec := to_vector (transformation_to h a b) v.

(** ** Intersections of a ray with a scene tree *)
(** A node with its pose, optional geometry (its intersections method, in local
    coordinates, giving points) and children. *)
Inductive node := Node (id : nat) (npose : rigid) (geom : option (vec -> vec -> list vec)) (children : list node).

(** geometry/intersection.py: hit node, point in the frame of [coordsys].  We
    carry the point in the root frame at once: [toroot] is
    coordsys.transformation_to(root) (Intersection.to, scene.py 170-172). *)
Record intersection := Hit { h_node : nat; h_point : vec; h_distance : R }.

(** node.py 137-174 intersections followed by x.to(root).  Child coordinates use
    transformation_to(child) = inv(child.pose). *)
Fixpoint node_hits (n : node) (toroot : rigid) (o d : vec) : list intersection :=
  match n with
  | Node id _ geom children =>
      (match geom with
       | None => []
       | Some f => map (fun p => Hit id (to_point toroot p) (distance_between o p)) (f o d)
       end)
      ++ flat_map (fun c => match c with
                            | Node _ cp _ _ =>
                                node_hits c (rcomp toroot cp) (to_point (ainv cp) o) (to_vector (ainv cp) d)
                            end) children
  end.

(** geometry/utils.py 431-440 *)
Definition intersection_point_is_ahead (o d p : vec) : bool := Rltb EPS_ZERO (dot d p - dot d o).

(** scene.py 153-195 Scene.intersections; [root]'s own frame is the world frame *)
Definition scene_intersections (root : node) (o d : vec) : list intersection :=
  sort_by (fun i => norm (vsub (h_point i) o))
    (filter (fun i => intersection_point_is_ahead o d (h_point i)) (node_hits root rid o d)).
