(** Model of pvtrace/geometry/sphere.py, cylinder.py, box.py (surface test and
    normal), geometry/utils.py 15-62 and 305-350, and the geometry part of
    pvtrace/engine/_kernel.pyx 245-400.  Box.intersections and Box.contains are
    trimesh calls and are not modelled; the kernel box is. *)
From Coq Require Import Reals List Bool.
From Verif Require Import Base Vec OpticsModel PhaseModel TransformModel.
Import ListNotations.
Open Scope R_scope.

(** point at parameter t *)
Definition at_ray (o d : vec) (t : R) : vec := vadd o (vscale t d).

(** ** Sphere: sphere.py *)
(** 27-29 *)
Definition sphere_on_surface (r : R) (p : vec) : bool := Rltb (Rabs (norm p - r)) EPS_ZERO.
(** 31-33 *)
Definition sphere_contains (r : R) (p : vec) : bool := Rltb 0 (r - (norm p + EPS_ZERO)).
(** 35-66; a zero direction (0/0) is outside the model's domain *)
Definition sphere_ts (r : R) (o d : vec) : list R :=
  let a := dot d d in
  let b := 2 * dot d o in
  let c := dot o o - r ^ 2 in
  let disc := b ^ 2 - 4 * a * c in
  if Rltb disc 0 then []
  else
    let t := if np_close disc 0 then [- b / (2 * a)]
             else [(- b - sqrt disc) / (2 * a); (- b + sqrt disc) / (2 * a)] in
    filter (fun t => Rleb 0 t) (sort_by (fun t => t) t).
Definition sphere_intersections (r : R) (o d : vec) : list vec := map (at_ray o d) (sphere_ts r o d).
(** 68-74; None = division by zero *)
Definition sphere_normal (p : vec) : option vec := unit_vector p.
(** 76-86; None = exception *)
Definition sphere_is_entering (r : R) (p d : vec) : option bool :=
  if sphere_on_surface r p then
    match sphere_normal p with None => None | Some n => Some (Rltb (dot n d) 0) end
  else None.

(** kernel 279-298 intersect_sphere *)
Definition k_intersect_sphere (r : R) (o d : vec) : list R :=
  let a := dot d d in
  let b := 2 * dot d o in
  let c := dot o o - r * r in
  let disc := b * b - 4 * a * c in
  if Rltb disc 0 then []
  else
    let sq := sqrt disc in
    let t1 := (- b - sq) / (2 * a) in
    let t2 := (- b + sq) / (2 * a) in
    (if Rltb EPS_ZERO t1 then [t1] else []) ++ (if Rltb EPS_ZERO t2 then [t2] else []).

(** ** Cylinder: geometry/utils.py 305-350 ray_z_cylinder, returning the parameters *)
(** np.roots drops leading zeros; with a = 0 also b = 0 and no root is left.  Complex
    roots are dropped by isreal, negative ones by t >= 0. *)
Definition cyl_roots (a b c : R) : list R :=
  if Reqb a 0 then []
  else let disc := b * b - 4 * a * c in
       if Rltb disc 0 then [] else [(- b - sqrt disc) / (2 * a); (- b + sqrt disc) / (2 * a)].
(** x / 0 is inf or nan, dropped by isfinite *)
Definition fdiv (x y : R) : list R := if Reqb y 0 then [] else [x / y].
Definition ray_z_cylinder (length radius : R) (o d : vec) : list R :=
  let a := vx d ^ 2 + vy d ^ 2 in
  let b := 2 * (vx o * vx d + vy o * vy d) in
  let c := vx o ^ 2 + vy o ^ 2 - radius ^ 2 in
  let tcyl := filter (fun t => Rleb 0 t) (cyl_roots a b c) in
  let tcap := filter (fun t => Rleb 0 t)
                (fdiv ((- (1/2 * length) - vz o) * (-1)) (- vz d) ++ fdiv (1/2 * length - vz o) (vz d)) in
  let cap := filter (fun t => let p := at_ray o d t in Rltb (sqrt (vx p ^ 2 + vy p ^ 2)) radius) tcap in
  let cyl := filter (fun t => let p := at_ray o d t in
                       Rltb (- (1/2) * length) (vz p) && Rltb (vz p) (1/2 * length)) tcyl in
  sort_by (fun t => t) (cyl ++ cap).
(** cylinder.py 49-51 *)
Definition cylinder_intersections (length radius : R) (o d : vec) : list vec :=
  map (at_ray o d) (ray_z_cylinder length radius o d).
(** cylinder.py 29-40 *)
Definition cylinder_on_surface (length radius : R) (p : vec) : bool :=
  match ray_z_cylinder length radius p (vscale (/ norm (V 1 1 1)) (V 1 1 1)) with
  | [] => false
  | t :: _ => close_to_zero t
  end.
(** cylinder.py 42-47 *)
Definition cylinder_contains (length radius : R) (p : vec) : bool :=
  Rltb (- (1/2) * length) (vz p) && Rltb (vz p) (1/2 * length) &&
  Rltb (sqrt (vx p ^ 2 + vy p ^ 2)) radius.
(** cylinder.py 53-66; None = GeometryError *)
Definition cylinder_normal (length radius : R) (p : vec) : option vec :=
  if np_close (vz p) (- (1/2) * length) then Some (V 0 0 (-1))
  else if np_close (vz p) (1/2 * length) then Some (V 0 0 1)
  else if np_close radius (sqrt (vx p ^ 2 + vy p ^ 2)) then unit_vector (V (vx p) (vy p) 0)
  else None.
(** cylinder.py 68-78 *)
Definition cylinder_is_entering (length radius : R) (p d : vec) : option bool :=
  if cylinder_on_surface length radius p then
    match cylinder_normal length radius p with None => None | Some n => Some (Rltb (dot n d) 0) end
  else None.

(** kernel 301-345 intersect_cylinder; the thresholds 1e-300 are kept *)
Definition tiny : R := / 10 ^ 300.
Definition k_intersect_cylinder (length radius : R) (o d : vec) : list R :=
  let half := 1/2 * length in
  let a := vx d * vx d + vy d * vy d in
  let wall :=
    if Rltb tiny a then
      let b := 2 * (vx o * vx d + vy o * vy d) in
      let c := vx o * vx o + vy o * vy o - radius * radius in
      let disc := b * b - 4 * a * c in
      if Rleb 0 disc then
        filter (fun t => let z := vz o + t * vz d in Rltb (- half) z && Rltb z half)
          [(- b - sqrt disc) / (2 * a); (- b + sqrt disc) / (2 * a)]
      else []
    else [] in
  let caps :=
    if Rltb tiny (Rabs (vz d)) then
      filter (fun t => let x := vx o + t * vx d in let y := vy o + t * vy d in
                       Rleb (x * x + y * y) (radius * radius))
        [(- half - vz o) / vz d; (half - vz o) / vz d]
    else [] in
  filter (fun t => Rltb EPS_ZERO t) (wall ++ caps).

(** ** Box *)
(** kernel 245-276 intersect_box: state (tmin, tmax), None = -INFINITY / INFINITY *)
Definition slab (size o d : R) (st : option R * option R) : option (option R * option R) :=
  let lo := - (1/2) * size in
  let hi := 1/2 * size in
  if Rltb (Rabs d) tiny then
    if Rltb o lo || Rltb hi o then None else Some st
  else
    let inv := 1 / d in
    let t1 := (lo - o) * inv in
    let t2 := (hi - o) * inv in
    let '(t1, t2) := if Rltb t2 t1 then (t2, t1) else (t1, t2) in
    let tmin := match fst st with None => Some t1 | Some m => Some (if Rltb m t1 then t1 else m) end in
    let tmax := match snd st with None => Some t2 | Some m => Some (if Rltb t2 m then t2 else m) end in
    Some (tmin, tmax).
Definition box_interval (size o d : vec) : option (option R * option R) :=
  match slab (vx size) (vx o) (vx d) (None, None) with
  | None => None
  | Some st => match slab (vy size) (vy o) (vy d) st with
               | None => None
               | Some st => slab (vz size) (vz o) (vz d) st
               end
  end.
(** The result for a direction shorter than 1e-300 on all axes (tmax = INFINITY) is
    outside the model's domain. *)
Definition k_intersect_box (size o d : vec) : list R :=
  match box_interval size o d with
  | Some (Some tmin, Some tmax) =>
      if Rltb tmax tmin then []
      else (if Rltb EPS_ZERO tmin then [tmin] else []) ++ (if Rltb EPS_ZERO tmax then [tmax] else [])
  | _ => []
  end.

(** geometry/utils.py 15-62 on_aabb_surface with centre 0: the indices of the
    matching faces in the order xmin, xmax, ymin, ymax, zmin, zmax.  The distance to
    the projected point is the norm of a vector with one non-zero component. *)
Definition face_points (size p : vec) : list vec :=
  [V (- (1/2) * vx size) (vy p) (vz p); V (1/2 * vx size) (vy p) (vz p);
   V (vx p) (- (1/2) * vy size) (vz p); V (vx p) (1/2 * vy size) (vz p);
   V (vx p) (vy p) (- (1/2) * vz size); V (vx p) (vy p) (1/2 * vz size)].
Definition on_aabb_surface (size p : vec) (atol : R) : list nat :=
  map fst (filter (fun q => Rltb (Rabs (distance_between p (snd q))) (atol / 2))
                  (combine [0; 1; 2; 3; 4; 5]%nat (face_points size p))).
(** box.py 44-46 *)
Definition box_on_surface (size p : vec) : bool :=
  match on_aabb_surface size p (2 * EPS_ZERO) with [] => false | _ => true end.
(** box.py 21-22 and 48-66; None = GeometryError *)
Definition box_NORMALS : list vec := [V (-1) 0 0; V 1 0 0; V 0 (-1) 0; V 0 1 0; V 0 0 (-1); V 0 0 1].
Definition box_normal (size p : vec) : option vec :=
  match on_aabb_surface size p (2 * EPS_ZERO) with
  | [i] => nth_error box_NORMALS i
  | _ => None
  end.

(** kernel 359-400 local_normal *)
Definition k_box_normal (size p : vec) : vec :=
  let cand := [(Rabs (vx p - -1 * (1/2) * vx size), V (-1) 0 0); (Rabs (vx p - 1 * (1/2) * vx size), V 1 0 0);
               (Rabs (vy p - -1 * (1/2) * vy size), V 0 (-1) 0); (Rabs (vy p - 1 * (1/2) * vy size), V 0 1 0);
               (Rabs (vz p - -1 * (1/2) * vz size), V 0 0 (-1)); (Rabs (vz p - 1 * (1/2) * vz size), V 0 0 1)] in
  snd (fold_left (fun best q => if Rltb (fst q) (fst best) then q else best) (tl cand) (hd (0, vzero) cand)).
Definition k_sphere_normal (p : vec) : vec := vscale (/ sqrt (dot p p)) p.
Definition k_cylinder_normal (length : R) (p : vec) : vec :=
  let half := 1/2 * length in
  if Rleb (Rabs (vz p + half)) (/ 10 ^ 8 + / 10 ^ 5 * Rabs half) then V 0 0 (-1)
  else if Rleb (Rabs (vz p - half)) (/ 10 ^ 8 + / 10 ^ 5 * Rabs half) then V 0 0 1
  else let r := sqrt (vx p * vx p + vy p * vy p) in V (vx p / r) (vy p / r) 0.
