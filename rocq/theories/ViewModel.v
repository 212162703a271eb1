(** Model of what the viewport of the studio shows: scene_payload of pvtrace/studio/server.py (76-101),
    buildGeometry, renderScene and the gizmo of pvtrace/studio/static/app.js (90-128, 144-152,
    238-287), with the functions of three.js that they call.

    Numbers are real.  A geometry of three.js is the solid that its triangles approximate (48 and 32
    segments are used); materials, camera, edges and picking are left out. *)
From Coq Require Import Reals List Bool Arith String.
From Verif Require Import Base Vec TransformModel CompilerModel MatrixModel.
Import ListNotations.
Open Scope R_scope.

(** ** server.py *)
Record pnode := PNode { pn_name : string; pn_type : string; pn_params : list R; pn_matrix : list R; pn_root : bool }.
(** 89: matrix.T.ravel().tolist() of a 4x4 matrix *)
Definition ravel_transposed (g : rigid) : list R :=
  let m := rot g in let t := tra g in
  [vx (r1 m); vx (r2 m); vx (r3 m); 0; vy (r1 m); vy (r2 m); vy (r3 m); 0; vz (r1 m); vz (r2 m); vz (r3 m); 0; vx t; vy t; vz t; 1].
(** 27; a number that is no key would raise KeyError, the compiler assigns no other *)
Definition geom_name (t : nat) : string :=
  (if Nat.eqb t GEOM_BOX then "box" else if Nat.eqb t GEOM_SPHERE then "sphere" else "cylinder")%string.
(** 81-94 *)
Definition payload_nodes (T : tables) (root_id : nat) : list pnode :=
  map (fun i => PNode (nth i (t_names T) ""%string) (geom_name (nth i (t_geom_type T) 0%nat)) (nth i (t_geom_params T) [])
                      (ravel_transposed (nth i (t_l2w T) rid)) (Nat.eqb i root_id))
      (seq 0 (List.length (t_names T))).

(** ** three.js *)
Definition el (te : list R) (k : nat) : R := nth k te 0.
(** Matrix4.determinant, for a last row 0 0 0 1 *)
Definition determinant (te : list R) : R :=
  el te 0 * (el te 5 * el te 10 - el te 9 * el te 6) - el te 4 * (el te 1 * el te 10 - el te 9 * el te 2) + el te 8 * (el te 1 * el te 6 - el te 5 * el te 2).
(** Quaternion.setFromRotationMatrix *)
Definition set_from_rotation_matrix (te : list R) : quat :=
  let m11 := el te 0 in let m12 := el te 4 in let m13 := el te 8 in
  let m21 := el te 1 in let m22 := el te 5 in let m23 := el te 9 in
  let m31 := el te 2 in let m32 := el te 6 in let m33 := el te 10 in
  let trace := m11 + m22 + m33 in
  if Rltb 0 trace then
    let s := 1 / 2 / sqrt (trace + 1) in Q (1 / 4 / s) ((m32 - m23) * s) ((m13 - m31) * s) ((m21 - m12) * s)
  else if Rltb m22 m11 && Rltb m33 m11 then
    let s := 2 * sqrt (1 + m11 - m22 - m33) in Q ((m32 - m23) / s) (1 / 4 * s) ((m12 + m21) / s) ((m13 + m31) / s)
  else if Rltb m33 m22 then
    let s := 2 * sqrt (1 + m22 - m11 - m33) in Q ((m13 - m31) / s) ((m12 + m21) / s) (1 / 4 * s) ((m23 + m32) / s)
  else
    let s := 2 * sqrt (1 + m33 - m11 - m22) in Q ((m21 - m12) / s) ((m13 + m31) / s) ((m23 + m32) / s) (1 / 4 * s).
(** position, quaternion and scale of an Object3D *)
Record object3 := Object3 { o_position : vec; o_quaternion : quat; o_scale : vec }.
(** Matrix4.decompose *)
Definition decompose (te : list R) : object3 :=
  let sx := norm (V (el te 0) (el te 1) (el te 2)) in
  let sy := norm (V (el te 4) (el te 5) (el te 6)) in
  let sz := norm (V (el te 8) (el te 9) (el te 10)) in
  let sx := if Rltb (determinant te) 0 then - sx else sx in
  Object3 (V (el te 12) (el te 13) (el te 14))
    (set_from_rotation_matrix
       [el te 0 * (1 / sx); el te 1 * (1 / sx); el te 2 * (1 / sx); 0; el te 4 * (1 / sy); el te 5 * (1 / sy); el te 6 * (1 / sy); 0;
        el te 8 * (1 / sz); el te 9 * (1 / sz); el te 10 * (1 / sz); 0; el te 12; el te 13; el te 14; 1])
    (V sx sy sz).
(** Matrix4.compose: the matrix with which an Object3D is drawn *)
Definition compose (o : object3) : list R :=
  let q := o_quaternion o in let s := o_scale o in let p := o_position o in
  let x := qx q in let y := qy q in let z := qz q in let w := qw q in
  let x2 := x + x in let y2 := y + y in let z2 := z + z in
  let xx := x * x2 in let xy := x * y2 in let xz := x * z2 in let yy := y * y2 in let yz := y * z2 in let zz := z * z2 in
  let wx := w * x2 in let wy := w * y2 in let wz := w * z2 in
  [(1 - (yy + zz)) * vx s; (xy + wz) * vx s; (xz - wy) * vx s; 0;
   (xy - wz) * vy s; (1 - (xx + zz)) * vy s; (yz + wx) * vy s; 0;
   (xz + wy) * vz s; (yz - wx) * vz s; (1 - (xx + yy)) * vz s; 0;
   vx p; vy p; vz p; 1].
(** Vector3.applyMatrix4 for a last row 0 0 0 1 *)
Definition apply4 (te : list R) (v : vec) : vec :=
  V (el te 0 * vx v + el te 4 * vy v + el te 8 * vz v + el te 12) (el te 1 * vx v + el te 5 * vy v + el te 9 * vz v + el te 13)
    (el te 2 * vx v + el te 6 * vy v + el te 10 * vz v + el te 14).
Definition solid := vec -> Prop.
Definition BoxGeometry (width height depth : R) : solid := fun p => Rabs (vx p) <= width / 2 /\ Rabs (vy p) <= height / 2 /\ Rabs (vz p) <= depth / 2.
Definition SphereGeometry (radius : R) : solid := fun p => norm p <= radius.
(** along y; equal radii *)
Definition CylinderGeometry (radius height : R) : solid := fun p => vx p * vx p + vz p * vz p <= radius * radius /\ Rabs (vy p) <= height / 2.
(** BufferGeometry.rotateX *)
Definition rotateX (angle : R) (s : solid) : solid :=
  fun p => exists q, s q /\ p = V (vx q) (cos angle * vy q - sin angle * vz q) (sin angle * vy q + cos angle * vz q).

(** ** app.js *)
(** 144-152 *)
Definition build_geometry (n : pnode) : solid :=
  let a := el (pn_params n) 0 in let b := el (pn_params n) 1 in let c := el (pn_params n) 2 in
  if String.eqb (pn_type n) "box" then BoxGeometry a b c
  else if String.eqb (pn_type n) "sphere" then SphereGeometry a
  else rotateX (PI / 2) (CylinderGeometry b a).
(** 238-268: the object of a node, its solid in its own frame, whether it is drawn as the world *)
Record mesh := Mesh { ms_name : string; ms_world : bool; ms_solid : solid; ms_object : object3 }.
Definition render_node (n : pnode) : mesh := Mesh (pn_name n) (pn_root n) (build_geometry n) (decompose (pn_matrix n)).
Definition shown (m : mesh) : solid := fun p => exists q, ms_solid m q /\ p = apply4 (compose (ms_object m)) q.
(** 270-287: marker, and origin and direction of the arrow, of a light *)
Definition render_light (matrix : list R) : object3 * vec * vec :=
  (decompose matrix, V (el matrix 12) (el matrix 13) (el matrix 14), V (el matrix 8) (el matrix 9) (el matrix 10)).

(** ** The gizmo, 90-128 *)
(** what is posted to /api/patch: the world position of a move *)
Record drag := Drag { g_position : vec; g_start : option vec; g_last : R; g_posted : list vec }.
Inductive gizmo_event :=
| DragBegin                                      (* dragging-changed, value true *)
| Change (realtime : bool) (now : R) (p : vec)   (* objectChange, after the gizmo moved the object to p *)
| DragEnd.                                       (* dragging-changed, value false *)
Definition gizmo_step (d : drag) (e : gizmo_event) : drag :=
  match e with
  | DragBegin => Drag (g_position d) (Some (g_position d)) (g_last d) (g_posted d)
  | Change realtime now p =>
      if negb realtime then Drag p (g_start d) (g_last d) (g_posted d)
      else if Rltb (now - g_last d) 150 then Drag p (g_start d) (g_last d) (g_posted d)
      else Drag p (g_start d) now (g_posted d ++ [p])
  | DragEnd =>
      match g_start d with
      | None => d
      | Some s => Drag (g_position d) None (g_last d)
                       (if Rltb (/ 10 ^ 6) (distance_between (g_position d) s) then g_posted d ++ [g_position d] else g_posted d)
      end
  end.
Definition gizmo (d : drag) (es : list gizmo_event) : drag := fold_left gizmo_step es d.
