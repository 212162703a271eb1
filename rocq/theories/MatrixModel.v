(** Model of the rest of pvtrace/geometry/transformations.py: quaternions, Euler angles, mirror, scaling,
    projection, clipping, shear and crystal matrices, and their composition and decomposition.
    Scalars are reals; arguments are single vectors (the [axis] and [out] arguments of vector_norm and
    unit_vector are not modelled).  [None] stands for an exception or a result with nan or inf. *)
From Coq Require Import Reals List Bool Arith.
From Verif Require Import Base Vec TransformModel.
Import ListNotations.
Open Scope R_scope.

(** ** 4x4 matrices: [[lin, col], [row, cor]] *)
Record hom := Hom { lin : mat; col : vec; row : vec; cor : R }.
(** numpy.outer *)
Definition outer (u v : vec) : mat := M (vscale (vx u) v) (vscale (vy u) v) (vscale (vz u) v).
Definition msub (a b : mat) : mat := M (vsub (r1 a) (r1 b)) (vsub (r2 a) (r2 b)) (vsub (r3 a) (r3 b)).
(** numpy.dot of two matrices *)
Definition hmul (a b : hom) : hom :=
  Hom (madd (mmul (lin a) (lin b)) (outer (col a) (row b)))
      (vadd (mvec (lin a) (col b)) (vscale (cor b) (col a)))
      (vadd (mvec (mtrans (lin b)) (row a)) (vscale (cor a) (row b)))
      (dot (row a) (col b) + cor a * cor b).
Definition hom_of (g : rigid) : hom := Hom (rot g) (tra g) vzero 1.
(** identity_matrix 208-220 *)
Definition hid : hom := Hom Vec.mid vzero vzero 1.
Definition hscale (k : R) (m : hom) : hom := Hom (mscale k (lin m)) (vscale k (col m)) (vscale k (row m)) (k * cor m).
(** a point [p] (with 1 as fourth coordinate) under a matrix, dehomogenized *)
Definition happly (m : hom) (p : vec) : vec := vscale (/ (dot (row m) p + cor m)) (vadd (mvec (lin m) p) (col m)).
(** concatenate_matrices 1892-1905 *)
Definition concatenate_matrices (ms : list hom) : hom := fold_left hmul ms hid.

(** _EPS 1690: numpy.finfo(float).eps * 4.0 *)
Definition EPS : R := 4 / 2 ^ 52.

(** reflection_matrix 248-271 *)
Definition reflection_matrix (point normal : vec) : option rigid :=
  match unit_vector normal with
  | None => None
  | Some n => Some (Rigid (msub Vec.mid (mscale 2 (outer n n))) (vscale (2 * dot point n) n))
  end.

(** scale_matrix 392-423 *)
Definition scale_matrix (factor : R) (origin direction : option vec) : option rigid :=
  match direction with
  | None => Some (Rigid (mscale factor Vec.mid) (match origin with Some o => vscale (1 - factor) o | None => vzero end))
  | Some d =>
      match unit_vector d with
      | None => None
      | Some d => let f := 1 - factor in
          Some (Rigid (msub Vec.mid (mscale f (outer d d))) (match origin with Some o => vscale (f * dot o d) d | None => vzero end))
      end
  end.

(** projection_matrix 467-524 *)
Definition projection_matrix (point normal : vec) (direction perspective : option vec) (pseudo : bool) : option hom :=
  match unit_vector normal with
  | None => None
  | Some n =>
      match perspective, direction with
      | Some p, _ =>
          let m := msub (mscale (dot (vsub p point) n) Vec.mid) (outer p n) in
          if pseudo then Some (Hom (msub m (outer n n)) (vscale (dot point n) (vadd p n)) (vneg n) (dot p n))
          else Some (Hom m (vscale (dot point n) p) (vneg n) (dot p n))
      | None, Some d =>
          let scale := dot d n in
          if Reqb scale 0 then None
          else Some (hom_of (Rigid (msub Vec.mid (mscale (/ scale) (outer d n))) (vscale (dot point n / scale) d)))
      | None, None => Some (hom_of (Rigid (msub Vec.mid (outer n n)) (vscale (dot point n) n)))
      end
  end.

(** clip_matrix 599-652 *)
Definition clip_matrix (left right bottom top near far : R) (perspective : bool) : option hom :=
  if (Rleb right left || Rleb top bottom || Rleb far near)%bool then None
  else if perspective then
    if Rleb near EPS then None
    else let t := 2 * near in
      Some (Hom (M (V (t / (left - right)) 0 ((right + left) / (right - left)))
                   (V 0 (t / (bottom - top)) ((top + bottom) / (top - bottom)))
                   (V 0 0 ((far + near) / (near - far))))
                (V 0 0 (t * far / (far - near))) (V 0 0 (-1)) 0)
  else
      Some (Hom (M (V (2 / (right - left)) 0 0) (V 0 (2 / (top - bottom)) 0) (V 0 0 (2 / (far - near))))
                (V ((right + left) / (left - right)) ((top + bottom) / (bottom - top)) ((far + near) / (near - far))) vzero 1).

(** shear_matrix 655-683 *)
Definition shear_matrix (angle : R) (direction point normal : vec) : option rigid :=
  match unit_vector normal, unit_vector direction with
  | Some n, Some d =>
      if Rltb (/ 10 ^ 6) (Rabs (dot n d)) then None
      else let t := tan angle in
        Some (Rigid (madd Vec.mid (mscale t (outer d n))) (vscale (- t * dot point n) d))
  | _, _ => None
  end.

(** orthogonalization_matrix 870-897 (angles in radians here: numpy.radians is applied first) *)
Definition orthogonalization_matrix (a b c alpha beta gamma : R) : mat :=
  let co := (cos alpha * cos beta - cos gamma) / (sin alpha * sin beta) in
  M (V (a * sin beta * sqrt (1 - co * co)) 0 0)
    (V (- a * sin beta * co) (b * sin alpha) 0)
    (V (a * cos beta) (b * cos alpha) c).

(** ** Euler angles *)
(** an axis sequence: the tuple (firstaxis, parity, repetition, frame) of _AXES2TUPLE 1696-1721 *)
Record axes := Axes { firstaxis : nat; parity : bool; repetition : bool; frame : bool }.
(** the names of that table: static or rotating, and the three axes (0, 1, 2 for x, y, z) *)
Definition AXES2TUPLE : list ((bool * (nat * nat * nat)) * axes) :=
  [ ((true, (0, 1, 2)), Axes 0 false false false); ((true, (0, 1, 0)), Axes 0 false true false);
    ((true, (0, 2, 1)), Axes 0 true false false);  ((true, (0, 2, 0)), Axes 0 true true false);
    ((true, (1, 2, 0)), Axes 1 false false false); ((true, (1, 2, 1)), Axes 1 false true false);
    ((true, (1, 0, 2)), Axes 1 true false false);  ((true, (1, 0, 1)), Axes 1 true true false);
    ((true, (2, 0, 1)), Axes 2 false false false); ((true, (2, 0, 2)), Axes 2 false true false);
    ((true, (2, 1, 0)), Axes 2 true false false);  ((true, (2, 1, 2)), Axes 2 true true false);
    ((false, (2, 1, 0)), Axes 0 false false true); ((false, (0, 1, 0)), Axes 0 false true true);
    ((false, (1, 2, 0)), Axes 0 true false true);  ((false, (0, 2, 0)), Axes 0 true true true);
    ((false, (0, 2, 1)), Axes 1 false false true); ((false, (1, 2, 1)), Axes 1 false true true);
    ((false, (2, 0, 1)), Axes 1 true false true);  ((false, (1, 0, 1)), Axes 1 true true true);
    ((false, (1, 0, 2)), Axes 2 false false true); ((false, (2, 0, 2)), Axes 2 false true true);
    ((false, (0, 1, 2)), Axes 2 true false true);  ((false, (2, 1, 2)), Axes 2 true true true) ]%nat.
(** _NEXT_AXIS 1693 *)
Definition NEXT_AXIS : list nat := [1; 2; 0; 1]%nat.
Definition b2n (b : bool) : nat := if b then 1 else 0.
(** 1086-1088: the three indices *)
Definition axis_j (x : axes) : nat := nth (firstaxis x + b2n (parity x)) NEXT_AXIS 0%nat.
Definition axis_k (x : axes) : nat := nth (firstaxis x + 1 - b2n (parity x)) NEXT_AXIS 0%nat.
(** Matrices by index.  [M[i, j] = x] assignments: a function from indices to entries; the first
    matching assignment of the list counts (each entry is assigned once). *)
Definition lookup (l : list (nat * nat * R)) (i j : nat) : R :=
  match find (fun '(a, b, _) => Nat.eqb a i && Nat.eqb b j) l with Some (_, _, x) => x | None => if Nat.eqb i j then 1 else 0 end.
Definition mat_of (f : nat -> nat -> R) : mat :=
  M (V (f 0 0) (f 0 1) (f 0 2))%nat (V (f 1 0) (f 1 1) (f 1 2))%nat (V (f 2 0) (f 2 1) (f 2 2))%nat.
Definition ent (m : mat) (i j : nat) : R :=
  let r := match i with 0%nat => r1 m | 1%nat => r2 m | _ => r3 m end in
  match j with 0%nat => vx r | 1%nat => vy r | _ => vz r end.

(** euler_matrix 1061-1121 *)
Definition euler_matrix (ai aj ak : R) (x : axes) : mat :=
  let i := firstaxis x in let j := axis_j x in let k := axis_k x in
  let '(ai, ak) := if frame x then (ak, ai) else (ai, ak) in
  let '(ai, aj, ak) := if parity x then (- ai, - aj, - ak) else (ai, aj, ak) in
  let si := sin ai in let sj := sin aj in let sk := sin ak in
  let ci := cos ai in let cj := cos aj in let ck := cos ak in
  let cc := ci * ck in let cs := ci * sk in
  let sc := si * ck in let ss := si * sk in
  mat_of (lookup
    (if repetition x then
       [ (i, i, cj);      (i, j, sj * si);          (i, k, sj * ci);
         (j, i, sj * sk); (j, j, - cj * ss + cc);   (j, k, - cj * cs - sc);
         (k, i, - sj * ck); (k, j, cj * sc + cs);   (k, k, cj * cc - ss) ]
     else
       [ (i, i, cj * ck); (i, j, sj * sc - cs);     (i, k, sj * cc + ss);
         (j, i, cj * sk); (j, j, sj * ss + cc);     (j, k, sj * cs - sc);
         (k, i, - sj);    (k, j, cj * si);          (k, k, cj * ci) ])).

(** euler_from_matrix 1124-1179 *)
Definition euler_from_matrix (m : mat) (x : axes) : R * R * R :=
  let i := firstaxis x in let j := axis_j x in let k := axis_k x in
  let e := ent m in
  let '(ax, ay, az) :=
    if repetition x then
      let sy := sqrt (e i j * e i j + e i k * e i k) in
      if Rltb EPS sy then (atan2 (e i j) (e i k), atan2 sy (e i i), atan2 (e j i) (- e k i))
      else (atan2 (- e j k) (e j j), atan2 sy (e i i), 0)
    else
      let cy := sqrt (e i i * e i i + e j i * e j i) in
      if Rltb EPS cy then (atan2 (e k j) (e k k), atan2 (- e k i) cy, atan2 (e j i) (e i i))
      else (atan2 (- e j k) (e j j), atan2 (- e k i) cy, 0) in
  let '(ax, ay, az) := if parity x then (- ax, - ay, - az) else (ax, ay, az) in
  if frame x then (az, ay, ax) else (ax, ay, az).

(** ** Quaternions: (w, x, y, z) *)
Record quat := Q { qw : R; qx : R; qy : R; qz : R }.
Definition qdot (p q : quat) : R := qw p * qw q + qx p * qx q + qy p * qy q + qz p * qz q.
Definition qscale (k : R) (q : quat) : quat := Q (k * qw q) (k * qx q) (k * qy q) (k * qz q).
Definition qadd (p q : quat) : quat := Q (qw p + qw q) (qx p + qx q) (qy p + qy q) (qz p + qz q).
Definition qneg (q : quat) : quat := Q (- qw q) (- qx q) (- qy q) (- qz q).

(** quaternion_from_euler 1193-1247: q[0], and q[1 + index] for the three axes *)
Definition quat_of (f : nat -> R) (w : R) : quat := Q w (f 0%nat) (f 1%nat) (f 2%nat).
Definition quaternion_from_euler (ai aj ak : R) (x : axes) : quat :=
  let i := firstaxis x in let j := axis_j x in let k := axis_k x in
  let '(ai, ak) := if frame x then (ak, ai) else (ai, ak) in
  let aj := if parity x then - aj else aj in
  let ai := ai / 2 in let aj := aj / 2 in let ak := ak / 2 in
  let ci := cos ai in let si := sin ai in let cj := cos aj in let sj := sin aj in let ck := cos ak in let sk := sin ak in
  let cc := ci * ck in let cs := ci * sk in let sc := si * ck in let ss := si * sk in
  let '(q0, qi, qj, qk) :=
    if repetition x then (cj * (cc - ss), cj * (cs + sc), sj * (cc + ss), sj * (cs - sc))
    else (cj * cc + sj * ss, cj * sc - sj * cs, cj * ss + sj * cc, cj * cs - sj * sc) in
  let qj := if parity x then - qj else qj in
  quat_of (fun n => if Nat.eqb n i then qi else if Nat.eqb n j then qj else qk) q0.

(** quaternion_about_axis 1250-1263 *)
Definition quaternion_about_axis (angle : R) (axis : vec) : quat :=
  let qlen := norm axis in
  let a := if Rltb EPS qlen then vscale (sin (angle / 2) / qlen) axis else axis in
  Q (cos (angle / 2)) (vx a) (vy a) (vz a).

(** quaternion_matrix 1266-1293 *)
Definition quaternion_matrix (q : quat) : mat :=
  let n := qdot q q in
  if Rltb n EPS then Vec.mid
  else
    let q := qscale (sqrt (2 / n)) q in
    let w := qw q in let x := qx q in let y := qy q in let z := qz q in
    M (V (1 - y * y - z * z) (x * y - z * w) (x * z + y * w))
      (V (x * y + z * w) (1 - x * x - z * z) (y * z - x * w))
      (V (x * z - y * w) (y * z + x * w) (1 - x * x - y * y)).

(** The entries of the 4x4 matrix of an affine map [g], by index *)
Definition e4 (g : rigid) (i j : nat) : R :=
  if Nat.ltb i 3 then if Nat.ltb j 3 then ent (rot g) i j else match i with 0%nat => vx (tra g) | 1%nat => vy (tra g) | _ => vz (tra g) end
  else if Nat.ltb j 3 then 0 else 1.
Definition set4 (i : nat) (x : R) (q : quat) : quat :=
  match i with 0%nat => Q x (qx q) (qy q) (qz q) | 1%nat => Q (qw q) x (qy q) (qz q) | 2%nat => Q (qw q) (qx q) x (qz q) | _ => Q (qw q) (qx q) (qy q) x end.
(** quaternion_from_matrix 1296-1378, isprecise=True.  [garbage]: what numpy.empty leaves in q[0], which
    the second branch does not assign. *)
Definition quaternion_from_matrix_precise (g : rigid) (garbage : R) : option quat :=
  let e := e4 g in
  let t := e 0%nat 0%nat + e 1%nat 1%nat + e 2%nat 2%nat + e 3%nat 3%nat in
  let '(q, t) :=
    if Rltb (e 3%nat 3%nat) t then
      (Q t (e 2%nat 1%nat - e 1%nat 2%nat) (e 0%nat 2%nat - e 2%nat 0%nat) (e 1%nat 0%nat - e 0%nat 1%nat), t)
    else
      let '(i, j, k) := (1, 2, 3)%nat in
      let '(i, j, k) := if Rltb (e 0%nat 0%nat) (e 1%nat 1%nat) then (2, 3, 1)%nat else (i, j, k) in
      let '(i, j, k) := if Rltb (e i i) (e 2%nat 2%nat) then (3, 1, 2)%nat else (i, j, k) in
      let t := e i i - (e j j + e k k) + e 3%nat 3%nat in
      (set4 3 (e k j - e j k) (set4 k (e k i + e i k) (set4 j (e i j + e j i) (set4 i t (Q garbage 0 0 0)))), t) in
  if Rleb (t * e 3%nat 3%nat) 0 then None
  else
    let q := qscale (1 / 2 / sqrt (t * e 3%nat 3%nat)) q in
    Some (if Rltb (qw q) 0 then qneg q else q).

(** isprecise=False: K 1357-1364 (eigh reads the lower triangle), and the eigenvector [v] of the largest
    eigenvalue, an oracle (see [eigh_spec] in MatrixProps.v), in the order x, y, z, w *)
Definition quaternion_from_matrix (v : quat) : quat := if Rltb (qw v) 0 then qneg v else v.
Definition K_apply (m : mat) (v : quat) : quat :=
  let e := ent m in
  let k00 := (e 0%nat 0%nat - e 1%nat 1%nat - e 2%nat 2%nat) / 3 in
  let k10 := (e 0%nat 1%nat + e 1%nat 0%nat) / 3 in let k11 := (e 1%nat 1%nat - e 0%nat 0%nat - e 2%nat 2%nat) / 3 in
  let k20 := (e 0%nat 2%nat + e 2%nat 0%nat) / 3 in let k21 := (e 1%nat 2%nat + e 2%nat 1%nat) / 3 in let k22 := (e 2%nat 2%nat - e 0%nat 0%nat - e 1%nat 1%nat) / 3 in
  let k30 := (e 2%nat 1%nat - e 1%nat 2%nat) / 3 in let k31 := (e 0%nat 2%nat - e 2%nat 0%nat) / 3 in let k32 := (e 1%nat 0%nat - e 0%nat 1%nat) / 3 in
  let k33 := (e 0%nat 0%nat + e 1%nat 1%nat + e 2%nat 2%nat) / 3 in
  Q (k30 * qx v + k31 * qy v + k32 * qz v + k33 * qw v)
    (k00 * qx v + k10 * qy v + k20 * qz v + k30 * qw v)
    (k10 * qx v + k11 * qy v + k21 * qz v + k31 * qw v)
    (k20 * qx v + k21 * qy v + k22 * qz v + k32 * qw v).

(** quaternion_multiply 1381-1399 *)
Definition quaternion_multiply (q1 q0 : quat) : quat :=
  let (w0, x0, y0, z0) := q0 in let (w1, x1, y1, z1) := q1 in
  Q (- x1 * x0 - y1 * y0 - z1 * z0 + w1 * w0)
    (x1 * w0 + y1 * z0 - z1 * y0 + w1 * x0)
    (- x1 * z0 + y1 * w0 + z1 * x0 + w1 * y0)
    (x1 * y0 - y1 * x0 + z1 * w0 + w1 * z0).
(** quaternion_conjugate 1402-1413 *)
Definition quaternion_conjugate (q : quat) : quat := Q (qw q) (- qx q) (- qy q) (- qz q).
(** quaternion_inverse 1416-1427 *)
Definition quaternion_inverse (q : quat) : quat := let c := quaternion_conjugate q in qscale (/ qdot c c) c.

(** unit_vector of a quaternion *)
Definition qunit (q : quat) : option quat := if Reqb (qdot q q) 0 then None else Some (qscale (/ sqrt (qdot q q)) q).
(** quaternion_slerp 1450-1488 *)
Definition quaternion_slerp (quat0 quat1 : quat) (fraction : R) (spin : Z) (shortestpath : bool) : option quat :=
  match qunit quat0, qunit quat1 with
  | Some q0, Some q1 =>
      if Reqb fraction 0 then Some q0
      else if Reqb fraction 1 then Some q1
      else
        let d := qdot q0 q1 in
        if Rltb (Rabs (Rabs d - 1)) EPS then Some q0
        else
          let '(d, q1) := if (shortestpath && Rltb d 0)%bool then (- d, qneg q1) else (d, q1) in
          let angle := acos d + IZR spin * PI in
          if Rltb (Rabs angle) EPS then Some q0
          else if Reqb (sin angle) 0 then None
          else
            let isin := 1 / sin angle in
            Some (qadd (qscale (sin ((1 - fraction) * angle) * isin) q0) (qscale (sin (fraction * angle) * isin) q1))
  | _, _ => None
  end.

(** random_quaternion 1491-1517, random_rotation_matrix 1520-1532 *)
Definition random_quaternion (u0 u1 u2 : R) : quat :=
  let r1 := sqrt (1 - u0) in let r2 := sqrt u0 in
  let t1 := PI * 2 * u1 in let t2 := PI * 2 * u2 in
  Q (cos t2 * r2) (sin t1 * r1) (cos t1 * r1) (sin t2 * r2).
Definition random_rotation_matrix (u0 u1 u2 : R) : mat := quaternion_matrix (random_quaternion u0 u1 u2).

(** angle_between_vectors 1845-1873 *)
Definition angle_between_vectors (v0 v1 : vec) (directed : bool) : option R :=
  if Reqb (norm v0 * norm v1) 0 then None
  else let d := dot v0 v1 / (norm v0 * norm v1) in Some (acos (if directed then d else Rabs d)).

(** ** decompose_matrix 731-813, compose_matrix 816-867 *)
Record parts := Parts { p_scale : vec; p_shear : vec; p_angles : vec; p_translate : vec; p_persp : vec * R }.
Definition sxyz : axes := Axes 0 false false false.
(** 784-802: Gram-Schmidt on the columns [a], [b], [c] of the matrix (rows of its transpose):
    (scale, shear, rows) *)
Definition gram_schmidt (a b c : vec) : vec * vec * mat :=
  let sx := norm a in
  let a := vscale (/ sx) a in
  let xy := dot a b in
  let b := vsub b (vscale xy a) in
  let sy := norm b in
  let b := vscale (/ sy) b in
  let xy := xy / sy in
  let xz := dot a c in
  let c := vsub c (vscale xz a) in
  let yz := dot b c in
  let c := vsub c (vscale yz b) in
  let sz := norm c in
  let c := vscale (/ sz) c in
  (V sx sy sz, V xy (xz / sz) (yz / sz), M a b c).
(** 804-811 *)
Definition row_angles (rows : mat) : vec :=
  let a1 := asin (- ent rows 0 2) in
  if Reqb (cos a1) 0 then V (atan2 (- ent rows 2 1) (ent rows 1 1)) a1 0
  else V (atan2 (ent rows 1 2) (ent rows 2 2)) a1 (atan2 (ent rows 0 1) (ent rows 0 0)).
Definition decompose_matrix (m : hom) : option parts :=
  if Rltb (Rabs (cor m)) EPS then None
  else
    let m := hscale (/ cor m) m in
    if Reqb (mdet (lin m)) 0 then None
    else
      let pr := row m in
      let persp :=
        if (Rltb EPS (Rabs (vx pr)) || Rltb EPS (Rabs (vy pr)) || Rltb EPS (Rabs (vz pr)))%bool then
          (* M[:, 3] . inv(P.T), P.T = [[lin, col], [0, 1]] *)
          let x := mvec (mtrans (minv (lin m))) pr in (x, 1 - dot x (col m))
        else (vzero, 1) in
      let t := mtrans (lin m) in
      let '(scale, shear, rows) := gram_schmidt (r1 t) (r2 t) (r3 t) in
      let '(scale, rows) := if Rltb (mdet rows) 0 then (vneg scale, mscale (-1) rows) else (scale, rows) in
      Some (Parts scale shear (row_angles rows) (col m) persp).
(** every argument given *)
Definition compose_matrix (p : parts) : hom :=
  let m := hmul hid (Hom Vec.mid vzero (fst (p_persp p)) (snd (p_persp p))) in
  let m := hmul m (hom_of (translation_matrix (p_translate p))) in
  let m := hmul m (hom_of (Rigid (euler_matrix (vx (p_angles p)) (vy (p_angles p)) (vz (p_angles p)) sxyz) vzero)) in
  let m := hmul m (hom_of (Rigid (M (V 1 (vx (p_shear p)) (vy (p_shear p))) (V 0 1 (vz (p_shear p))) (V 0 0 1)) vzero)) in
  let m := hmul m (hom_of (Rigid (M (V (vx (p_scale p)) 0 0) (V 0 (vy (p_scale p)) 0) (V 0 0 (vz (p_scale p)))) vzero)) in
  hscale (/ cor m) m.
