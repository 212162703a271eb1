(** Model of the surface optics: pvtrace/material/utils.py 8-45,
    pvtrace/material/surface.py, pvtrace/geometry/utils.py 399-407 and
    pvtrace/engine/_kernel.pyx 406-446, 849-895.

    A nan produced by sqrt of a negative number or 0/0 is [None]. *)
From Coq Require Import Reals List Bool.
From Verif Require Import Base Vec.
Import ListNotations.
Open Scope R_scope.

(** material/utils.py 8-22 fresnel_reflectivity *)
Definition fresnel_reflectivity (angle n1 n2 : R) : option R :=
  if Rltb n2 n1 && Rltb (asin (n2 / n1)) angle then Some 1
  else
    let c := cos angle in
    let s := sin angle in
    let q := 1 - (n1 / n2 * s) ^ 2 in
    if Rltb q 0 then None
    else
      let k := sqrt q in
      let Rs1 := n1 * c - n2 * k in
      let Rs2 := n1 * c + n2 * k in
      let Rp1 := n1 * k - n2 * c in
      let Rp2 := n1 * k + n2 * c in
      if Reqb Rs2 0 || Reqb Rp2 0 then None
      else Some (/ 2 * ((Rs1 / Rs2) ^ 2 + (Rp1 / Rp2) ^ 2)).

(** _kernel.pyx 406-420 *)
Definition k_fresnel_reflectivity (angle n1 n2 : R) : option R :=
  if Rltb n2 n1 && Rltb (asin (n2 / n1)) angle then Some 1
  else
    let c := cos angle in
    let s := sin angle in
    let q := 1 - (n1 / n2 * s) ^ 2 in
    if Rltb q 0 then None
    else
      let k := sqrt q in
      let rs1 := n1 * c - n2 * k in
      let rs2 := n1 * c + n2 * k in
      let rp1 := n1 * k - n2 * c in
      let rp2 := n1 * k + n2 * c in
      if Reqb rs2 0 || Reqb rp2 0 then None
      else Some (/ 2 * ((rs1 / rs2) ^ 2 + (rp1 / rp2) ^ 2)).

(** geometry/utils.py 387 flip, as used in surface.py 125-126 and 172-173 *)
Definition along (normal direction : vec) : vec :=
  if Rltb (dot normal direction) 0 then vneg normal else normal.

(** material/utils.py 25-32 specular_reflection *)
Definition specular_reflection (direction normal : vec) : vec :=
  let normal := along normal direction in
  let d := dot normal direction in
  vsub direction (vscale (2 * d) normal).

(** _kernel.pyx 423-434 specular_reflect *)
Definition k_specular_reflect (d normal : vec) : vec :=
  let n := if Rltb (dot normal d) 0 then vneg normal else normal in
  let dd := dot n d in
  V (vx d - 2 * dd * vx n) (vy d - 2 * dd * vy n) (vz d - 2 * dd * vz n).

(** material/utils.py 35-45 fresnel_refraction *)
Definition fresnel_refraction (direction normal : vec) (n1 n2 : R) : option vec :=
  let n := n1 / n2 in
  let dt := dot direction normal in
  let q := 1 - n ^ 2 * (1 - dt ^ 2) in
  if Rltb q 0 then None
  else
    let c := sqrt q in
    let sign := if Rltb dt 0 then -1 else 1 in
    Some (vadd (vscale n direction) (vscale (sign * (c - sign * n * dt)) normal)).

(** _kernel.pyx 437-448 fresnel_refract *)
Definition k_fresnel_refract (d normal : vec) (n1 n2 : R) : option vec :=
  let n := n1 / n2 in
  let dd := dot d normal in
  let q := 1 - n * n * (1 - dd * dd) in
  if Rltb q 0 then None
  else
    let c := sqrt q in
    let sign := if Rltb dd 0 then -1 else 1 in
    let f := sign * (c - sign * n * dd) in
    Some (V (n * vx d + f * vx normal) (n * vy d + f * vy normal) (n * vz d + f * vz normal)).

(** numpy.allclose with default rtol=1e-5, atol=1e-8 *)
Definition np_close (a b : R) : bool := Rleb (Rabs (a - b)) (/ 10 ^ 8 + / 10 ^ 5 * Rabs b).
Definition np_allclose (a b : vec) : bool :=
  np_close (vx a) (vx b) && np_close (vy a) (vy b) && np_close (vz a) (vz b).

(** geometry/utils.py 399-407 angle_between.  arccos of a number outside
    [-1,1] (nan in numpy) is only possible for non-unit vectors. *)
Definition angle_between (normal vector : vec) : R :=
  if np_allclose normal vector then 0
  else if np_allclose (vneg normal) vector then PI
  else acos (dot normal vector).

(** _kernel.pyx 857-869: incidence angle *)
Definition k_angle (nrm direction : vec) : R :=
  let nf := if Rltb (dot nrm direction) 0 then vneg nrm else nrm in
  let dd := dot nf direction in
  let dd := if Rltb 1 dd then 1 else if Rltb dd (-1) then -1 else dd in
  acos dd.

(** surface.py 102-140 FresnelSurfaceDelegate.reflectivity (normal = geometry.normal(ray.position)) *)
Definition fresnel_delegate_reflectivity (normal direction : vec) (n1 n2 : R) : option R :=
  fresnel_reflectivity (angle_between (along normal direction) direction) n1 n2.

(** surface.py 143-152 reflected_direction *)
Definition fresnel_delegate_reflected (normal direction : vec) : vec :=
  specular_reflection direction normal.

(** surface.py 160-177 transmitted_direction *)
Definition fresnel_delegate_transmitted (normal direction : vec) (n1 n2 : R) : option vec :=
  fresnel_refraction direction (along normal direction) n1 n2.

(** surface.py 231-240 Surface.is_reflected for reflectivity [r] and draw [u] *)
Definition is_reflected (r u : R) : bool :=
  if Reqb r 0 then false else Rltb u r.

(** surface.py 79-99 NullSurfaceDelegate *)
Definition null_reflectivity : R := 0.
Definition null_transmitted (direction : vec) : vec := direction.

(** _kernel.pyx 871-880: u = 1.0 unless r > 0 *)
Definition k_is_reflected (r u : R) : bool :=
  let u' := if Rltb 0 r then u else 1 in Rltb u' r.

(** device/lsc.py 64-89 AirGapMirror: reflectivity 1; [lamb] is the
    direction drawn by lambertian(). [None] = NotImplementedError or nan. *)
Definition air_gap_reflectivity : R := 1.
Definition air_gap_reflected (lambertian : bool) (normal direction : vec) (n1 n2 : R) (lamb : vec) : option vec :=
  if negb lambertian then fresnel_delegate_transmitted normal direction n1 n2
  else if negb (np_allclose (V 0 0 1) normal) then None
  else Some lamb.
