(** Model of light sources: the delegates of pvtrace/light/light.py, emission by Scene.emit
    (scene/node.py 176-202, scene/scene.py 141-152), emission of whole bundles
    (pvtrace/engine/emit.py 23-134) and lights in documents (pvtrace/cli/parse.py 140-211). *)
From Coq Require Import Reals List Bool Arith.
From Verif Require Import Base Vec DistModel PhaseModel TransformModel TracerModel StreamModel.
Import ListNotations.
Open Scope R_scope.

(** The uniform draws for one ray, by purpose *)
Record ldraws := LDraws { l_w : R; l_p1 : R; l_p2 : R; l_p3 : R; l_d1 : R; l_d2 : R; l_d3 : R }.

(** The delegates of a Light (light.py 202-233).  Custom callables are functions of the draws,
    None = raises.  The classes of light.py 80-156 call the functions of the same name.
    [WNumber]: a number in place of a callable (see [parse_light]).
    [WSpectrum None]: a Distribution whose cdf is nan, so that samples are nan (light.py 111-120). *)
Inductive wavelength_delegate :=
| WDefault | WConstant (nanometers : R) | WSpectrum (d : option dist) | WNumber | WCustom (f : ldraws -> option R).
Inductive position_delegate :=
| PDefault | PRectangular (x y : R) | PCircular (radius : R) | PCube (x y z : R) | PCustom (f : ldraws -> option vec).
Inductive direction_delegate :=
| DDefault | DIsotropic | DLambertian | DCone (theta_max : R) | DHenyeyGreenstein (g : R) | DCustom (f : ldraws -> option vec).
(** [light_name] stands for the string *)
Record light := mkLight { l_wavelength : wavelength_delegate; l_position : position_delegate; l_direction : direction_delegate; light_name : nat }.

(** ** Calling the delegates (light.py 48-77, 113-120, material/utils.py) *)
Definition call_wavelength (w : wavelength_delegate) (u : ldraws) : option R :=
  match w with
  | WDefault => Some 555
  | WConstant nm => Some nm
  | WSpectrum (Some d) => dist_sample d (l_w u)
  | WSpectrum None => None
  | WNumber => None
  | WCustom f => f u
  end.
Definition call_position (p : position_delegate) (u : ldraws) : option vec :=
  match p with
  | PDefault => Some (V 0 0 0)
  | PRectangular x y => Some (rectangular_mask x y (l_p1 u) (l_p2 u))
  | PCircular r => Some (circular_mask r (l_p1 u) (l_p2 u))
  | PCube x y z => Some (cube_mask x y z (l_p1 u) (l_p2 u) (l_p3 u))
  | PCustom f => f u
  end.
Definition call_direction (d : direction_delegate) (u : ldraws) : option vec :=
  match d with
  | DDefault => Some (V 0 0 1)
  | DIsotropic => Some (isotropic (l_d1 u) (l_d2 u))
  | DLambertian => Some (lambertian (l_d1 u) (l_d2 u))
  | DCone t => cone t (l_d1 u) (l_d2 u)
  | DHenyeyGreenstein g => henyey_greenstein g (l_d1 u) (l_d2 u) (l_d3 u)
  | DCustom f => f u
  end.
(** light.py 251-259: one ray in the frame of the light *)
Definition light_ray (l : light) (u : ldraws) : option ray :=
  match call_wavelength (l_wavelength l) u, call_position (l_position l) u, call_direction (l_direction l) u with
  | Some w, Some p, Some d => Some (Ray p d w 0 0 (Light (light_name l)))
  | _, _, _ => None
  end.

(** A light node with its transformation to the root.  The order of [lights] is that of
    scene.light_nodes. *)
Record light_node := LightNode { ln_light : light; ln_to_root : rigid }.
(** node.emit(1) and the representation in the root frame (scene.py 151-152) *)
Definition node_ray (n : light_node) (u : ldraws) : option ray :=
  match light_ray (ln_light n) u with Some r => Some (representation (ln_to_root n) r) | None => None end.
(** scene.py 141-152 Scene.emit: ray idx; None = an exception *)
Definition scene_ray (lights : list light_node) (u : nat -> ldraws) (idx : nat) : option ray :=
  match scene_emit_light (length lights) idx with
  | Some i => match nth_error lights i with Some n => node_ray n (u idx) | None => None end
  | None => None
  end.

(** ** Bundles *)
(** emit.py 22-33 _sample_wavelengths, one row.  Outer None: the delegate is not recognised. *)
Definition e_wavelength (w : wavelength_delegate) (u : ldraws) : option (option R) :=
  match w with
  | WDefault => Some (Some 555)
  | WConstant nm => Some (Some nm)
  | WSpectrum (Some d) => Some (dist_sample d (l_w u))
  | WSpectrum None => Some None
  | WNumber | WCustom _ => None
  end.
(** emit.py 36-59 _sample_positions, one row *)
Definition e_position (p : position_delegate) (u : ldraws) : option vec :=
  match p with
  | PDefault => Some (V 0 0 0)
  | PRectangular x y => Some (V (uniform (- x) x (l_p1 u)) (uniform (- y) y (l_p2 u)) 0)
  | PCircular r =>
      let angle := uniform 0 (2 * PI) (l_p1 u) in
      let radius := sqrt (l_p2 u) * r in
      Some (V (radius * cos angle) (radius * sin angle) 0)
  | PCube x y z => Some (V (uniform (- x) x (l_p1 u)) (uniform (- y) y (l_p2 u)) (uniform (- z) z (l_p3 u)))
  | PCustom _ => None
  end.
(** emit.py 62-89 _sample_directions, one row; the formulas are in PhaseModel.  A zero divisor
    (|g| = 1 and a draw of 0 or 1) gives nan, which is not modelled. *)
Definition e_direction (d : direction_delegate) (u : ldraws) : option vec :=
  match d with
  | DDefault => Some (V 0 0 1)
  | DIsotropic => Some (e_isotropic (l_d1 u) (l_d2 u))
  | DLambertian => Some (e_lambertian (l_d1 u) (l_d2 u))
  | DCone t => Some (e_cone t (l_d1 u) (l_d2 u))
  | DHenyeyGreenstein g => Some (e_henyey_greenstein g (l_d1 u) (l_d2 u))
  | DCustom _ => None
  end.
(** a row vector times a matrix: v @ m *)
Definition vmat (v : vec) (m : mat) : vec := mvec (mtrans m) v.
(** emit.py 106-132: one row of the arrays for a light *)
Definition e_ray (n : light_node) (u : ldraws) : option ray :=
  let l := ln_light n in
  match e_wavelength (l_wavelength l) u, e_position (l_position l) u, e_direction (l_direction l) u with
  | Some w, Some pos, Some dir =>
      let rotation := rot (ln_to_root n) in let translation := tra (ln_to_root n) in
      match w with
      | Some w => Some (Ray (vadd (vmat pos (mtrans rotation)) translation) (vmat dir (mtrans rotation)) w 0 0 (Light (light_name l)))
      | None => None
      end
  | _, _, _ => node_ray n u
  end.
(** emit.py 92-134: row i of the bundle.  [u l k]: the draws for ray k of light l. *)
Definition bundle_ray (lights : list light_node) (u : nat -> nat -> ldraws) (num_rays i : nat) : option ray :=
  match emit_bundle (length lights) num_rays i with
  | Some (l, k) => match nth_error lights l with Some n => e_ray n (u l k) | None => None end
  | None => None
  end.

(** ** Lights in documents *)
(** The schema's masks.  minItems and maxItems stand inside "items" there and so do not restrict
    the length of the lists.  [MCone None]: a half-angle given as text that float() refuses.
    [MSpectrum None]: loading the spectrum raises. *)
Inductive position_mask := MRect (l : list R) | MCube (l : list R) | MCircle (r : R).
Inductive direction_mask := MIsotropic | MLambertian | MCone (half_angle : option R) | MHenyeyGreenstein (g : R).
Inductive wavelength_mask := MNanometers (nm : R) | MSpectrum (rows : option (list (R * R))).
Inductive or_point A := PointLike (l : list R) | Mask (m : A).
Inductive or_number A := Number (x : R) | NMask (m : A).
Arguments PointLike {A}. Arguments Mask {A}. Arguments Number {A}. Arguments NMask {A}.
(** A missing mask section has no entries. *)
Record light_spec := LightSpec {
  ls_wavelength : option R; ls_mask_wavelength : option (or_number wavelength_mask);
  ls_mask_position : option (or_point position_mask); ls_mask_direction : option (or_point direction_mask) }.

(** The schema's limits: -1 <= g <= 1 *)
Definition schema_light (s : light_spec) : Prop :=
  match ls_mask_direction s with Some (Mask (MHenyeyGreenstein g)) => -1 <= g <= 1 | _ => True end.

(** parse.py 140-150; None = ValueError ("Missing attribute", also for a list, in which "rect" is
    not found) or TypeError (wrong number of arguments) *)
Definition parse_position_mask (m : or_point position_mask) : option position_delegate :=
  match m with
  | Mask (MRect [x; y]) => Some (PRectangular x y)
  | Mask (MCube [x; y; z]) => Some (PCube x y z)
  | Mask (MCircle r) => Some (PCircular r)
  | _ => None
  end.
(** np.radians *)
Definition radians (degrees : R) : R := degrees * (PI / 180).
(** parse.py 152-175 *)
Definition parse_direction_mask (m : or_point direction_mask) : option direction_delegate :=
  match m with
  | Mask MIsotropic => Some DIsotropic
  | Mask MLambertian => Some DLambertian
  | Mask (MCone (Some a)) => Some (DCone (radians a))
  | Mask (MCone None) => None
  | Mask (MHenyeyGreenstein g) => Some (DHenyeyGreenstein g)
  | PointLike _ => None
  end.
(** parse.py 177-187; "nanometers" in a number is a TypeError *)
Definition parse_wavelength_mask (m : or_number wavelength_mask) : option wavelength_delegate :=
  match m with
  | NMask (MNanometers nm) => Some (WConstant nm)
  | NMask (MSpectrum (Some rows)) =>
      match mk_dist (map fst rows) (map snd rows) false with
      | MkOk d => Some (WSpectrum (Some d))
      | MkNanCdf => Some (WSpectrum None)
      | _ => None
      end
  | NMask (MSpectrum None) => None
  | Number _ => None
  end.
(** parse.py 189-211: an empty list and the number 0 are false, so that the mask is skipped.
    A "wavelength" of 0 is not turned into a delegate but is not None either. *)
Definition parse_light (s : light_spec) (name : nat) : option light :=
  let wavelength := match ls_wavelength s with
                    | None => WDefault
                    | Some nm => if Reqb nm 0 then WNumber else WConstant nm
                    end in
  let wavelength := match ls_mask_wavelength s with
                    | None => Some wavelength
                    | Some (Number x) => if Reqb x 0 then Some wavelength else parse_wavelength_mask (Number x)
                    | Some m => parse_wavelength_mask m
                    end in
  let position := match ls_mask_position s with
                  | None | Some (PointLike []) => Some PDefault
                  | Some m => parse_position_mask m
                  end in
  let direction := match ls_mask_direction s with
                   | None | Some (PointLike []) => Some DDefault
                   | Some m => parse_direction_mask m
                   end in
  match wavelength, position, direction with
  | Some w, Some p, Some d => Some (mkLight w p d name)
  | _, _, _ => None
  end.
