(** Model of the configuration of pvtrace/device/lsc.py: the constructor (95-113), the calls that
    add something (231-297), and _make_scene with its defaults (115-219), which simulate and show
    call when there is no scene (324-325, 339-340).

    Names are strings.  Callables given by the user (delegates, phase functions) are opaque numbers.
    Drawing is left out; tracing is in LscModel.v. *)
From Coq Require Import Reals ZArith List Bool String.
From Verif Require Import Base Vec DistModel DyeModel ComponentModel TransformModel.
Import ListNotations.
Open Scope R_scope.

(** ** What is stored *)
(** the dictionaries of 231-258; [Popped]: "cls" and "coefficient" were taken out by 165-166 *)
Inductive cls := LuminophoreCls (e : emission) (quantum_yield : R) (phase_function : option nat) | AbsorberCls.
Inductive cdata := CData (c : cls) (name : string) (coefficient : coefficient) | Popped (name : string).
Definition cd_name (c : cdata) : string := match c with CData _ n _ | Popped n => n end.
(** a callable: None, functools.partial(cone, theta), or one of the user's *)
Inductive delegate := DNone | DCone (theta_max : R) | DUser (f : nat).
(** 260-278; a location and whether it consists of ints *)
Record ldata := LData { ld_name : string; ld_location : vec * bool; ld_rotation : option (R * vec); ld_direction : delegate; ld_wavelength : delegate; ld_position : delegate }.

(** ** What is built *)
(** component.py: the attributes that the arguments end up in; [co_ems] is None for an Absorber *)
Record comp := Comp { co_name : string; co_abs : option dist; co_ems : option dist; co_yield : R; co_phase : option nat }.
(** a Node with a Box; [bn_tf] as in TransformModel *)
Record bnode := BNode { bn_name : string; bn_size : vec; bn_index : R; bn_components : list comp; bn_tf : tf }.
(** a Node with a Light; None = nan pose *)
Record lnode := LNode { ln_name : string; ln_tf : option tf; ln_direction : delegate; ln_wavelength : delegate; ln_position : delegate }.
(** the world and its children in the order in which they are attached *)
Record scene := Scene { sc_world : bnode; sc_lsc : bnode; sc_mirror : option bnode; sc_lights : list lnode }.

(** 95-113.  [l_range] is the attribute wavelength_range, None when it does not exist. *)
Record lsc := Lsc {
  l_size : vec; l_range : option (list R); l_n0 : R; l_n1 : R;
  l_mirror : bool; l_lambertian : bool; l_scene : option scene; l_lights : list ldata; l_components : list cdata }.
Inductive exn := ExAttribute | ExName | ExKey | ExValue | ExType | ExIndex.
(** np.arange(400, 800) *)
Definition default_range : list R := map (fun k => 400 + INR k) (seq 0 400).
(** 97-98: only the branch [wavelength_range is None] assigns the attribute *)
Definition new_lsc (size : vec) (range : option (list R)) (n0 n1 : R) : lsc :=
  Lsc size (match range with None => Some default_range | Some _ => None end) n0 n1 false false None [] [].

(** 115-133.  None: reading self.wavelength_range raises AttributeError. *)
Definition default_components (l : lsc) : option (list cdata) :=
  match l_range l with
  | None => None
  | Some x =>
      Some [CData (LuminophoreCls (EArray (combine x (lumogen_emission x))) 1 None) "Lumogen F Red 305"
                  (CArray (combine x (map (fun y => y * 10) (lumogen_absorption x))));
            CData AbsorberCls "Background" (CFloat (1 / 10))]
  end.
(** np.radians *)
Definition radians (a : R) : R := a * (PI / 180).
(** 135-146 *)
Definition default_lights (l : lsc) : list ldata :=
  [LData "Light" (V 0 0 (vz (l_size l) * 5), false) (Some (radians 180, V 1 0 0)) (DCone (radians 20)) DNone DNone].

(** 167: cls(coefficient, **component_data), here with the keyword arguments that are left *)
Definition exn_of {A} (r : outcome A) : exn := match r with TypeError => ExType | IndexError => ExIndex | _ => ExValue end.
Definition construct (c : cls) (name : string) (coef : coefficient) : comp + exn :=
  match c with
  | LuminophoreCls e q ph =>
      match luminophore coef e None false with
      | Made (a, d) => inl (Comp name a (Some d) q ph)
      | r => inr (exn_of r)
      end
  | AbsorberCls =>
      match abs_dist coef None false with
      | Made a => inl (Comp name a None 0 None)
      | r => inr (exn_of r)
      end
  end.
(** 163-168 the loop: the dictionaries afterwards, and the components or the exception *)
Fixpoint make_components (l : list cdata) : list cdata * (list comp + exn) :=
  match l with
  | [] => ([], inl [])
  | Popped n :: rest => (Popped n :: rest, inr ExKey)
  | CData c n coef :: rest =>
      match construct c n coef with
      | inr e => (Popped n :: rest, inr e)
      | inl k => let '(rest', r) := make_components rest in (Popped n :: rest', match r with inl ks => inl (k :: ks) | inr e => inr e end)
      end
  end.

(** 206-217 *)
Definition make_light (d : ldata) : lnode :=
  let t := set_location (tf_init None) (fst (ld_location d)) (snd (ld_location d)) in
  LNode (ld_name d) (match ld_rotation d with None => Some t | Some (angle, axis) => rotate t angle axis end)
        (ld_direction d) (ld_wavelength d) (ld_position d).

(** 148-219; Some = the exception *)
Definition make_scene (l : lsc) : lsc * option exn :=
  let '(V len w d) := l_size l in
  let world := BNode "World" (V (len * 100) (w * 100) (d * 100)) (l_n0 l) [] (tf_init None) in
  match (match l_components l with [] => default_components l | cs => Some cs end) with
  | None => (l, Some ExAttribute)
  | Some cs =>
      let '(cs', r) := make_components cs in
      let l := Lsc (l_size l) (l_range l) (l_n0 l) (l_n1 l) (l_mirror l) (l_lambertian l) (l_scene l) (l_lights l) cs' in
      match r with
      | inr e => (l, Some e)
      | inl ks =>
          let plate := BNode "LSC" (V len w d) (l_n1 l) ks (tf_init None) in
          let mirror :=
            if l_mirror l then
              let sheet_thickness := 1 / 4 * d in
              match translate (tf_init None) (V 0 0 (- (1 / 2 * d + sheet_thickness))) false with
              | Some t => Some (BNode "Air Gap Mirror" (V len w sheet_thickness) (l_n0 l) [] t)
              | None => None
              end
            else None in
          let lights := match l_lights l with [] => default_lights l | ls => ls end in
          (Lsc (l_size l) (l_range l) (l_n0 l) (l_n1 l) (l_mirror l) (l_lambertian l)
               (Some (Scene world plate mirror (map make_light lights))) lights cs', None)
      end
  end.

(** ** The calls *)
Inductive call :=
| AddLuminophore (name : string) (c : coefficient) (e : emission) (quantum_yield : R) (phase_function : option nat)
| AddAbsorber (name : string) (c : coefficient)
| AddScatterer (name : string) (c : coefficient) (phase_function : option nat)
| AddLight (d : ldata)
| AddAirGapMirror (lambertian : bool)
| Run.
Definition with_components (l : lsc) cs := Lsc (l_size l) (l_range l) (l_n0 l) (l_n1 l) (l_mirror l) (l_lambertian l) (l_scene l) (l_lights l) cs.
Definition with_lights (l : lsc) ls := Lsc (l_size l) (l_range l) (l_n0 l) (l_n1 l) (l_mirror l) (l_lambertian l) (l_scene l) ls (l_components l).
(** 250-258: the name Scatterer is not imported (line 1), so the dictionary is never made.
    [Run]: the first lines of simulate and show. *)
Definition exec (l : lsc) (c : call) : lsc * option exn :=
  match c with
  | AddLuminophore n co e q ph => (with_components l (l_components l ++ [CData (LuminophoreCls e q ph) n co]), None)
  | AddAbsorber n co => (with_components l (l_components l ++ [CData AbsorberCls n co]), None)
  | AddScatterer _ _ _ => (l, Some ExName)
  | AddLight d => (with_lights l (l_lights l ++ [d]), None)
  | AddAirGapMirror b => (Lsc (l_size l) (l_range l) (l_n0 l) (l_n1 l) true b (l_scene l) (l_lights l) (l_components l), None)
  | Run => match l_scene l with Some _ => (l, None) | None => make_scene l end
  end.
(** a script stops at the first exception *)
Fixpoint script (l : lsc) (cs : list call) : lsc * option exn :=
  match cs with
  | [] => (l, None)
  | c :: rest => match exec l c with (l, None) => script l rest | r => r end
  end.
(** 221-229; None = ValueError *)
Definition component_names (l : lsc) : option (list string) := match l_scene l with None => None | Some _ => Some (map cd_name (l_components l)) end.
Definition light_names (l : lsc) : option (list string) := match l_scene l with None => None | Some _ => Some (map ld_name (l_lights l)) end.
