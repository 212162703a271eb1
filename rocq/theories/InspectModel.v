(** Model of the inspector of the studio page (studio/static/app.js 664-818) and of the "set"
    command of the server (studio/server.py 329-343) on the YAML document.  A document is a tree of
    mappings, lists and scalars; with anchors and aliases two places of it can be one object, so
    there is also a version with a heap.  Texts, comments and the order of keys in the written file
    are not modelled (ruamel.yaml keeps them); the text of numbers is TextModel.v. *)
From Coq Require Import Reals ZArith List Bool Arith String.
From Verif Require Import Base DistModel SpecModel LightModel.
Import ListNotations.
Open Scope list_scope.
Open Scope nat_scope.
Open Scope string_scope.

Inductive scalar := Null | Bool (b : bool) | Num (n : number) | Str (s : string).
Inductive yaml := YScalar (s : scalar) | YSeq (l : list yaml) | YMap (d : dict yaml).

(** The value of a "set" request: a number, a text, a boolean, or a list of such *)
Inductive sent := One (s : scalar) | Many (l : list scalar).
Definition yaml_of (v : sent) : yaml := match v with One s => YScalar s | Many l => YSeq (map YScalar l) end.

(** ** The server *)
(** server.py 336-343 on a tree.  [None]: an exception ([path[-1]] of an empty path; a key looked up
    in or assigned to something that is not a mapping: the last step of every such path is an
    assignment with a text as key, which lists, texts, numbers and null refuse). *)
Fixpoint set_at (path : list string) (v : yaml) (y : yaml) : option yaml :=
  match path with
  | [] => None
  | k :: rest =>
      match y with
      | YMap d =>
          match rest with
          | [] => Some (YMap (put k v d))
          | _ =>
              let target := match get k d with Some t => t | None => YMap [] end in
              match set_at rest v target with Some t => Some (YMap (put k t d)) | None => None end
          end
      | _ => None
      end
  end.

(** The same on objects.  An alias of YAML is a second reference to the same object (ruamel.yaml's
    round-trip loader and PyYAML both construct it once). *)
Inductive cell := CScalar (s : scalar) | CSeq (l : list nat) | CMap (d : dict nat).
Definition heap := list cell.
Fixpoint store (a : nat) (c : cell) (h : heap) : heap :=
  match h, a with
  | [], _ => []
  | _ :: h, 0 => c :: h
  | c' :: h, S a => c' :: store a c h
  end.
(** json.loads of the value: new objects *)
Definition allocate (v : sent) (h : heap) : heap * nat :=
  match v with
  | One s => ((h ++ [CScalar s])%list, List.length h)
  | Many l => ((h ++ map CScalar l ++ [CSeq (seq (List.length h) (List.length l))])%list, List.length h + List.length l)
  end.
(** server.py 336-343 *)
Fixpoint set_in_heap (path : list string) (v : sent) (h : heap) (target : nat) : option heap :=
  match path with
  | [] => None
  | k :: rest =>
      match nth_error h target with
      | Some (CMap d) =>
          match rest with
          | [] => let '(h, b) := allocate v h in Some (store target (CMap (put k b d)) h)
          | _ =>
              match get k d with
              | Some b => set_in_heap rest v h b
              | None => set_in_heap rest v (store target (CMap (put k (List.length h) d)) (h ++ [CMap []])%list) (List.length h)
              end
          end
      | _ => None
      end
  end.
(** The tree at an object, and the objects met on the way, with repetitions.  [fuel] bounds the
    depth. *)
Fixpoint tree_at (fuel : nat) (h : heap) (a : nat) : option yaml :=
  match fuel with
  | 0 => None
  | S fuel =>
      match nth_error h a with
      | None => None
      | Some (CScalar s) => Some (YScalar s)
      | Some (CSeq l) => option_map YSeq (map_opt (tree_at fuel h) l)
      | Some (CMap d) => option_map YMap (map_opt (fun kb => option_map (pair (fst kb)) (tree_at fuel h (snd kb))) d)
      end
  end.
Fixpoint objects_at (fuel : nat) (h : heap) (a : nat) : list nat :=
  match fuel with
  | 0 => []
  | S fuel =>
      a :: match nth_error h a with
           | Some (CSeq l) => flat_map (objects_at fuel h) l
           | Some (CMap d) => flat_map (fun kb => objects_at fuel h (snd kb)) d
           | _ => []
           end
  end.

(** ** What the parser takes from the tree *)
Definition text_of (y : yaml) : option string := match y with YScalar (Str s) => Some s | _ => None end.
Definition number_of (y : yaml) : option number := match y with YScalar (Num n) => Some n | _ => None end.
Definition real_of (y : yaml) : option R := option_map num (number_of y).
Definition bool_of (y : yaml) : option bool := match y with YScalar (Bool b) => Some b | _ => None end.
Definition list_of {A} (f : yaml -> option A) (y : yaml) : option (list A) := match y with YSeq l => map_opt f l | _ => None end.
(** An entry that may be missing *)
Definition entry {A} (f : yaml -> option A) (k : string) (d : dict yaml) : option (option A) :=
  match get k d with None => Some None | Some y => option_map Some (f y) end.
(** An entry that must be there *)
Definition needed {A} (f : yaml -> option A) (k : string) (d : dict yaml) : option A :=
  match get k d with None => None | Some y => f y end.
Definition mapping {A} (f : dict yaml -> option A) (y : yaml) : option A := match y with YMap d => f d | _ => None end.

(** parse.py 91-112; the schema demands a refractive index *)
Definition material_of : yaml -> option material_spec := mapping (fun d =>
  match needed real_of "refractive-index" d, entry (list_of text_of) "components" d with
  | Some n, Some c => Some (MatSpec n c)
  | _, _ => None
  end).
(** parse.py 114-138 *)
Definition shape_of (kind : string) (d : dict yaml) : option shape_spec :=
  if String.eqb kind "box" then option_map SBox (needed (list_of real_of) "size" d)
  else if String.eqb kind "cylinder" then
    match needed real_of "length" d, needed real_of "radius" d with Some l, Some r => Some (SCylinder l r) | _, _ => None end
  else if String.eqb kind "sphere" then option_map SSphere (needed real_of "radius" d)
  else option_map SMesh (needed text_of "file" d).
Definition geometry_of (kind : string) : yaml -> option body := mapping (fun d =>
  match shape_of kind d, needed material_of "material" d with Some s, Some m => Some (Geometry s m) | _, _ => None end).

Section Loading.
(** Parts of the document that no field of the inspector names, however they are read: spectra
    (files and data modules), the recorders section, and the masks for positions and wavelengths *)
Variable load : string -> yaml -> loaded.
Variable recorders_of : yaml -> option (dict recorder_spec).
Variable position_mask_of : yaml -> option (or_point position_mask).
Variable wavelength_mask_of : yaml -> option (or_number wavelength_mask).
(** float() of a text *)
Variable float_of : string -> option R.

(** parse.py 152-175.  The schema asks for exactly one of the keys. *)
Definition half_angle_of (y : yaml) : option (option R) :=
  match y with YScalar (Num n) => Some (Some (num n)) | YScalar (Str s) => Some (float_of s) | _ => None end.
Definition direction_mask_of (y : yaml) : option (or_point direction_mask) :=
  match y with
  | YSeq l => option_map PointLike (map_opt real_of l)
  | YMap d =>
      if has "isotropic" d then Some (Mask MIsotropic)
      else if has "lambertian" d then Some (Mask MLambertian)
      else match get "cone" d with
           | Some c => option_map (fun a => Mask (MCone a)) (mapping (needed half_angle_of "half-angle") c)
           | None => option_map (fun g => Mask (MHenyeyGreenstein g)) (needed (mapping (needed real_of "g")) "henyey-greenstein" d)
           end
  | _ => None
  end.
(** parse.py 189-211 *)
Definition light_of : yaml -> option light_spec := mapping (fun d =>
  match entry real_of "wavelength" d, entry (mapping (fun m =>
    match entry wavelength_mask_of "wavelength" m, entry position_mask_of "position" m, entry direction_mask_of "direction" m with
    | Some w, Some p, Some q => Some (w, p, q)
    | _, _, _ => None
    end)) "mask" d with
  | Some w, Some None => Some (LightSpec w None None None)
  | Some w, Some (Some (mw, mp, md)) => Some (LightSpec w mw mp md)
  | _, _ => None
  end).
Definition light_body (s : light_spec) : body := LightBody (match parse_light s 0 with Some _ => true | None => false end).

(** parse.py 396-416: the first of the kinds *)
Definition body_of (d : dict yaml) : option body :=
  match get "box" d, get "cylinder" d, get "sphere" d, get "mesh" d, get "light" d with
  | Some y, _, _, _, _ => geometry_of "box" y
  | _, Some y, _, _, _ => geometry_of "cylinder" y
  | _, _, Some y, _, _ => geometry_of "sphere" y
  | _, _, _, Some y, _ => geometry_of "mesh" y
  | _, _, _, _, Some y => option_map light_body (light_of y)
  | _, _, _, _, _ => None
  end.
(** parse.py 426-436, 461-462; null is allowed for the parent *)
Definition parent_entry (d : dict yaml) : option (option string) :=
  match get "parent" d with Some (YScalar Null) => Some None | _ => entry text_of "parent" d end.
Definition node_of : yaml -> option node_spec := mapping (fun d =>
  match body_of d, parent_entry d, entry (list_of real_of) "location" d, entry (list_of real_of) "direction" d, entry bool_of "record" d with
  | Some b, Some p, Some l, Some q, Some r => Some (NodeSpec b p l q (match r with Some b => b | None => false end))
  | _, _, _, _, _ => None
  end).

(** parse.py 245-394 *)
Definition hist_of (d : dict yaml) : option bool := option_map (fun r => match r with Some b => b | None => false end) (entry bool_of "hist" d).
Definition spectrum_of (kind : string) : dict yaml -> option (option loaded) := entry (fun y => Some (load kind y)) "spectrum".
Definition absorber_of : yaml -> option absorber_spec := mapping (fun d =>
  match entry number_of "coefficient" d, hist_of d, spectrum_of "absorption" d with
  | Some c, Some h, Some s => Some (AbsSpec c h s)
  | _, _, _ => None
  end).
Definition scatterer_of : yaml -> option scatterer_spec := mapping (fun d =>
  match entry number_of "coefficient" d, hist_of d, spectrum_of "absorption" d, entry real_of "quantum-yield" d with
  | Some c, Some h, Some s, Some q => Some (ScaSpec c h s q)
  | _, _, _, _ => None
  end).
Definition luminophore_of : yaml -> option luminophore_spec := mapping (fun d =>
  match hist_of d,
        entry (mapping (fun a => match entry number_of "coefficient" a, spectrum_of "absorption" a with Some c, Some s => Some (c, s) | _, _ => None end)) "absorption" d,
        entry (mapping (fun e => match entry real_of "quantum-yield" e, spectrum_of "emission" e with Some q, Some s => Some (q, s) | _, _ => None end)) "emission" d with
  | Some h, Some a, Some e => Some (LumSpec h a e)
  | _, _, _ => None
  end).
Definition component_of : yaml -> option component_spec := mapping (fun d =>
  match get "absorber" d, get "scatterer" d, get "luminophore" d with
  | Some y, _, _ => option_map CAbsorber (absorber_of y)
  | _, Some y, _ => option_map CScatterer (scatterer_of y)
  | _, _, Some y => option_map CLuminophore (luminophore_of y)
  | _, _, _ => None
  end).

(** parse.py 418-436, 459-466 *)
Definition entries {A} (f : yaml -> option A) : yaml -> option (dict A) :=
  mapping (map_opt (fun ky => option_map (pair (fst ky)) (f (snd ky)))).
Definition document_of : yaml -> option document := mapping (fun d =>
  match entry (entries component_of) "components" d, needed (entries node_of) "nodes" d, entry recorders_of "recorders" d with
  | Some c, Some n, Some r => Some (Doc c n r)
  | _, _, _ => None
  end).
End Loading.

(** ** The page *)
(** spec(): the document as data.  (spec().nodes || {})[name] || {} *)
Definition child (k : string) (y : yaml) : yaml :=
  match y with YMap d => match get k d with Some t => t | None => YMap [] end | _ => YMap [] end.
Definition present (k : string) (y : yaml) : bool := match y with YMap d => has k d | _ => false end.
(** 664-669 geometryKey: mappings are true *)
Definition geometry_key (node : yaml) : option string := find (fun k => present k node) ["box"; "sphere"; "cylinder"; "mesh"].

(** The fields of a node's form (buildNodeFields 671-766) with the values they send *)
Inductive node_edit :=
| EParent (p : string) | ELocation (l : list number) | EDirection (l : list number)
| ESize (l : list number) | ELength (x : number) | ERadius (x : number) | EIndex (x : number)
| EDetach (component : string) | EAttach (component : string) | ERecord (b : bool)
| EWavelength (x : number) | ECone (x : number).
(** material.components || [] *)
Definition strings_in (y : yaml) : list string := match list_of text_of y with Some l => l | None => [] end.
Definition attached (node : yaml) (g : string) : list string := strings_in (child "components" (child "material" (child g node))).
(** lightSpec.mask?.direction?.cone *)
Definition cone_in (node : yaml) : yaml := child "half-angle" (child "cone" (child "direction" (child "mask" (child "light" node)))).
Definition numeric (y : yaml) : bool := match number_of y with Some _ => true | None => false end.
(** The request a field makes, when the form has the field *)
Definition node_request (doc : yaml) (name : string) (e : node_edit) : option (list string * sent) :=
  let node := child name (child "nodes" doc) in
  let path l := "nodes" :: name :: l in
  let numbers l := Many (map Num l) in
  let world := String.eqb name "world" in
  match e with
  | EParent p => if world then None else Some (path ["parent"], One (Str p))
  | ELocation l => if world then None else Some (path ["location"], numbers l)
  | EDirection l => if world then None else if present "direction" node then Some (path ["direction"], numbers l) else None
  | ERecord b => match geometry_key node with Some _ => if world then None else Some (path ["record"], One (Bool b)) | None => None end
  | ESize l => match geometry_key node with Some "box" => Some (path ["box"; "size"], numbers l) | _ => None end
  | ELength x => match geometry_key node with Some "cylinder" => Some (path ["cylinder"; "length"], One (Num x)) | _ => None end
  | ERadius x => match geometry_key node with
                 | Some "sphere" => Some (path ["sphere"; "radius"], One (Num x))
                 | Some "cylinder" => Some (path ["cylinder"; "radius"], One (Num x))
                 | _ => None
                 end
  | EIndex x => match geometry_key node with Some g => Some (path [g; "material"; "refractive-index"], One (Num x)) | None => None end
  | EDetach c => match geometry_key node with
                 | Some g => if mem_str c (attached node g)
                             then Some (path [g; "material"; "components"], Many (map Str (filter (fun k => negb (String.eqb k c)) (attached node g))))
                             else None
                 | None => None
                 end
  | EAttach c => match geometry_key node with
                 | Some g => if present c (child "components" doc) && negb (mem_str c (attached node g))
                             then Some (path [g; "material"; "components"], Many (map Str (attached node g ++ [c])%list))
                             else None
                 | None => None
                 end
  | EWavelength x => if present "light" node then Some (path ["light"; "wavelength"], One (Num x)) else None
  | ECone x => if present "light" node && numeric (cone_in node)
               then Some (path ["light"; "mask"; "direction"; "cone"; "half-angle"], One (Num x))
               else None
  end.

(** What the fields show before they are edited: parent 678, location 680, index 705, wavelength
    745, record 738 *)
Definition shown_parent (node : yaml) : string :=
  match text_of (child "parent" node) with Some "" | None => "world" | Some p => p end.
Definition shown_location (node : yaml) : list R :=
  match list_of real_of (child "location" node) with Some l => l | None => [0; 0; 0]%R end.
Definition shown_index (node : yaml) (g : string) : R :=
  match real_of (child "refractive-index" (child "material" (child g node))) with Some n => n | None => 1%R end.
Definition shown_wavelength (node : yaml) : R :=
  match real_of (child "wavelength" (child "light" node)) with Some x => x | None => 555%R end.
Definition shown_record (node : yaml) : bool := match bool_of (child "record" node) with Some b => b | None => false end.

(** The fields of a component's form (buildComponentFields 768-796) *)
Inductive component_edit := ECoefficient (x : number) | EAbsorption (x : number) | EYield (x : number).
(** Object.keys(componentSpec)[0] *)
Definition first_key (y : yaml) : option string := match y with YMap ((k, _) :: _) => Some k | _ => None end.
Definition component_request (doc : yaml) (name : string) (e : component_edit) : option (list string * sent) :=
  let c := child name (child "components" doc) in
  match first_key c with
  | None => None
  | Some type =>
      let body := child type c in
      match e with
      | ECoefficient x => if numeric (child "coefficient" body) then Some (["components"; name; type; "coefficient"], One (Num x)) else None
      | EAbsorption x =>
          if String.eqb type "luminophore" && numeric (child "coefficient" (child "absorption" body))
          then Some (["components"; name; "luminophore"; "absorption"; "coefficient"], One (Num x)) else None
      | EYield x =>
          if String.eqb type "luminophore" && numeric (child "quantum-yield" (child "emission" body))
          then Some (["components"; name; "luminophore"; "emission"; "quantum-yield"], One (Num x)) else None
      end
  end.
