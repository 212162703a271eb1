(** Model of scene documents: pvtrace/cli/parse.py (what a document means), the parenting of
    anytree nodes it relies on, and the edits of pvtrace/studio/server.py.

    The document is modelled after YAML loading: an abstract syntax tree that the JSON schema
    accepts.  A Python dict is an association list in insertion order with distinct keys.
    Exceptions are [None]. *)
From Coq Require Import Reals ZArith List Bool Arith String Ascii DecimalString Decimal.
From Verif Require Import Base Vec Interp DistModel MaterialModel KernelModel TallyModel.
Import ListNotations.
Open Scope list_scope.
Open Scope nat_scope.
Open Scope string_scope.

(** ** Dicts *)
Definition dict (A : Type) := list (string * A).
Fixpoint get {A} (k : string) (d : dict A) : option A :=
  match d with
  | [] => None
  | (k', v) :: rest => if String.eqb k' k then Some v else get k rest
  end.
Definition has {A} (k : string) (d : dict A) : bool := match get k d with Some _ => true | None => false end.
(** d[k] = v *)
Fixpoint put {A} (k : string) (v : A) (d : dict A) : dict A :=
  match d with
  | [] => [(k, v)]
  | (k', v') :: rest => if String.eqb k' k then (k', v) :: rest else (k', v') :: put k v rest
  end.
Definition keys {A} (d : dict A) : list string := map fst d.
(** d.setdefault(k, v) *)
Definition set_default {A} (k : string) (v : A) (d : dict A) : dict A := if has k d then d else (d ++ [(k, v)])%list.
(** del d[k] *)
Definition remove_key {A} (k : string) (d : dict A) : dict A := filter (fun kv => negb (String.eqb (fst kv) k)) d.
Definition mem_str (k : string) (l : list string) : bool := existsb (String.eqb k) l.

Fixpoint map_opt {A B} (f : A -> option B) (l : list A) : option (list B) :=
  match l with
  | [] => Some []
  | x :: rest => match f x, map_opt f rest with Some y, Some ys => Some (y :: ys) | _, _ => None end
  end.

(** ** Components *)
(** A YAML number: "1" is a Python int, "1.0" a float. *)
Inductive number := Int (z : Z) | Float (x : R).
Definition num (n : number) : R := match n with Int z => IZR z | Float x => x end.
Definition truthy (n : number) : bool := negb (Reqb (num n) 0).

(** The ndarray returned by parse_spectrum 84-89: rows (wavelength, value).  [a_int]: both columns
    of the CSV file are integers, so that pandas' values has an integer dtype. *)
Record array := Arr { a_int : bool; a_rows : list (R * R) }.
(** Loading a spectrum (files and data modules are not modelled) gives an array or raises. *)
Definition loaded := option array.

(** bool(ndarray): ValueError for more than one element; False for none.  Rows have two
    elements. *)
Definition array_truth (a : array) : option bool := match a_rows a with [] => Some false | _ => None end.

(** 259-261: spectrum[:, 1] = spectrum[:, 1] / numpy.max(spectrum[:, 1]) * coefficient.  Assigning
    to an integer array truncates.  numpy.max of nothing raises; a maximum of 0 gives nan, on
    which Distribution raises. *)
Definition array_max (a : array) : option R :=
  match map snd (a_rows a) with [] => None | y :: ys => Some (np_max y ys) end.
Definition scale_array (a : array) (c : R) : option array :=
  match array_max a with
  | None => None
  | Some m =>
      if Reqb m 0 then None
      else Some (Arr (a_int a) (map (fun '(x, y) => let v := (y / m * c)%R in (x, if a_int a then IZR (trunc v) else v)) (a_rows a)))
  end.

(** What a component constructor leaves behind in _abs_dist (component.py 104-119). *)
Inductive built :=
| BuiltConst (y : R)
| BuiltTable (hist : bool) (xs ys : list R)
| NoDistribution.   (** an int matches no branch: the attribute _abs_dist is missing *)

(** Distribution(x=a[:, 0], y=a[:, 1], hist=hist): whether the constructor returns *)
Definition dist_ok (hist : bool) (a : array) : bool :=
  match mk_dist (map fst (a_rows a)) (map snd (a_rows a)) hist with MkOk _ | MkNanCdf => true | _ => false end.
Definition build_array (hist : bool) (a : array) : option built :=
  if dist_ok hist a then Some (BuiltTable hist (map fst (a_rows a)) (map snd (a_rows a))) else None.
Definition build_number (n : number) : built := match n with Int _ => NoDistribution | Float x => BuiltConst x end.

(** The common tail of the three parse functions (259-267, 292-318, 348-385) *)
Definition build (coefficient : option number) (hist : bool) (spectrum : option array) : option built :=
  let by_spectrum :=
    match spectrum with
    | None => Some false
    | Some a => array_truth a
    end in
  let rest :=
    match by_spectrum with
    | None => None
    | Some true => match spectrum with Some a => build_array hist a | None => None end
    | Some false => match coefficient with
                    | Some c => if truthy c then Some (build_number c) else None
                    | None => None
                    end
    end in
  match coefficient, spectrum with
  | Some c, Some a => if truthy c then match scale_array a (num c) with Some a' => build_array hist a' | None => None end else rest
  | _, _ => rest
  end.

(** Specifications; the phase function is left out *)
Record absorber_spec := AbsSpec { as_coefficient : option number; as_hist : bool; as_spectrum : option loaded }.
Record scatterer_spec := ScaSpec { ss_coefficient : option number; ss_hist : bool; ss_spectrum : option loaded; ss_qy : option R }.
Record luminophore_spec := LumSpec {
  ls_hist : bool; ls_absorption : option (option number * option loaded); ls_emission : option (option R * option loaded) }.

(** A component as far as the document determines it *)
Record parsed_component := PComp { pc_kind : ckind; pc_abs : built; pc_qy : R; pc_ems : option array }.

(** 245-267 parse_absorber *)
Definition parse_absorber (s : absorber_spec) : option parsed_component :=
  match as_spectrum s with
  | Some None => None
  | _ =>
      let spectrum := match as_spectrum s with Some a => a | None => None end in
      match build (as_coefficient s) (as_hist s) spectrum with
      | Some b => Some (PComp Absorber b 0 None)
      | None => None
      end
  end.
(** 272-318 parse_scatterer: spec["spectrum"] raises KeyError when it is missing *)
Definition parse_scatterer (s : scatterer_spec) : option parsed_component :=
  let qy := match ss_qy s with Some q => q | None => 1%R end in
  match ss_spectrum s with
  | Some (Some a) =>
      match build (ss_coefficient s) (ss_hist s) (Some a) with
      | Some b => Some (PComp Scatterer b qy None)
      | None => None
      end
  | _ => None
  end.
(** 320-385 parse_luminophore *)
Definition parse_luminophore (s : luminophore_spec) : option parsed_component :=
  match ls_absorption s, ls_emission s with
  | Some (coefficient, Some (Some a)), Some (q, Some (Some e)) =>
      let qy := match q with Some q => q | None => 1%R end in
      match build coefficient (ls_hist s) (Some a) with
      | Some b => if dist_ok (ls_hist s) e then Some (PComp Luminophore b qy (Some e)) else None
      | None => None
      end
  | _, _ => None
  end.

Inductive component_spec :=
| CAbsorber (s : absorber_spec)
| CScatterer (s : scatterer_spec)
| CLuminophore (s : luminophore_spec).
(** 387-394 *)
Definition parse_component (c : component_spec) : option parsed_component :=
  match c with
  | CAbsorber s => parse_absorber s
  | CScatterer s => parse_scatterer s
  | CLuminophore s => parse_luminophore s
  end.

(** What the JSON schema allows (definitions absorber, scatterer, luminophore): coefficients are
    not negative, yields in [0, 1], absorber and scatterer have a coefficient or a spectrum. *)
Definition coefficient_ok (c : option number) : Prop := match c with Some n => (0 <= num n)%R | None => True end.
Definition qy_ok (q : option R) : Prop := match q with Some q => (0 <= q <= 1)%R | None => True end.
Definition schema_component (c : component_spec) : Prop :=
  match c with
  | CAbsorber s => coefficient_ok (as_coefficient s) /\ (as_coefficient s <> None \/ as_spectrum s <> None)
  | CScatterer s => coefficient_ok (ss_coefficient s) /\ qy_ok (ss_qy s) /\ (ss_coefficient s <> None \/ ss_spectrum s <> None)
  | CLuminophore s =>
      match ls_absorption s with Some (c, _) => coefficient_ok c | None => True end /\
      match ls_emission s with Some (q, _) => qy_ok q | None => True end
  end.

(** ** Nodes *)
Record material_spec := MatSpec { ms_index : R; ms_components : option (list string) }.
Inductive shape_spec := SBox (size : list R) | SCylinder (length radius : R) | SSphere (radius : R) | SMesh (file : string).
(** A node has a geometry with a material, or a light (schema: exactly one of the keys).
    [light_ok]: parse_light returns. *)
Inductive body := Geometry (s : shape_spec) (m : material_spec) | LightBody (light_ok : bool).
Record node_spec := NodeSpec {
  ns_body : body; ns_parent : option string; ns_location : option (list R); ns_direction : option (list R); ns_record : bool }.

(** 91-112 parse_material: the components, or ValueError *)
Definition parse_material (m : material_spec) (component_map : dict parsed_component) : option (list parsed_component) :=
  let component_keys := match ms_components m with Some l => l | None => [] end in
  if forallb (fun k => has k component_map) component_keys
  then map_opt (fun k => get k component_map) component_keys
  else None.
(** 396-416 parse_node: the material's components (nothing for a light).  The constructors of the
    geometries do not fail in the model. *)
Definition parse_node (s : node_spec) (component_map : dict parsed_component) : option (option (list parsed_component)) :=
  match ns_body s with
  | Geometry _ m => match parse_material m component_map with Some l => Some (Some l) | None => None end
  | LightBody ok => if ok then Some None else None
  end.

(** ** Parents *)
(** State of the tree under construction: the parent of every node.  A Node is created without
    a parent. *)
Definition forest := dict (option string).
(** anytree NodeMixin.iter_path_reverse: the node, its parent, ...  [fuel] is the number of
    nodes: a chain without repetition is not longer. *)
Fixpoint path_up (fuel : nat) (f : forest) (k : string) : list string :=
  k :: match fuel with
       | O => []
       | S fuel => match get k f with Some (Some p) => path_up fuel f p | _ => [] end
       end.
(** anytree NodeMixin.parent setter: None = LoopError *)
Definition set_parent (f : forest) (k : string) (value : option string) : option forest :=
  match value with
  | None => Some (put k None f)
  | Some p =>
      match get k f with
      | Some (Some p') => if String.eqb p' p then Some f
                          else if String.eqb p k then None
                          else if mem_str k (path_up (List.length f) f p) then None else Some (put k (Some p) f)
      | _ => if String.eqb p k then None
             else if mem_str k (path_up (List.length f) f p) then None else Some (put k (Some p) f)
      end
  end.
(** 440-449: the parent assigned to node [k] with declared parent [parent]; None = KeyError *)
Definition parent_of (names : list string) (k : string) (parent : option string) : option (option string) :=
  if String.eqb k "world" then Some None
  else match parent with
       | None => if mem_str "world" names then Some (Some "world") else None
       | Some p => if mem_str p names then Some (Some p) else None
       end.
Fixpoint assign_parents (names : list string) (todo : dict (option string)) (f : forest) : option forest :=
  match todo with
  | [] => Some f
  | (k, declared) :: rest =>
      match parent_of names k declared with
      | None => None
      | Some v => match set_parent f k v with None => None | Some f => assign_parents names rest f end
      end
  end.
Definition make_tree (declared : dict (option string)) : option forest :=
  assign_parents (keys declared) declared (map (fun kv => (fst kv, None)) declared).

(** ** Recorders *)
(** recorder.py 34-42 *)
Definition prop_name (p : prop) : string :=
  match p with
  | PWavelength => "wavelength" | PAngle => "angle" | PDuration => "duration" | PPathlength => "pathlength"
  | PX => "x" | PY => "y" | PZ => "z"
  end.
Definition prop_of_name (s : string) : option prop :=
  find (fun p => String.eqb (prop_name p) s) [PWavelength; PAngle; PDuration; PPathlength; PX; PY; PZ].

(** histograms: {prop: [start, stop, bins]} or {position: [a, b, [..], [..]]}; [HMalformed] is a
    list of the wrong length (unpacking raises). *)
Definition range := (R * R * Z)%type.
Inductive hist_spec := HProp (prop_a : string) (r : range) | HPosition (prop_a prop_b : string) (ra rb : range) | HMalformed.
Record recorder_spec := RecSpec {
  rs_node : string; rs_event : selector; rs_facet : option (list R); rs_atol : option R; rs_hists : list hist_spec }.

(** recorder.py 60-69 Histogram.__init__ *)
Definition mk_histogram (prop_a : string) (r : range) : option histogram :=
  let '(start, stop, bins) := r in
  match prop_of_name prop_a with
  | None => None
  | Some p => if negb (Rltb start stop) then None else if (bins <? 1)%Z then None else Some (Histogram p start stop (Z.to_nat bins))
  end.
(** parse.py 537-544, recorder.py 77-79 *)
Definition mk_hist (h : hist_spec) : option hspec :=
  match h with
  | HProp p r => match mk_histogram p r with Some x => Some (H1 x) | None => None end
  | HPosition p q ra rb =>
      match mk_histogram p ra, mk_histogram q rb with Some a, Some b => Some (H2 a b) | _, _ => None end
  | HMalformed => None
  end.
(** A Recorder object with its name as a string *)
Record made_recorder := MadeRec { mr_name : string; mr_event : selector; mr_facet : option (list R); mr_atol : R; mr_hists : list hspec }.
(** 528-551 parse_recorders, one entry: node and recorder; None = ValueError *)
Definition parse_recorder (names : list string) (name : string) (s : recorder_spec) : option (string * made_recorder) :=
  if mem_str (rs_node s) names then
    match map_opt mk_hist (rs_hists s) with
    | Some hs => Some (rs_node s, MadeRec name (rs_event s) (rs_facet s) (match rs_atol s with Some a => a | None => / 10 ^ 6 end)%R hs)
    | None => None
    end
  else None.

(** 479-480 *)
Definition auto_wavelength : hist_spec := HProp "wavelength" (300, 1000, 100%Z)%R.
Definition auto_angle : hist_spec := HProp "angle" (0, 15708 / 10000, 18%Z)%R.
(** 490-494; the facets are lists of ints *)
Definition faces : list (string * list R) :=
  [("top", [0; 0; 1]%R); ("bottom", [0; 0; -1]%R); ("east", [1; 0; 0]%R); ("west", [-1; 0; 0]%R);
   ("north", [0; 1; 0]%R); ("south", [0; -1; 0]%R)].
(** 496-497: the first non-zero entry, and the other two axes *)
Definition face_axis (facet : list R) : nat :=
  match facet with
  | [x; y; z] => if Reqb x 0 then if Reqb y 0 then 2 else 1 else 0
  | _ => 0
  end.
Definition other_axes (axis : nat) : nat * nat := match axis with 0 => (1, 2) | 1 => (0, 2) | _ => (0, 1) end.
Definition axis_name (i : nat) : string := match i with 0 => "x" | 1 => "y" | _ => "z" end.
(** 498-499 *)
Definition auto_bins (s : R) : Z := Z.max 10 (Z.min 60 (trunc (s * 10)%R)).
Definition face_position (size : list R) (facet : list R) : option hist_spec :=
  let '(u, v) := other_axes (face_axis facet) in
  match nth_error size u, nth_error size v with
  | Some su, Some sv => Some (HPosition (axis_name u) (axis_name v) (- (su / 2), su / 2, auto_bins su)%R (- (sv / 2), sv / 2, auto_bins sv)%R)
  | _, _ => None
  end.
Definition recorder_name (node label : string) : string := node ++ "-" ++ label.
(** 469-525 auto_recorders; None = IndexError (a box whose size has fewer than three entries) *)
Definition auto_recorders (node : string) (b : body) : option (dict recorder_spec) :=
  let lost := (recorder_name node "lost", RecSpec node Lost None None [auto_wavelength]) in
  match b with
  | Geometry (SBox size) _ =>
      match map_opt (fun '(label, facet) =>
              match face_position size facet with
              | Some p => Some (recorder_name node label, RecSpec node Escaping (Some facet) None [auto_wavelength; auto_angle; p])
              | None => None
              end) faces with
      | Some l => Some (lost :: l)
      | None => None
      end
  | _ => Some [lost; (recorder_name node "escaping", RecSpec node Escaping None None [auto_wavelength; auto_angle])]
  end.

(** ** Documents *)
Record document := Doc {
  d_components : option (dict component_spec);
  d_nodes : dict node_spec;
  d_recorders : option (dict recorder_spec) }.
Definition doc_components (d : document) : dict component_spec := match d_components d with Some c => c | None => [] end.
Definition doc_recorders (d : document) : dict recorder_spec := match d_recorders d with Some c => c | None => [] end.
(** Python dicts have distinct keys *)
Definition wf_doc (d : document) : Prop :=
  NoDup (keys (doc_components d)) /\ NoDup (keys (d_nodes d)) /\ NoDup (keys (doc_recorders d)).

(** The scene: nodes with the components of their material, parents, recorders with their node *)
Record parsed_scene := PScene {
  ps_nodes : dict (option (list parsed_component)); ps_parents : forest; ps_recorders : list (string * made_recorder) }.

(** 459-463: explicit recorders, then the automatic ones of every node with record: true *)
Definition add_auto (acc : option (dict recorder_spec)) (kv : string * node_spec) : option (dict recorder_spec) :=
  match acc with
  | None => None
  | Some d =>
      if ns_record (snd kv) then
        match auto_recorders (fst kv) (ns_body (snd kv)) with
        | None => None
        | Some l => Some (fold_left (fun d nr => set_default (fst nr) (snd nr) d) l d)
        end
      else Some d
  end.
Definition all_recorders (d : document) : option (dict recorder_spec) := fold_left add_auto (d_nodes d) (Some (doc_recorders d)).

Definition parse_components (d : document) : option (dict parsed_component) :=
  map_opt (fun '(k, c) => match parse_component c with Some p => Some (k, p) | None => None end) (doc_components d).
(** 72-80 and 418-466.  The schema requires the node "world".  Locations and directions (450-457)
    are left out. *)
Definition parse_document (d : document) : option parsed_scene :=
  if negb (has "world" (d_nodes d)) then None
  else
  match parse_components d with
  | None => None
  | Some component_map =>
  match map_opt (fun '(k, s) => match parse_node s component_map with Some m => Some (k, m) | None => None end) (d_nodes d) with
  | None => None
  | Some nodes =>
  match make_tree (map (fun '(k, s) => (k, ns_parent s)) (d_nodes d)) with
  | None => None
  | Some parents =>
  match all_recorders d with
  | None => None
  | Some specs =>
  match map_opt (fun '(name, s) => parse_recorder (keys (d_nodes d)) name s) specs with
  | None => None
  | Some recorders => Some (PScene nodes parents recorders)
  end end end end end.

(** compiler.py 135-155 _compile_recorders: the recorders that the engine tallies, those on nodes
    with a geometry.  None = UnsupportedSceneError.  The compiler walks the tree in preorder; here
    the order is that of the recorders section. *)
Definition max_recorders : nat := 256.
Definition volume_event (e : selector) : bool := match e with Lost | Reacted | Killed => true | _ => false end.
Definition has_geometry (s : parsed_scene) (k : string) : bool := match get k (ps_nodes s) with Some (Some _) => true | _ => false end.
Fixpoint distinct (l : list string) : bool :=
  match l with [] => true | x :: rest => negb (mem_str x rest) && distinct rest end.
Definition compile_recorders (s : parsed_scene) : option (list (string * made_recorder)) :=
  let l := filter (fun nr => has_geometry s (fst nr)) (ps_recorders s) in
  if existsb (fun nr => volume_event (mr_event (snd nr)) && match mr_facet (snd nr) with Some _ => true | None => false end) l then None
  else if Nat.ltb max_recorders (List.length l) then None
  else if negb (distinct (map (fun nr => mr_name (snd nr)) l)) then None
  else Some l.

(** ** Studio *)
(** server.py 312-316 _unique_name.  Among length existing + 1 candidates one is free, so the
    loop ends within that many steps. *)
Definition decimal (n : nat) : string := NilEmpty.string_of_uint (Nat.to_uint n).
Definition candidate (stem : string) (index : nat) : string := stem ++ "-" ++ decimal index.
Fixpoint unique_from (fuel : nat) (existing : list string) (stem : string) (index : nat) : option string :=
  match fuel with
  | O => None
  | S fuel => if mem_str (candidate stem index) existing then unique_from fuel existing stem (S index) else Some (candidate stem index)
  end.
Definition unique_name (existing : list string) (stem : string) : option string :=
  unique_from (S (List.length existing)) existing stem 1.

(** server.py 271-301 SNIPPETS *)
Inductive snippet := SnBox | SnSphere | SnCylinder | SnLight.
Definition snippet_name (s : snippet) : string :=
  match s with SnBox => "box" | SnSphere => "sphere" | SnCylinder => "cylinder" | SnLight => "light" end.
Definition glass_spec : material_spec := MatSpec (15 / 10) None.
Definition snippet_node (s : snippet) : node_spec :=
  match s with
  | SnBox => NodeSpec (Geometry (SBox [1; 1; 1]%R) glass_spec) None (Some [0; 0; 0]%R) None false
  | SnSphere => NodeSpec (Geometry (SSphere (1 / 2)) glass_spec) None (Some [0; 0; 0]%R) None false
  | SnCylinder => NodeSpec (Geometry (SCylinder 1 (1 / 2)) glass_spec) None (Some [0; 0; 0]%R) None false
  | SnLight => NodeSpec (LightBody true) None (Some [0; 0; 2]%R) (Some [0; 0; -1]%R) false
  end.

(** The structured edits of _patch 330-471.  A null recorders or components section counts as
    missing.  "set" and "move" replace something at a path: here
    an arbitrary function. *)
Inductive edit :=
| SetOrMove (f : option parsed_scene -> document -> option document)
| AddNode (s : snippet)
| AddRecorder (node : string)
| AddFaceRecorders (node : string)
| AddComponent
| UpdateRecorder (name : string) (event : option selector) (facet : option (option (list R))) (atol : option R)
| DeleteComponent (name : string)
| DeleteRecorder (name : string)
| DeleteNode (name : string).

(** 417-423: names of the material that differ from [name] *)
Definition drop_component (name : string) (s : node_spec) : node_spec :=
  match ns_body s with
  | Geometry sh m =>
      if mem_str name (match ms_components m with Some l => l | None => [] end) then
        NodeSpec (Geometry sh (MatSpec (ms_index m) (option_map (filter (fun c => negb (String.eqb c name))) (ms_components m))))
                 (ns_parent s) (ns_location s) (ns_direction s) (ns_record s)
      else s
  | LightBody _ => s
  end.
(** 474-498 _recorder_to_spec: a live recorder written back as a specification (without atol).
    The histograms of a recorder have different keys, so none replaces another. *)
Definition hist_to_spec (h : hspec) : hist_spec :=
  let r x := (h_start x, h_stop x, Z.of_nat (h_bins x)) in
  match h with
  | H1 x => HProp (prop_name (h_prop x)) (r x)
  | H2 a b => HPosition (prop_name (h_prop a)) (prop_name (h_prop b)) (r a) (r b)
  end.
Definition recorder_to_spec (scene : option parsed_scene) (name : string) : option recorder_spec :=
  match scene with
  | None => None
  | Some s =>
      match find (fun nr => String.eqb (mr_name (snd nr)) name) (ps_recorders s) with
      | Some (node, r) => Some (RecSpec node (mr_event r) (mr_facet r) None (map hist_to_spec (mr_hists r)))
      | None => None
      end
  end.
(** 436-439; keys other than event, facet and atol raise *)
Definition update_recorder (r : recorder_spec) (event : option selector) (facet : option (option (list R))) (atol : option R) : recorder_spec :=
  RecSpec (rs_node r) (match event with Some e => e | None => rs_event r end)
          (match facet with Some f => f | None => rs_facet r end)
          (match atol with Some a => Some a | None => rs_atol r end) (rs_hists r).
Definition apply_edit (scene : option parsed_scene) (e : edit) (d : document) : option document :=
  match e with
  | SetOrMove f => f scene d
  | AddNode s =>
      match unique_name (keys (d_nodes d)) (snippet_name s) with
      | Some name => Some (Doc (d_components d) (put name (snippet_node s) (d_nodes d)) (d_recorders d))
      | None => None
      end
  | AddRecorder node =>
      if has node (d_nodes d) then
        match unique_name (keys (doc_recorders d)) (node ++ "-escaping") with
        | Some name => Some (Doc (d_components d) (d_nodes d)
                               (Some (put name (RecSpec node Escaping None None [HProp "wavelength" (400, 900, 80%Z)%R]) (doc_recorders d))))
        | None => None
        end
      else None
  | AddFaceRecorders node =>
      match get node (d_nodes d) with
      | Some (NodeSpec (Geometry (SBox size) _) _ _ _ _) =>
          match map_opt (fun '(label, facet) =>
                  match face_position size facet with
                  | Some p => Some (recorder_name node label, RecSpec node Escaping (Some facet) None [p])
                  | None => None
                  end) faces with
          | Some l => Some (Doc (d_components d) (d_nodes d) (Some (fold_left (fun r ns => set_default (fst ns) (snd ns) r) l (doc_recorders d))))
          | None => None
          end
      | _ => None
      end
  | AddComponent =>
      match unique_name (keys (doc_components d)) "absorber" with
      | Some name => Some (Doc (Some (put name (CAbsorber (AbsSpec (Some (Float 1)) false None)) (doc_components d))) (d_nodes d) (d_recorders d))
      | None => None
      end
  | UpdateRecorder name event facet atol =>
      match (match get name (doc_recorders d) with Some r => Some r | None => recorder_to_spec scene name end) with
      | Some r => Some (Doc (d_components d) (d_nodes d) (Some (put name (update_recorder r event facet atol) (doc_recorders d))))
      | None => None
      end
  | DeleteComponent name =>
      if has name (doc_components d)
      then Some (Doc (Some (remove_key name (doc_components d))) (map (fun '(k, s) => (k, drop_component name s)) (d_nodes d)) (d_recorders d))
      else None
  | DeleteRecorder name =>
      if has name (doc_recorders d)
      then Some (Doc (d_components d) (d_nodes d) (Some (remove_key name (doc_recorders d))))
      else None
  | DeleteNode name =>
      if has name (d_nodes d)
      then Some (Doc (d_components d) (remove_key name (d_nodes d))
                     (match d_recorders d with
                      | Some r => Some (filter (fun nr => negb (String.eqb (rs_node (snd nr)) name)) r)
                      | None => None
                      end))
      else None
  end.

(** server.py 45-74 Studio.  Texts are an arbitrary type; [load] is YAML loading together with the
    schema check (None: it raises, or the result is not a mapping), [dump] is ruamel's dump,
    [compile] says whether engine.compile_scene returns. *)
Section Studio.
  Variable text : Type.
  Variable load : text -> option document.
  Variable dump : document -> text.
  Variable compile : parsed_scene -> bool.

  Record studio := Studio { st_document : text; st_scene : option parsed_scene; st_spec : option document }.
  Definition studio0 (t : text) : studio := Studio t None None.

  (** 76-137 scene_payload: auto_recorders is called again for nodes with record: true *)
  Definition payload (s : studio) : option (list string) :=
    match st_spec s with
    | None => Some []
    | Some d => option_map (@List.concat string)
        (map_opt (fun '(k, n) => if ns_record n then option_map (@keys recorder_spec) (auto_recorders k (ns_body n)) else Some []) (d_nodes d))
    end.
  (** 52-74 Studio.apply: new state, and the payload (None = an exception) *)
  Definition studio_apply (s : studio) (t : text) : studio * option (list string) :=
    match load t with
    | None => (s, None)
    | Some d =>
        match parse_document d with
        | None => (s, None)
        | Some scene =>
            if compile scene then let s' := Studio t (Some scene) (Some d) in (s', payload s') else (s, None)
        end
    end.
  (** 162-168 put_document and 200-212 patch_document *)
  Inductive request := Put (t : text) | Patch (e : edit).
  Definition handle_request (s : studio) (r : request) : studio * option (list string) :=
    match r with
    | Put t => studio_apply s t
    | Patch e =>
        match load (st_document s) with
        | None => (s, None)
        | Some d => match apply_edit (st_scene s) e d with
                    | None => (s, None)
                    | Some d' => studio_apply s (dump d')
                    end
        end
    end.
  Definition run_requests (s : studio) (rs : list request) : studio := fold_left (fun s r => fst (handle_request s r)) rs s.
End Studio.
