(** Model of LSC.spectrum and of the table of LSC._make_counts (pvtrace/device/lsc.py 456-566) with
    the names of lights and components.  LscModel.v tells them apart by what they are; the code
    compares the text in the column "source".

    Rows are those of LscModel.v, the object and its scene those of LscSceneModel.v.  The cache of
    the table (458-459, 496) is left out: a second simulate raises (C86), so the table cannot
    change.  Arguments of a wrong type and unknown names of events are excluded by typing. *)
From Coq Require Import Reals List Bool Arith String.
From Verif Require Import Base Vec TracerModel LscModel.
From Verif Require LscSceneModel.
Import ListNotations.

(** The text in the column "source": light.py 258 and component.py 168, 437 pass the name on.  Only the
    plate has components (lsc.py 152-200). *)
Definition name_of (sc : LscSceneModel.scene) (s : src) : option string :=
  match s with
  | Light i => option_map LscSceneModel.ln_name (nth_error (LscSceneModel.sc_lights sc) i)
  | Emitter _ k => option_map LscSceneModel.co_name (nth_error (LscSceneModel.bn_components (LscSceneModel.sc_lsc sc)) k)
  end.

(** the argument [source]: a string, or a set of names *)
Inductive source_arg := One (s : string) | Many (l : list string).
Definition mem (s : string) (l : list string) : bool := existsb (String.eqb s) l.
Definition named (sc : LscSceneModel.scene) (l : list string) (s : src) : bool :=
  match name_of sc s with Some n => mem n l | None => false end.

(** 505-566; None = ValueError *)
Definition spectrum_named (l : LscSceneModel.lsc) (df : option (list row)) (facets : list facet) (k : option row_kind)
    (source : source_arg) (events : option (list kind)) : option (list R) :=
  match df, LscSceneModel.l_scene l, LscSceneModel.component_names l, LscSceneModel.light_names l with
  | Some df, Some sc, Some cs, Some ls =>
      let all := cs ++ ls in
      match source with
      | One s =>
          if String.eqb s "all" then Some (spectrum df facets k (named sc all) events)
          else if mem s all then Some (spectrum df facets k (named sc [s]) events) else None
      | Many ns =>
          if forallb (fun n => mem n all) ns then Some (spectrum df facets k (named sc ns) events) else None
      end
  | _, _, _, _ => None
  end.

(** 461-503: the four columns of the table; 463-464 the names are those of the scene *)
Inductive column := SolarIn | SolarOut | LuminescentOut | LuminescentIn.
Definition table (l : LscSceneModel.lsc) (df : option (list row)) (c : column) (f : facet) : option nat :=
  match LscSceneModel.l_scene l with
  | None => None
  | Some sc =>
      let all_components := map LscSceneModel.co_name (LscSceneModel.bn_components (LscSceneModel.sc_lsc sc)) in
      let all_lights := map LscSceneModel.ln_name (LscSceneModel.sc_lights sc) in
      option_map (@List.length R)
        (match c with
         | SolarOut => spectrum_named l df [f] (Some Exit) (Many all_lights) None
         | SolarIn => spectrum_named l df [f] (Some Entrance) (Many all_lights) None
         | LuminescentOut => spectrum_named l df [f] (Some Exit) (Many all_components) None
         | LuminescentIn => spectrum_named l df [f] (Some Entrance) (Many all_components) None
         end)
  end.
