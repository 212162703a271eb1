(** Model of the figures that the inspector of the studio shows beside a recorder
    (pvtrace/studio/static/app.js 355-373, 512-545, 822-826, 865-927, 1056-1080, 1268-1296).

    The messages are those of the server (LiveModel.v).  An answer with a scene is represented by
    the recorders of that scene.  Not modelled: how numbers are formatted, the other fields of the
    inspector, the shape sent with a heatmap, the overlays on the faces (C104, C121), an answer of an
    older server. *)
From Coq Require Import Reals List Bool Arith.
From Verif Require Import Base Vec TracerModel KernelModel TallyModel BundleModel LiveModel.
Import ListNotations.
Open Scope nat_scope.

(** 865-879: the line above the plots *)
Inductive note := Collect | Stats (f : figures).
(** 897-902: a plot, its recorder and the number of the histogram; what was last drawn on it: axis and values *)
Record canvas := Canvas { c_name : nat; c_index : nat; c_drawn : option (hspec * list nat) }.
(** [p_threw] counts the handlers that ended with an exception *)
Record panel := Panel {
  p_scene : list (nat * recorder);         (* lastScene.recorders *)
  p_segment : bool; p_selected : option nat; (* selected.segment = "recorders", selected.name *)
  p_meta : list (nat * recorder);          (* histogramMeta *)
  p_latest : list figures;                 (* latest *)
  p_note : option note; p_plots : list canvas; (* inspectorPlots *)
  p_threw : nat }.

Definition names (rs : list (nat * recorder)) : list nat := map (fun x => rec_name (snd x)) rs.
(** histogramMeta[name], latest[name]; the names of the recorders of a scene differ (C58) *)
Definition meta_of (n : nat) (rs : list (nat * recorder)) : option (list hspec) :=
  option_map (fun x => rec_hists (snd x)) (find (fun x => Nat.eqb (rec_name (snd x)) n) rs).
Definition latest_of (n : nat) (fs : list figures) : option figures := find (fun f => Nat.eqb (f_name f) n) fs.

(** 905-927 drawInspectorPlots: the plots, and whether it threw (912: no such histogram in the data) *)
Fixpoint draw_plots (meta : list (nat * recorder)) (latest : list figures) (plots : list canvas) : list canvas * bool :=
  match plots with
  | [] => ([], false)
  | c :: rest =>
      match meta_of (c_name c) meta, latest_of (c_name c) latest with
      | Some hs, Some f =>
          match nth_error (f_histograms f) (c_index c), nth_error hs (c_index c) with
          | Some values, Some h =>
              let '(rest', threw) := draw_plots meta latest rest in
              (Canvas (c_name c) (c_index c) (Some (h, values)) :: rest', threw)
          | _, _ => (c :: rest, true)
          end
      | _, _ => let '(rest', threw) := draw_plots meta latest rest in (c :: rest', threw)
      end
  end.
Definition with_plots (p : panel) (x : list canvas * bool) : panel :=
  Panel (p_scene p) (p_segment p) (p_selected p) (p_meta p) (p_latest p) (p_note p) (fst x) (p_threw p + if snd x then 1 else 0).

(** 865-903 buildRecorderPlots for the recorder [n] *)
Definition build_plots (n : nat) (p : panel) : panel :=
  match meta_of n (p_meta p), latest_of n (p_latest p) with
  | Some hs, Some f =>
      let plots := map (fun i => Canvas n i None) (seq 0 (length hs)) in
      with_plots (Panel (p_scene p) (p_segment p) (p_selected p) (p_meta p) (p_latest p) (Some (Stats f)) plots (p_threw p))
        (draw_plots (p_meta p) (p_latest p) plots)
  | _, _ => Panel (p_scene p) (p_segment p) (p_selected p) (p_meta p) (p_latest p) (Some Collect) [] (p_threw p)
  end.
(** 512-545 renderInspector; 824 finds the selected recorder since 526-529 selected one of the list *)
Definition render (p : panel) : panel :=
  let items := names (p_scene p) in
  let chosen := match p_selected p with
                | Some n => if existsb (Nat.eqb n) items then Some n else hd_error items
                | None => hd_error items
                end in
  let q := Panel (p_scene p) (p_segment p) (if p_segment p then chosen else p_selected p) (p_meta p) (p_latest p) None [] (p_threw p) in
  if p_segment p then match chosen with Some n => build_plots n q | None => q end else q.

Inductive happening := Message (c : content) | Scene (rs : list (nat * recorder)) | Select (name : option nat) | Elsewhere (name : option nat).
Definition react (p : panel) (e : happening) : panel :=
  match e with
  | Message (MStarted _ rs) =>                       (* 1273-1278 *)
      let q := Panel (p_scene p) (p_segment p) (p_selected p) rs [] (p_note p) (p_plots p) (p_threw p) in
      if p_segment p then render q else q
  | Message (MBundle _ _ fs _) =>                    (* 1279-1288; refreshHeatmaps 1059-1080 ends with 1079 *)
      let had := match p_latest p with [] => false | _ => true end in
      let q := Panel (p_scene p) (p_segment p) (p_selected p) (p_meta p) fs (p_note p) (p_plots p) (p_threw p) in
      let x := draw_plots (p_meta p) fs (p_plots p) in
      if snd x then with_plots q x
      else if negb had && p_segment p then render (with_plots q x) else with_plots q x
  | Message MDone => if p_segment p then render p else p   (* 1289-1292 *)
  | Message MError => p                              (* 1293-1295 *)
  | Scene rs => render (Panel rs (p_segment p) (p_selected p) (p_meta p) (p_latest p) (p_note p) (p_plots p) (p_threw p)) (* 236, 308 *)
  | Select n => render (Panel (p_scene p) true n (p_meta p) (p_latest p) (p_note p) (p_plots p) (p_threw p))              (* 367-369 *)
  | Elsewhere n => render (Panel (p_scene p) false n (p_meta p) (p_latest p) (p_note p) (p_plots p) (p_threw p))
  end.
Definition play (p : panel) (es : list happening) : panel := fold_left react es p.
(** 56-72, 1315 *)
Definition panel0 : panel := Panel [] false None [] [] None [] 0.
