(** Model of further parts of the studio page, pvtrace/studio/static/app.js: the polar plot, ray paths,
    number fields, selection, and the layers of overlays.  JavaScript numbers are reals; rendering
    by three.js and the canvas is not modelled. *)
From Coq Require Import Reals ZArith List Bool Arith.
From Verif Require Import Base Vec BrowserModel.
Import ListNotations.
Open Scope R_scope.

(** ** drawPolar (991-1026) *)
(** 1005, 1016: the middle of bin i *)
Definition mid (edges : list R) (i : nat) : R := (nth i edges 0 + nth (i + 1) edges 0) / 2.
(** 1004-1007 *)
Definition density (edges values : list R) : list R :=
  map (fun '(i, v) => v / Rmax (sin (mid edges i)) (5 / 100)) (combine (seq 0 (length values)) values).
(** 1008 Math.max(1e-9, ...density) *)
Definition density_max (d : list R) : R := fold_left Rmax d (/ 10 ^ 9).
(** 1017-1018: the vertex for bin i on one side ([side] is -1 or 1) *)
Definition polar_vertex (cx cy R0 : R) (edges d : list R) (side : R) (i : nat) : R * R :=
  let r := nth i d 0 / density_max d * R0 in
  (cx + side * r * sin (mid edges i), cy - r * cos (mid edges i)).
(** 995: R, from the size of the canvas *)
Definition polar_radius (W H : R) : R := Rmin (W / 2) H - 12.
(** 1009-1021: the outline: the centre, the left side from the last bin to the first, the right side
    from the first to the last *)
Definition draw_polar (W H : R) (edges values : list R) : list (R * R) :=
  let cx := W / 2 in let cy := H - 8 in
  let d := density edges values in
  let n := length d in
  (cx, cy) :: map (polar_vertex cx cy (polar_radius W H) edges d (-1)) (rev (seq 0 n))
           ++ map (polar_vertex cx cy (polar_radius W H) edges d 1) (seq 0 n).

(** ** drawBars (972-989): the rectangle of bin i (left, top, width, height), on a W by H canvas *)
Definition bars_max (values : list R) : R := fold_left Rmax values 1.
Definition bar_width (W : R) (values : list R) : R := (W - 2 * 2) / INR (length values).
Definition bar (W H : R) (values : list R) (i : nat) : R * R * R * R :=
  let h := nth i values 0 / bars_max values * (H - 2 * 2) in
  let bw := bar_width W values in
  (2 + INR i * bw, H - 2 - h, Rmax 1 (bw - 1), h).

(** ** Ray paths (928-956).  A path is its points with their wavelengths; the server sends as many
    wavelengths as points (server.py 570-573). *)
Definition path := list (vec * R).
Definition MAX_PATH_LINES : nat := 400.
(** a line: its vertices with their colours *)
Definition line_of (p : path) : list (vec * (R * R * R)) := map (fun '(x, nm) => (x, wavelength_to_color nm (15 / 100))) p.
(** [pathCount] and the children of pathGroup *)
Record path_state := Paths { path_count : nat; lines : list (list (vec * (R * R * R))) }.
(** 931-951 addPaths *)
Fixpoint add_paths (paths : list path) (s : path_state) : path_state :=
  match paths with
  | [] => s
  | p :: rest =>
      if Nat.leb MAX_PATH_LINES (path_count s) then s
      else if Nat.ltb (length p) 2 then add_paths rest s
      else add_paths rest (Paths (S (path_count s)) (lines s ++ [line_of p]))
  end.
(** 953-956 *)
Definition clear_paths (s : path_state) : path_state := Paths 0 [].
(** 1271-1290 socket.onmessage: what it does to the paths *)
Inductive message := MStarted | MBundle (paths : list path) | MDone | MError.
Definition on_message (s : path_state) (m : message) : path_state :=
  match m with MStarted => clear_paths s | MBundle ps => add_paths ps s | MDone | MError => s end.

(** ** numberField (558-577) *)
(** Number(v.toFixed(6)) for 0 <= v < 10^21: the integer n with n / 10^6 closest to v, the larger of two *)
Definition to_fixed6_pos (v : R) : R := IZR (floor (v * 10 ^ 6 + 1 / 2)) / 10 ^ 6.
(** toFixed writes the sign of a negative number and goes on with its absolute value *)
Definition to_fixed6 (v : R) : R := if Rltb v 0 then - to_fixed6_pos (- v) else to_fixed6_pos v.
(** the texts in the inputs; None: a text that is not a number.  A number written by the page is read
    back unchanged. *)
Definition shown_inputs (values : list R) : list (option R) := map (fun v => Some (to_fixed6 v)) values.
(** 570-571: parseFloat(i.value) || 0 for every input of the field, after the user has changed
    input i to [text] *)
Definition set_nth {A} (i : nat) (a : A) (l : list A) : list A := firstn i l ++ match skipn i l with [] => [] | _ :: r => a :: r end.
Definition commit (values : list R) (i : nat) (text : option R) : list R :=
  map (fun t => match t with Some x => x | None => 0 end) (set_nth i text (shown_inputs values)).

(** ** Selection (347-373, 433, 459-470, 525-528) *)
Inductive segment := SNodes | SComponents | SRecorders | SView.
Definition segment_eqb (a b : segment) : bool :=
  match a, b with SNodes, SNodes | SComponents, SComponents | SRecorders, SRecorders | SView, SView => true | _, _ => false end.
(** names are numbers; [items]: the keys of the sections of the scene (357-364) *)
Record page := Page { items : segment -> list nat; sel_segment : segment; sel_name : option nat }.
Definition items_for (p : page) (s : segment) : list nat := match s with SView => [] | _ => items p s end.
Definition includes (l : list nat) (n : option nat) : bool := match n with Some n => existsb (Nat.eqb n) l | None => false end.
(** items[0] || null (names are not empty) *)
Definition first (l : list nat) : option nat := match l with [] => None | a :: _ => Some a end.
(** 512-528 renderInspector *)
Definition render_inspector (p : page) : page :=
  let l := items_for p (sel_segment p) in
  if negb (segment_eqb (sel_segment p) SView) && negb (includes l (sel_name p)) then Page (items p) (sel_segment p) (first l) else p.
(** 366-373 select *)
Definition select (s : segment) (n : option nat) (p : page) : page := render_inspector (Page (items p) s n).
Inductive page_event :=
| Scene (items : segment -> list nat)        (* 228-312 renderScene *)
| Segment (s : segment)                      (* 459-466 *)
| Item (n : option nat)                      (* 468-470 *)
| Background                                 (* 433 *)
| ClickNode (n : nat)                        (* 452 *)
| ClickRecorder (node name : nat) (behind : option nat).  (* 435-450; [behind]: the first node hit *)
Definition page_step (p : page) (e : page_event) : page :=
  match e with
  | Scene it => render_inspector (Page it (sel_segment p) (sel_name p))
  | Segment s =>
      let l := items_for p s in
      let keep := if includes l (sel_name p) then sel_name p else first l in
      select s (if segment_eqb s SView then None else keep) p
  | Item n => select (sel_segment p) n p
  | Background => select (sel_segment p) None p
  | ClickNode n => select SNodes (Some n) p
  | ClickRecorder node name behind =>
      let is_sel s n := segment_eqb (sel_segment p) s && includes [n] (sel_name p) in
      if negb (is_sel SNodes node || is_sel SRecorders name) then select SNodes (Some (match behind with Some b => b | None => node end)) p
      else select SRecorders (Some name) p
  end.

(** ** Layers (316-345) *)
Record overlay := Overlay { ov_name : nat; ov_node : nat; ov_event : nat }.
(** [lay_event] None: "all" *)
Record layers := Layers { lay_nodes : list nat; lay_overlays : list overlay; lay_hidden : list nat; lay_event : option nat; isolate : option nat }.
(** 320-326 *)
Definition visible (s : layers) (o : overlay) : bool :=
  let hidden_by_user := existsb (Nat.eqb (ov_name o)) (lay_hidden s) in
  let ghosted := match isolate s with Some n => negb (Nat.eqb (ov_node o) n) | None => false end in
  negb hidden_by_user && negb ghosted && match lay_event s with None => true | Some e => Nat.eqb (ov_event o) e end.
Inductive layer_event :=
| LScene (nodes : list nat) (overlays : list overlay)  (* renderScene: lastScene and recorderOverlays are replaced *)
| LEvent (e : option nat)
| LIsolate (n : option nat)                             (* 340-345; None: the text is no name *)
| LToggle (name : nat) (on : bool).                     (* 846-851 *)
Definition layer_step (s : layers) (e : layer_event) : layers :=
  match e with
  | LScene ns os => Layers ns os (lay_hidden s) (lay_event s) (isolate s)
  | LEvent e => Layers (lay_nodes s) (lay_overlays s) (lay_hidden s) e (isolate s)
  | LIsolate n => Layers (lay_nodes s) (lay_overlays s) (lay_hidden s) (lay_event s) (if includes (lay_nodes s) n then n else None)
  | LToggle name on =>
      let h := filter (fun n => negb (Nat.eqb n name)) (lay_hidden s) in
      Layers (lay_nodes s) (lay_overlays s) (if on then h else h ++ [name]) (lay_event s) (isolate s)
  end.
