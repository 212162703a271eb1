(** Model of how the page of the studio and its server keep one document: the editor, the reactive
    timer, the buttons, structured edits and saving of pvtrace/studio/static/app.js (109-127,
    1131-1137, 1169-1256) and the handlers of pvtrace/studio/server.py (138-196, 278-283).

    The browser may have several requests under way.  The handlers have no await, so the server
    handles one request at a time, but in any order, and the replies reach the page in any order.
    What a document means is left open: [loads] tells whether Studio.apply accepts a text, [edit]
    gives the text that _patch makes of a structured edit (None: it raises).  The scene of a text
    is represented by the text.  Network errors, runs and the files dropped on the editor are left out. *)
From Coq Require Import List Bool Arith.
Import ListNotations.

Section Sync.
Variables text op : Type.
Variable blank : text -> bool.            (* text.trim() is empty *)
Variable loads : text -> bool.
Variable edit : text -> op -> option text.

(** what waits for the reply of a PUT: nothing more (1218, and 1173), startRun (1253), the rest of saving (1222-1225) *)
Inductive then_ := Nothing | ThenRun | ThenSave.
Inductive message :=
| Get                                     (* GET /api/document *)
| Put (t : text) (k : then_)              (* PUT /api/document *)
| Patch (o : op)                          (* POST /api/patch of patch() *)
| Live (o : op)                           (* POST /api/patch of the gizmo, in real time *)
| Save                                    (* POST /api/save *)
| Got (t : text)
| Did (r : option text) (k : then_)       (* the scene of the text, or an error *)
| Patched (r : option text)               (* text and scene, or an error *)
| Lived
| Saved (ok : bool).
Inductive status := SceneOk | SavedOk | Error.
Record page := Page { editor : text; viewport : option text; reactive : bool; timer : bool; doc_status : status }.
(** [file] is None when no file was opened *)
Record server := Server { document : text; scene : option text; file : option text }.
Record state := State { pg : page; sv : server; wire : list message }.

(** server.py 56-74 and 82-101 *)
Definition apply (t : text) (s : server) : server * option text :=
  if loads t then (Server t (Some t) (file s), Some t) else (s, None).
(** server.py 151-196 *)
Definition handle (m : message) (s : server) : option (server * message) :=
  match m with
  | Get => Some (s, Got (document s))
  | Put t k => let '(s', r) := apply t s in Some (s', Did r k)
  | Patch o => match edit (document s) o with
               | None => Some (s, Patched None)
               | Some t => let '(s', r) := apply t s in Some (s', Patched r)
               end
  | Live o => match edit (document s) o with
              | None => Some (s, Lived)
              | Some t => let '(s', _) := apply t s in Some (s', Lived)
              end
  | Save => match file s with
            | None => Some (s, Saved false)
            | Some _ => Some (Server (document s) (scene s) (Some (document s)), Saved true)
            end
  | _ => None
  end.
(** app.js: what a reply does to the page, and the requests that follow *)
Definition receive (m : message) (p : page) : option (page * list message) :=
  match m with
  | Got t =>                                                     (* 1172-1173; setDocumentText fires no change *)
      Some (Page t (viewport p) (reactive p) (timer p) (doc_status p), if blank t then [] else [Put t Nothing])
  | Did None k => Some (Page (editor p) (viewport p) (reactive p) (timer p) Error, [])                    (* 1183-1187 *)
  | Did (Some t) k =>                                            (* 1188-1191 *)
      Some (Page (editor p) (Some t) (reactive p) (timer p) SceneOk, match k with ThenSave => [Save] | _ => [] end)
  | Patched None => Some (Page (editor p) (viewport p) (reactive p) (timer p) Error, [])                  (* 1201-1207 *)
  | Patched (Some t) => Some (Page t (Some t) (reactive p) (timer p) SceneOk, [])                         (* 1208-1215 *)
  | Lived => Some (p, [])                                        (* 117-125 *)
  | Saved ok => Some (Page (editor p) (viewport p) (reactive p) (timer p) (if ok then SavedOk else Error), [])
  | _ => None
  end.

Inductive event :=
| Type_ (t : text)                        (* the user changes the text of the editor to t *)
| Tick (b : bool)                         (* the reactive checkbox *)
| Timer                                   (* the 700 ms are over *)
| ClickApply | ClickSave
| Edit (o : op)                           (* an edit in the inspector, a button, or the drop of the gizmo *)
| DragLive (o : op)                       (* a move posted while dragging *)
| Handle (i : nat)                        (* the server handles message i *)
| Deliver (i : nat).                      (* message i, a reply, reaches the page *)
Fixpoint remove_nth {A} (i : nat) (l : list A) : list A :=
  match i, l with O, _ :: l' => l' | S i', x :: l' => x :: remove_nth i' l' | _, [] => [] end.
Fixpoint replace_nth {A} (i : nat) (y : A) (l : list A) : list A :=
  match i, l with O, _ :: l' => y :: l' | S i', x :: l' => x :: replace_nth i' y l' | _, [] => [] end.
Definition post (s : state) (m : message) : state := State (pg s) (sv s) (wire s ++ [m]).
(** None: the event cannot happen now *)
Definition step (s : state) (e : event) : option state :=
  let p := pg s in
  match e with
  | Type_ t =>                                                   (* 1249-1252 *)
      Some (State (Page t (viewport p) (reactive p) (timer p || reactive p) (doc_status p)) (sv s) (wire s))
  | Tick b => Some (State (Page (editor p) (viewport p) b (timer p) (doc_status p)) (sv s) (wire s))
  | Timer =>                                                     (* 1252-1254 *)
      if timer p then Some (post (State (Page (editor p) (viewport p) (reactive p) false (doc_status p)) (sv s) (wire s)) (Put (editor p) ThenRun))
      else None
  | ClickApply => Some (post s (Put (editor p) Nothing))
  | ClickSave => Some (post s (Put (editor p) ThenSave))
  | Edit o => Some (post s (Patch o))
  | DragLive o => Some (post s (Live o))
  | Handle i =>
      match nth_error (wire s) i with
      | None => None
      | Some m => match handle m (sv s) with None => None | Some (s', r) => Some (State p s' (replace_nth i r (wire s))) end
      end
  | Deliver i =>
      match nth_error (wire s) i with
      | None => None
      | Some m => match receive m p with None => None | Some (p', ms) => Some (State p' (sv s) (remove_nth i (wire s) ++ ms)) end
      end
  end.
Fixpoint run (s : state) (es : list event) : option state :=
  match es with [] => Some s | e :: es' => match step s e with None => None | Some s' => run s' es' end end.
(** create_app on a file with text [t] (or without a file) and a page that has just been opened *)
Definition opened (empty t : text) (has_file : bool) (scene0 : option text) : state :=
  State (Page empty None false false SceneOk) (Server t scene0 (if has_file then Some t else None)) [Get].
Definition started (empty t : text) (has_file : bool) : state :=
  opened empty t has_file (if loads t then Some t else None).
End Sync.
Arguments Get {text op}. Arguments Put {text op} _ _. Arguments Patch {text op} _. Arguments Live {text op} _. Arguments Save {text op}.
Arguments Got {text op} _. Arguments Did {text op} _ _. Arguments Patched {text op} _. Arguments Lived {text op}. Arguments Saved {text op} _.
Arguments Page {text}. Arguments editor {text} _. Arguments viewport {text} _. Arguments reactive {text} _. Arguments timer {text} _. Arguments doc_status {text} _.
Arguments Server {text}. Arguments document {text} _. Arguments scene {text} _. Arguments file {text} _.
Arguments State {text op}. Arguments pg {text op} _. Arguments sv {text op} _. Arguments wire {text op} _.
Arguments Type_ {text op} _. Arguments Tick {text op} _. Arguments Timer {text op}. Arguments ClickApply {text op}. Arguments ClickSave {text op}.
Arguments Edit {text op} _. Arguments DragLive {text op} _. Arguments Handle {text op} _. Arguments Deliver {text op} _.
Arguments step {text op}. Arguments run {text op}. Arguments started {text op}. Arguments opened {text op}. Arguments post {text op}.
Arguments handle {text op}. Arguments receive {text op}. Arguments apply {text}.
