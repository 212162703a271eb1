(** Model of several pages that are open at the studio at once, and of closing one
    (pvtrace/studio/server.py 198-274; static/app.js 1264-1270).

    Each page has its own websocket.  The stop flag, the variable [task] and the tasks belong to
    one call of websocket() (201-202); the scene belongs to the server.  What a task does is
    LiveModel.v.  A page is closed when the receive loop gets WebSocketDisconnect (271); that a send
    may already fail a little earlier is not modelled.
    A task that sends to a closed websocket gets an exception or nothing happens, depending on the
    web server: [raises] says which. *)
From Coq Require Import List Bool Arith.
From Verif Require Import TallyModel LiveModel.
Import ListNotations.
Open Scope nat_scope.

Section Visits.
Variables (scene params : Type) (specs : scene -> list (nat * recorder)) (stream : scene -> params -> list (option bdata))
          (rays max_paths : params -> nat).
Variable raises : bool.

(** [g_got]: the messages that reached the page.  [g_work]: bundles that the engine has traced, or
    is tracing in a thread of the executor when the page is closed. *)
Record page := Page { g_open : bool; g_stop : bool; g_tasks : list (task scene params); g_got : list msg; g_work : nat }.
Record server := Server { v_scene : option scene; v_pages : list page }.
(** 200-202 *)
Definition page0 : page := Page true false [] [] 0.

(** Connect: a page is opened or connects again (app.js 1269: a new websocket).  Document: a
    request of any page has replaced the scene. *)
Inductive incident := Connect | On (i : nat) (h : happening scene params) | Document (s : scene) | Close (i : nat).

(** 230: next(stream) runs in a thread and computes a bundle if there is one *)
Definition computes (t : task scene params) : nat :=
  match t with Tracing _ _ _ (_ :: _) _ _ => 1 | _ => 0 end.
Definition as_socket (scn : option scene) (g : page) : socket scene params := Socket scn (g_stop g) (g_tasks g) (g_got g).
Definition work_of (g : page) (h : happening scene params) : nat :=
  match h with Continue j => match nth_error (g_tasks g) j with Some t => computes t | None => 0 end | _ => 0 end.
(** what happens at page [g]; the receive loop of a closed page has ended, its tasks have not *)
Definition at_page (scn : option scene) (g : page) (h : happening scene params) : page :=
  if g_open g then
    let w := react scene params specs stream rays max_paths (as_socket scn g) h in
    Page true (s_stop w) (s_tasks w) (s_sent w) (g_work g + work_of g h)
  else
    match h with
    | Continue j =>
        match nth_error (g_tasks g) j with
        | None => g
        | Some t =>
            let '(t', out) := continue_task scene params specs stream rays max_paths scn (g_stop g) t in
            let t' := match out with [] => t' | _ => if raises then Crashed else t' end in
            Page false (g_stop g) (set_nth (g_tasks g) j t') (g_got g) (g_work g + computes t)
        end
    | _ => g
    end.
(** 271-274: [task] is the task that was created last.  CancelledError leaves it at its await; a
    bundle that a thread is tracing is traced to its end. *)
Definition close (g : page) : page :=
  if g_open g then
    let last := length (g_tasks g) - 1 in
    Page false true
         (match g_tasks g with [] => [] | _ => match nth_error (g_tasks g) last with
                                                | Some Ended => g_tasks g
                                                | _ => set_nth (g_tasks g) last Crashed end end)
         (g_got g)
         (g_work g + match nth_error (g_tasks g) last with Some t => computes t | None => 0 end)
  else g.
Definition incur (v : server) (x : incident) : server :=
  match x with
  | Connect => Server (v_scene v) (v_pages v ++ [page0])
  | On i (Apply _) => v                                      (* documents come as requests: [Document] *)
  | On i h => match nth_error (v_pages v) i with
              | Some g => Server (v_scene v) (set_nth (v_pages v) i (at_page (v_scene v) g h))
              | None => v
              end
  | Document s => Server (Some s) (v_pages v)
  | Close i => match nth_error (v_pages v) i with
               | Some g => Server (v_scene v) (set_nth (v_pages v) i (close g))
               | None => v
               end
  end.
Definition incidents (v : server) (xs : list incident) : server := fold_left incur xs v.
End Visits.
Arguments Page {scene params}. Arguments g_open {scene params}. Arguments g_stop {scene params}. Arguments g_tasks {scene params}.
Arguments g_got {scene params}. Arguments g_work {scene params}. Arguments Server {scene params}. Arguments v_scene {scene params}. Arguments v_pages {scene params}.
Arguments page0 {scene params}. Arguments Connect {scene params}. Arguments On {scene params}. Arguments Document {scene params}. Arguments Close {scene params}.
Arguments as_socket {scene params}. Arguments computes {scene params}.
