(** Model of the part of cli/main.py monitor_queue (85-161) that chooses the histories to be
    drawn (--zmq, --render-every).  The database part is in CliModel.v; both read the same
    messages.  What the renderer does with a history is in RendererModel.v. *)
From Coq Require Import List Bool Arith.
From Verif Require Import Base Vec TracerModel BundleModel CliModel.
Import ListNotations.
Open Scope nat_scope.

(** global_ids (its keys, in order), history (by process) and the calls
    renderer.add_history(history[pid]) so far *)
Record drawing := Drawing { dr_ids : list (nat * nat); dr_open : list (nat * list event); dr_drawn : list (list event) }.
Definition drawing0 : drawing := Drawing [] [] [].

(** dict.get and d[k] = v, dict.pop *)
Fixpoint lookup {A} (k : nat) (d : list (nat * A)) : option A :=
  match d with [] => None | (k', v) :: r => if Nat.eqb k' k then Some v else lookup k r end.
Definition drop {A} (k : nat) (d : list (nat * A)) : list (nat * A) := filter (fun x => negb (Nat.eqb (fst x) k)) d.
Definition assign {A} (k : nat) (v : A) (d : list (nat * A)) : list (nat * A) := (k, v) :: drop k d.

(** main.py 131-152, with a renderer; [skip] is --render-every (at least 1).  A history is a list of
    (ray, event) pairs; here the events carry their rays.  drop also stands for the missing
    pop of an absent key (148-149). *)
Definition draw_message (skip : nat) (s : drawing) (m : message) : drawing :=
  let pid := m_pid m in
  let '(ids, open, drawn) :=
    match find_id (pid, m_idx m) (dr_ids s) with
    | Some _ => (dr_ids s, dr_open s, dr_drawn s)
    | None =>
        let ids := dr_ids s ++ [(pid, m_idx m)] in
        let drawn := match lookup pid (dr_open s) with
                     | Some h => if 1 <? length h then dr_drawn s ++ [h] else dr_drawn s
                     | None => dr_drawn s
                     end in
        let open := if (length ids mod skip =? 0) || (m_idx m =? 0) then assign pid [] (dr_open s) else drop pid (dr_open s) in
        (ids, open, drawn)
    end in
  let open := match lookup pid open with Some h => assign pid (h ++ [m_event m]) open | None => open end in
  Drawing ids open drawn.
(** 112-161: the thread returns when it is told to stop; what is still in history is not drawn *)
Definition draw_run (skip : nat) (ms : list message) : drawing := fold_left (draw_message skip) ms drawing0.
Definition drawn_histories (skip : nat) (ms : list message) : list (list event) := dr_drawn (draw_run skip ms).
