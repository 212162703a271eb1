(** Model of the way pvtrace/engine/tally.py 26-46 and 111-147 finds nodes in histories.
    The metadata of an event holds the names of nodes (algorithm/photon_tracer.py 166-270,
    engine/api.py 155-159), and nodes need not have different names.  In TallyModel.v a
    node is its own name; here [name] gives the name of every node.  Names are numbers. *)
From Coq Require Import Reals List Bool Arith.
From Verif Require Import Base Vec TracerModel TallyModel.
Import ListNotations.

(** The metadata of an event: names instead of nodes *)
Definition rename (name : nat -> nat) (e : event) : event :=
  Event (e_kind e) (e_ray e) (option_map name (e_hit e)) (option_map name (e_container e)) (option_map name (e_adjacent e))
    (e_comp e) (e_normal e).

(** tally.py 119-146 *)
Fixpoint named_event (name : nat -> nat) (T : tscene) (prev : option ray) (e : event) (seen : list nat) (ps : list (nat * recorder * tstate))
    : list nat * list (nat * recorder * tstate) :=
  match ps with
  | [] => (seen, [])
  | (node, r, s) :: rest =>
      let '(seen, s) :=
        if matches (rec_event r) (name node) e && facet_ok r (event_normal T node e) then
          let s := TState (s_rays s) (S (s_cross s)) (s_moments s) (s_bins s) in
          if mem (rec_name r) seen then (seen, s)
          else (rec_name r :: seen, accumulate r (event_values T node prev e) s)
        else (seen, s) in
      let '(seen, rest) := named_event name T prev e seen rest in
      (seen, (node, r, s) :: rest)
  end.
(** 114-147: one history *)
Fixpoint named_history (name : nat -> nat) (T : tscene) (prev : option ray) (seen : list nat) (h : list event) (ps : list (nat * recorder * tstate)) :=
  match h with
  | [] => ps
  | e :: rest => let '(seen, ps) := named_event name T prev e seen ps in named_history name T (Some (e_ray e)) seen rest ps
  end.
(** 89-154 tally_histories *)
Definition named_histories (name : nat -> nat) (T : tscene) (rs : list (nat * recorder)) (histories : list (list event)) : list (nat * recorder * tstate) :=
  fold_left (fun ps h => named_history name T None [] h ps) histories (map (fun '(n, r) => (n, r, new_state r)) rs).
