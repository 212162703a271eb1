(** The command line interface: work split of Scene.simulate, worker messages, the
    database written by the monitor thread, and the SQL queries over it.
    Not modelled: sqlite itself (tables are lists of rows, a rowid is the position in the
    table counted from 1, NULL comparisons are false), the renderer fed by monitor_queue, and
    the ZMQ, typer and process machinery.  The queue is a first-in first-out channel: each process puts
    its messages in order and the monitor sees some interleaving of them. *)
From Coq Require Import Reals List Bool Arith ZArith.
From Verif Require Import Base Vec TracerModel BundleModel TallyModel.
Import ListNotations.
Open Scope nat_scope.

(** ** scene/scene.py: Scene.simulate *)
(** What simulate decides to do.  [Single n seed]: do_simulation (or
    do_simulation_add_to_queue) in this process, numpy seeded with [seed] when it is not None.
    [Pool tasks]: one pool task per element with its number of rays and its seed. *)
Inductive plan :=
| Single (num_rays : Z) (seed : option Z)
| Pool (tasks : list (Z * Z))
| RaisesValueError
| RaisesZeroDivisionError
| RaisesIndexError.

(** scene.py 256-259 *)
Definition resolve_workers (cpu_count : Z) (workers : option Z) : Z :=
  match workers with None => Z.max 1 (cpu_count / 2) | Some w => w end.

(** scene.py 261-313; [drawn] is np.random.randint(0, 2**31 - 1, workers) of line 283.  Python's
    // and % are Z.div and Z.modulo for non-zero divisors. *)
Definition simulate_plan (num_rays workers : Z) (seed : option Z) (drawn : nat -> Z) : plan :=
  (if workers =? 1 then Single num_rays seed
   else if workers =? 0 then RaisesZeroDivisionError
   else
     let num_rays_per_worker := num_rays / workers in
     if num_rays_per_worker =? 0 then Single num_rays seed
     else
       let remainder := if num_rays_per_worker * workers <? num_rays
                        then num_rays mod (num_rays_per_worker * workers)
                        else (num_rays_per_worker * workers) mod num_rays in
       match repeat num_rays_per_worker (Z.to_nat workers) with
       | [] => RaisesIndexError
       | r0 :: rest =>
           match seed with
           | Some _ => RaisesValueError
           | None => Pool (combine (r0 + remainder :: rest) (map drawn (seq 0 (Z.to_nat workers))))
           end
       end)%Z.

(** scene.emit(n) yields max(0, n) rays (scene.py 177-195, StreamModel). *)
Definition thrown (p : plan) : Z :=
  (match p with
   | Single n _ => Z.max 0 n
   | Pool tasks => fold_right Z.add 0 (map (fun t => Z.max 0 (fst t)) tasks)
   | _ => 0
   end)%Z.

(** ** scene/scene.py: worker messages *)
Definition oeqb (a b : option nat) : bool :=
  match a, b with Some x, Some y => Nat.eqb x y | None, None => true | _, _ => false end.

(** scene.py 35-59 *)
Definition is_end_ray (e : event) : bool :=
  match e_kind e with
  | EMIT | SCATTER | ABSORB => false
  | GENERATE | NONRADIATIVE | REACT | KILL | EXIT => true
  | REFLECT => oeqb (e_hit e) (e_adjacent e)
  | TRANSMIT => if oeqb (e_hit e) (e_adjacent e) then true
                else if oeqb (e_hit e) (e_container e) then true else false
  end.

(** A queue message (pid, idx, ray, event, metadata).  [m_task] says which of the tasks run by
    this process sent it; it is not part of the message and the monitor does not use it. *)
Record message := Msg { m_pid : nat; m_task : nat; m_idx : nat; m_event : event }.
Definition task := list (list event).

(** scene.py 60-88: the messages of one task, given the history of each of its rays *)
Definition task_messages (end_rays : bool) (pid number : nat) (t : task) : list message :=
  flat_map (fun '(idx, h) => map (Msg pid number idx) (if end_rays then filter is_end_ray h else h))
           (combine (seq 0 (length t)) t).
(** A pool process runs its tasks one after the other, with one pid (os.getpid()). *)
Definition process_messages (end_rays : bool) (pid : nat) (tasks : list task) : list message :=
  flat_map (fun '(number, t) => task_messages end_rays pid number t) (combine (seq 0 (length tasks)) tasks).
(** Which tasks were run by which process is up to the pool; processes have different pids. *)
Definition pool_messages (end_rays : bool) (pool : list (list task)) : list (list message) :=
  map (fun '(pid, tasks) => process_messages end_rays pid tasks) (combine (seq 0 (length pool)) pool).
(** What the monitor receives: some interleaving. *)
Definition received (end_rays : bool) (pool : list (list task)) (ms : list message) : Prop :=
  interleave (pool_messages end_rays pool) ms.

(** ** cli/main.py: the monitor *)
(** data/schema.sql 2-14 and 17-29.  The ray row is (throw_id, ray); component names are
    positions; the facet label and the three normal columns may be NULL. *)
Record ray_row := RayRow { throw_id : nat; row_ray : ray }.
Record event_row := EventRow {
  ray_id : nat; row_kind : kind; row_component : option nat; row_hit : option nat; row_container : option nat;
  row_adjacent : option nat; row_facet : option nat; ni : option R; nj : option R; nk : option R }.
Record database := DB { ray_table : list ray_row; event_table : list event_row }.

(** main.py 39-54; lastrowid is the rowid of the new row *)
Definition write_ray (db : database) (r : ray) (global_throw_id : nat) : database * nat :=
  (DB (ray_table db ++ [RayRow global_throw_id r]) (event_table db), S (length (ray_table db))).
(** main.py 57-82; the tracer's metadata has no "facet" key *)
Definition write_event (db : database) (e : event) (ray_db_id : nat) : database :=
  let normal := match e_normal e with
                | None => (None, None, None)
                | Some n => (Some (vx n), Some (vy n), Some (vz n))
                end in
  let '(a, b, c) := normal in
  DB (ray_table db) (event_table db ++
    [EventRow ray_db_id (e_kind e) (e_comp e) (e_hit e) (e_container e) (e_adjacent e) None a b c]).

(** dictionary with integer values: d[k] = v *)
Fixpoint dict_set (d : list (nat * nat)) (k v : nat) : list (nat * nat) :=
  match d with
  | [] => [(k, v)]
  | (k', v') :: rest => if Nat.eqb k' k then (k', v) :: rest else (k', v') :: dict_set rest k v
  end.

(** State of monitor_queue: [ids] are the keys of global_ids in insertion order (the value of
    a key is its position, since the new value is len(global_ids)); [pending] is what the
    connection has written so far, [saved] what has been committed, [updates] the calls of
    progress.update(1). *)
Record monitor := Monitor { ids : list (nat * nat); counts : list (nat * nat); completed : nat; updates : nat;
                            pending : database; saved : database }.
Definition key_eqb (a b : nat * nat) : bool := Nat.eqb (fst a) (fst b) && Nat.eqb (snd a) (snd b).
Fixpoint find_id (k : nat * nat) (l : list (nat * nat)) : option nat :=
  match l with
  | [] => None
  | k' :: rest => if key_eqb k k' then Some 0 else match find_id k rest with Some i => Some (S i) | None => None end
  end.

(** main.py 107-110 and an empty database (prepare_database 30-36) *)
Definition monitor0 : monitor := Monitor [] [] 0 0 (DB [] []) (DB [] []).

(** main.py 119-134: counts, progress, global ids; returns the global id too *)
Definition register (s : monitor) (m : message) : monitor * nat :=
  let counts := dict_set (counts s) (m_pid m) (S (m_idx m)) in
  let '(completed, updates) :=
    if Nat.ltb (completed s) (list_sum (map snd counts)) then (S (completed s), S (updates s)) else (completed s, updates s) in
  let key := (m_pid m, m_idx m) in
  let '(ids, id) := match find_id key (ids s) with
                    | Some id => (ids s, id)
                    | None => (ids s ++ [key], length (ids s))
                    end in
  (Monitor ids counts completed updates (pending s) (saved s), id).
(** main.py 116-156: the states the monitor goes through while handling a message: after the
    bookkeeping, after the ray row, after the event row, after the commit *)
Definition handle_states (s : monitor) (m : message) : list monitor :=
  let '(s1, id) := register s m in
  let '(db2, rowid) := write_ray (pending s1) (e_ray (m_event m)) id in
  let s2 := Monitor (ids s1) (counts s1) (completed s1) (updates s1) db2 (saved s1) in
  let s3 := Monitor (ids s2) (counts s2) (completed s2) (updates s2) (write_event (pending s2) (m_event m) rowid) (saved s2) in
  let s4 := Monitor (ids s3) (counts s3) (completed s3) (updates s3) (pending s3) (pending s3) in
  [s1; s2; s3; s4].
Definition handle (s : monitor) (m : message) : monitor := last (handle_states s m) s.
Definition monitor_queue (ms : list message) : monitor := fold_left handle ms monitor0.
(** All states gone through, in order *)
Fixpoint states_from (s : monitor) (ms : list message) : list monitor :=
  match ms with
  | [] => []
  | m :: rest => handle_states s m ++ states_from (handle s m) rest
  end.
(** What is left on disk when the program dies in state [s]: sqlite rolls back the open
    transaction. *)
Definition on_disk (s : monitor) : database := saved s.

(** ** cli/db.py *)
Record filters := Filters { f_nx : option R; f_ny : option R; f_nz : option R; f_facet : option nat; f_source : option src; f_atol : R }.
Definition src_eq_dec (a b : src) : {a = b} + {a <> b}.
Proof. decide equality; apply Nat.eq_dec. Defined.
Definition kind_eq_dec (a b : kind) : {a = b} + {a <> b}.
Proof. decide equality. Defined.
Definition kind_is (k k' : kind) : bool := if kind_eq_dec k k' then true else false.

(** column = ?; false for NULL *)
Definition col_is (c : option nat) (v : nat) : bool := match c with Some x => Nat.eqb x v | None => false end.
(** db.py 14-24: AND (ABS(? - column) <= ?) when the value is given *)
Definition normal_clause (value : option R) (column : option R) (atol : R) : bool :=
  match value with
  | None => true
  | Some v => match column with Some c => Rleb (Rabs (v - c)%R) atol | None => false end
  end.
Definition facet_clause (facet : option nat) (e : event_row) : bool :=
  match facet with None => true | Some f => col_is (row_facet e) f end.
Definition source_clause (source' : option src) (r : ray_row) : bool :=
  match source' with None => true | Some s => if src_eq_dec (source (row_ray r)) s then true else false end.

Inductive other_column := AdjacentColumn | ContainerColumn.
(** db.py 27-69, the WHERE part *)
Definition boundary_where (node : nat) (k : kind) (other : other_column) (f : filters) (re : ray_row * event_row) : bool :=
  let '(r, e) := re in
  col_is (row_hit e) node &&
  col_is (match other with AdjacentColumn => row_adjacent e | ContainerColumn => row_container e end) node &&
  kind_is (row_kind e) k &&
  normal_clause (f_nx f) (ni e) (f_atol f) && normal_clause (f_ny f) (nj e) (f_atol f) && normal_clause (f_nz f) (nk e) (f_atol f) &&
  facet_clause (f_facet f) e && source_clause (f_source f) r.
(** db.py 72-90, the WHERE part *)
Definition volume_where (node : nat) (k : kind) (f : filters) (re : ray_row * event_row) : bool :=
  let '(r, e) := re in
  col_is (row_container e) node && kind_is (row_kind e) k && source_clause (f_source f) r.

(** The six queries, db.py 96-163 and 169-246; volume queries take only the source filter. *)
Inductive query := QReflected | QEntering | QEscaping | QLost | QReacted | QKilled.
Definition query_where (q : query) (node : nat) (f : filters) : ray_row * event_row -> bool :=
  match q with
  | QReflected => boundary_where node REFLECT AdjacentColumn f
  | QEntering => boundary_where node TRANSMIT AdjacentColumn f
  | QEscaping => boundary_where node TRANSMIT ContainerColumn f
  | QLost => volume_where node NONRADIATIVE f
  | QReacted => volume_where node REACT f
  | QKilled => volume_where node KILL f
  end.

(** ray INNER JOIN event ON ray.rowid = event.ray_id *)
Definition joined (db : database) : list (ray_row * event_row) :=
  flat_map (fun '(rowid, r) => map (fun e => (r, e)) (filter (fun e => Nat.eqb (ray_id e) rowid) (event_table db)))
           (combine (seq 1 (length (ray_table db))) (ray_table db)).
(** SELECT DISTINCT columns ... WHERE ... *)
Definition select_distinct {A} (eq_dec : forall x y : A, {x = y} + {x <> y}) (columns : ray_row -> A)
    (cond : ray_row * event_row -> bool) (db : database) : list A :=
  nodup eq_dec (map (fun re => columns (fst re)) (filter cond (joined db))).
Definition pair_eq_dec (a b : nat * R) : {a = b} + {a <> b}.
Proof. decide equality; [apply Req_EM_T|apply Nat.eq_dec]. Defined.

(** pvtrace-cli count: SELECT COUNT('throw_id') FROM (SELECT DISTINCT throw_id ...) *)
Definition sql_count (q : query) (node : nat) (f : filters) (db : database) : nat :=
  length (select_distinct Nat.eq_dec throw_id (query_where q node f) db).
(** pvtrace-cli spectrum: SELECT throw_id, wavelength FROM (SELECT DISTINCT throw_id, wavelength ...) *)
Definition sql_spectrum (q : query) (node : nat) (f : filters) (db : database) : list (nat * R) :=
  select_distinct pair_eq_dec (fun r => (throw_id r, wavelength (row_ray r))) (query_where q node f) db.
(** pvtrace-cli time: the same with duration *)
Definition sql_time (q : query) (node : nat) (f : filters) (db : database) : list (nat * R) :=
  select_distinct pair_eq_dec (fun r => (throw_id r, duration (row_ray r))) (query_where q node f) db.
