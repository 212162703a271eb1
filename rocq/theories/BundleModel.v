(** Model of trace_bundle (pvtrace/engine/_kernel.pyx 903-1115), of the event log it fills
    and of EngineResult.histories and event_counts (engine/api.py 101-194). *)
From Coq Require Import Reals ZArith List Bool Arith.
From Verif Require Import Base Vec DistModel MaterialModel PhaseModel TransformModel TracerModel KernelModel TallyModel RngModel.
Import ListNotations.
Open Scope nat_scope.

(** ** The rows of the log *)
(** light/event.py 4-16 and _kernel.pyx 37-46 (the same numbers) *)
Definition kind_code (k : kind) : nat :=
  match k with
  | GENERATE => 0 | REFLECT => 1 | TRANSMIT => 2 | ABSORB => 3 | NONRADIATIVE => 4 | SCATTER => 5
  | EMIT => 6 | EXIT => 7 | REACT => 8 | KILL => 9
  end.
(** Event(int(v)); None = ValueError *)
Definition event_of_code (n : nat) : option kind :=
  nth_error [GENERATE; REFLECT; TRANSMIT; ABSORB; NONRADIATIVE; SCATTER; EMIT; EXIT; REACT; KILL] n.

(** The columns ev_kind .. ev_duration (1029-1041); -1 stands for none *)
Record row := Row {
  w_kind : nat; w_hit : Z; w_container : Z; w_adjacent : Z; w_component : Z; w_source : Z;
  w_position : vec; w_direction : vec; w_normal : vec;
  w_wavelength : R; w_travelled : R; w_duration : R }.
(** np.zeros / np.full(-1): an unwritten row *)
Definition blank : row :=
  Row 0 (-1) (-1) (-1) (-1) (-1) (V 0 0 0) (V 0 0 0) (V 0 0 0) 0 0 0.

(** compiler.py 101-109: comp_start *)
Definition comp_start (K : kscene) (n : nat) : nat :=
  fold_right (fun m acc => length (k_comps K m) + acc) 0 (seq 0 n).
(** component_names: one entry per component in node order; components are named by
    node and position *)
Definition component_names (K : kscene) : list (nat * nat) :=
  flat_map (fun n => map (pair n) (seq 0 (length (k_comps K n)))) (seq 0 (k_nodes K)).
(** node_names: nodes are named by their number *)
Definition node_names (K : kscene) : list nat := seq 0 (k_nodes K).

Definition code (x : option nat) : Z := match x with Some n => Z.of_nat n | None => -1 end.
(** comp = cbase + k *)
Definition comp_code (K : kscene) (n k : nat) : Z := Z.of_nat (comp_start K n + k).
(** The arguments with which trace_one calls record (652-890), written by 579-596: normal is
    NULL (stored as zeros) except for REFLECT and TRANSMIT *)
Definition row_of (K : kscene) (e : event) : row :=
  let r := e_ray e in
  Row (kind_code (e_kind e)) (code (e_hit e)) (code (e_container e)) (code (e_adjacent e))
      (match e_container e, e_comp e with Some c, Some k => comp_code K c k | _, _ => -1 end)
      (match source r with Light _ => -1 | Emitter n k => comp_code K n k end)
      (position r) (direction r) (match e_normal e with Some n => n | None => V 0 0 0 end)
      (wavelength r) (travelled r) (duration r).

(** ** trace_bundle *)
(** The arguments.  [j_streams] gives the draws of trace_one by purpose (TracerModel.v) as a
    function of the seed and the starting ray of the ray in question: the generator is a
    local variable of trace_one, seeded from its argument (645-648).  [j_every] <= 0 is 0. *)
Record job := Job {
  j_scene : kscene; j_recorders : list (nat * recorder);
  j_rays : list ray; j_seed : Z; j_streams : Z -> ray -> nat -> draws;
  j_maxsteps : nat; j_max_events : nat; j_method : emit_method; j_every : nat }.

Definition no_ray : ray := Ray (V 0 0 0) (V 0 0 0) 0 0 0 (Light 0).
Definition ray_no (J : job) (i : nat) : ray := nth i (j_rays J) no_ray.
(** 941-945: n_recorded and rows *)
Definition n_recorded (J : job) : nat :=
  if Nat.ltb 0 (j_every J) then (length (j_rays J) + j_every J - 1) / j_every J else 0.
Definition n_rows (J : job) : nat := n_recorded J * j_max_events J.
(** 1078-1081: base; None = -1 *)
Definition base (J : job) (i : nat) : option nat :=
  if Nat.ltb 0 (j_every J) && Nat.eqb (i mod j_every J) 0 then Some (i / j_every J * j_max_events J) else None.
Definition tables (J : job) : list krec * list hrow * nat := compile_recorders (j_recorders J) 0 0.
Definition krecs (J : job) : list krec := fst (fst (tables J)).
Definition hrows (J : job) : list hrow := snd (fst (tables J)).

(** 1082-1094: trace_one for ray i; the loop is left at the latest in pass maxsteps + 1 *)
Definition run_ray (J : job) (i : nat) : list event * list tally_call * kstatus :=
  let r := ray_no J i in
  trace_one (S (S (j_maxsteps J))) (j_scene J)
    (match base J i with Some _ => Some (j_max_events J) | None => None end)
    (j_maxsteps J) (j_method J) (j_streams J (ray_seed (j_seed J) i) r) r.

(** Writes to memory shared by the threads.  All the updates of the accumulators of thread
    [tid] (row tid of acc_distinct, ...) that one ray causes are one step: only thread tid
    touches that row. *)
Inductive step :=
| WriteRow (r : nat) (w : row)
| WriteCount (j n : nat)
| Accumulate (tid : nat) (calls : list tally_call).

(** The writes of ray i run by thread tid (1077-1096).  Log, counts and accumulators are
    separate arrays, so the order among them within a ray is immaterial. *)
Definition row_steps (K : kscene) (b : nat) (log : list event) : list step :=
  map (fun '(k, e) => WriteRow (b + k) (row_of K e)) (combine (seq 0 (length log)) log).
Definition ray_steps (J : job) (tid i : nat) : list step :=
  let '(log, calls, _) := run_ray J i in
  match base J i with
  | Some b => row_steps (j_scene J) b log ++ [Accumulate tid calls; WriteCount (i / j_every J) (length log)]
  | None => [Accumulate tid calls]
  end.

(** The shared arrays *)
Record memory := Memory { m_log : nat -> row; m_counts : nat -> nat; m_acc : nat -> acc }.
(** 1020-1041: freshly allocated *)
Definition memory0 : memory := Memory (fun _ => blank) (fun _ => 0) (fun _ => acc0).
Definition set {A} (f : nat -> A) (i : nat) (x : A) : nat -> A := fun j => if Nat.eqb j i then x else f j.
Definition exec (J : job) (M : memory) (s : step) : memory :=
  match s with
  | WriteRow r w => Memory (set (m_log M) r w) (m_counts M) (m_acc M)
  | WriteCount j n => Memory (m_log M) (set (m_counts M) j n) (m_acc M)
  | Accumulate tid calls =>
      Memory (m_log M) (m_counts M) (set (m_acc M) tid (tally_ray (hrows J) (krecs J) calls (m_acc M tid)))
  end.

(** prange with schedule="dynamic": every ray is run by one thread; [threads] lists for every
    thread the rays it runs, in its order.  The writes of the threads are interleaved. *)
Inductive interleave {A} : list (list A) -> list A -> Prop :=
| inter_nil ls : Forall (eq []) ls -> interleave ls []
| inter_cons before x l after rest :
    interleave (before ++ l :: after) rest -> interleave (before ++ (x :: l) :: after) (x :: rest).
Definition thread_steps (J : job) (threads : list (list nat)) : list (list step) :=
  map (fun '(tid, is) => flat_map (ray_steps J tid) is) (combine (seq 0 (length threads)) threads).
(** [M] is the memory at the end of some parallel execution *)
Definition executes (J : job) (threads : list (list nat)) (M : memory) : Prop :=
  exists steps, interleave (thread_steps J threads) steps /\ M = fold_left (exec J) steps memory0.

(** 1100-1104: acc_*.sum(axis=0) over the threads *)
Definition rsum_to (n : nat) (f : nat -> R) : R := fold_right Rplus 0%R (map f (seq 0 n)).
Definition nsum_to (n : nat) (f : nat -> nat) : nat := fold_right Nat.add 0 (map f (seq 0 n)).
Definition merged (nthr : nat) (M : memory) : acc :=
  Acc (fun i => nsum_to nthr (fun t => a_distinct (m_acc M t) i)) (fun i => nsum_to nthr (fun t => a_cross (m_acc M t) i))
      (fun i => rsum_to nthr (fun t => a_sums (m_acc M t) i)) (fun i => nsum_to nthr (fun t => a_bins (m_acc M t) i)).

(** ** engine/api.py *)
(** 111-116 recorded_indices: np.arange(0, num_rays, record_every) *)
Definition recorded_indices (J : job) : list nat :=
  if Nat.leb (j_every J) 0 then [] else filter (fun i => Nat.eqb (i mod j_every J) 0) (seq 0 (length (j_rays J))).

(** One decoded event: (Ray, Event, metadata) *)
Record entry := Entry {
  t_ray : ray; t_kind : kind; t_hit : option nat; t_container : option nat; t_adjacent : option nat;
  t_component : option (nat * nat); t_normal : option vec }.

(** 155-159: names[index] if index >= 0 else None; outer None = IndexError *)
Definition name_at {A} (names : list A) (index : Z) : option (option A) :=
  if (index <? 0)%Z then Some None
  else match nth_error names (Z.to_nat index) with Some x => Some (Some x) | None => None end.
Definition bind {A B} (x : option A) (f : A -> option B) : option B := match x with Some a => f a | None => None end.
(** 169-193: one row.  [sources] are the names of the lights that emitted the rays, one per
    ray (numbers); [index] is indices[j]. *)
Definition decode (K : kscene) (sources : list nat) (index : option nat) (w : row) : option entry :=
  bind (if (w_source w <? 0)%Z
        then bind index (fun i => bind (nth_error sources i) (fun l => Some (Light l)))
        else bind (name_at (component_names K) (w_source w)) (fun c =>
               match c with Some (n, k) => Some (Emitter n k) | None => None end)) (fun source =>
  bind (event_of_code (w_kind w)) (fun event =>
  bind (name_at (node_names K) (w_hit w)) (fun hit =>
  bind (name_at (node_names K) (w_container w)) (fun container =>
  bind (name_at (node_names K) (w_adjacent w)) (fun adjacent =>
  bind (name_at (component_names K) (w_component w)) (fun component =>
  Some (Entry (Ray (w_position w) (w_direction w) (w_wavelength w) (w_travelled w) (w_duration w) source)
              event hit container adjacent component
              (match event with REFLECT | TRANSMIT => Some (w_normal w) | _ => None end)))))))).

Fixpoint all_some {A} (l : list (option A)) : option (list A) :=
  match l with
  | [] => Some []
  | x :: rest => bind x (fun a => bind (all_some rest) (fun r => Some (a :: r)))
  end.
(** 161-194 histories; None = an exception.  num_recorded is len(data["counts"]), that is
    n_recorded.  [sources]: the names of the lights that emitted the rays. *)
Definition histories (J : job) (sources : list nat) (M : memory) : option (list (list entry)) :=
  all_some (map (fun j =>
      all_some (map (fun k => decode (j_scene J) sources (nth_error (recorded_indices J) j) (m_log M (j * j_max_events J + k)))
                    (seq 0 (m_counts M j))))
    (seq 0 (n_recorded J))).

(** 139-153 event_counts: how many logged rows have a kind *)
Definition event_count (J : job) (M : memory) (k : kind) : nat :=
  length (filter (fun '(j, c) => Nat.ltb c (m_counts M j) && Nat.eqb (w_kind (m_log M (j * j_max_events J + c))) (kind_code k))
    (list_prod (seq 0 (n_recorded J)) (seq 0 (j_max_events J)))).
