(** Model of simulation runs in the studio (pvtrace/studio/server.py 198-274, 501-574).

    The coroutines of one websocket run on one event loop and only give up control at an
    await.  A schedule is a list of [happening]s: a command processed by the receive loop,
    a document applied by another request, or one task continued up to its next await.
    Disconnection and several websockets are in VisitModel.v; clock times are not modelled. *)
From Coq Require Import Reals ZArith List Bool Arith.
From Verif Require Import Base Vec TracerModel KernelModel TallyModel BundleModel BundleProofs.
Import ListNotations.
Open Scope nat_scope.

(** np.rint and np.round(x, digits): to the nearest, ties to even *)
Definition rint (x : R) : Z :=
  let f := (up x - 1)%Z in
  let d := (x - IZR f)%R in
  if Rltb d (1 / 2) then f else if Rltb (1 / 2) d then (f + 1)%Z else if Z.even f then f else (f + 1)%Z.
Definition np_round (x : R) (digits : nat) : R := (IZR (rint (x * 10 ^ digits)) / 10 ^ digits)%R.
Definition vround (v : vec) (digits : nat) : vec := V (np_round (vx v) digits) (np_round (vy v) digits) (np_round (vz v) digits).

(** What simulate_stream yields for a bundle: result.data (api.py 80-110) and traced *)
Record bdata := BData {
  bd_acc : acc; bd_recorded : nat; bd_max_events : nat;
  bd_counts : nat -> nat; bd_log : nat -> row; bd_traced : nat }.

(** ** 531-554 _recorder_payload *)
Record figures := Figures {
  f_name : nat; f_rays : nat; f_crossings : nat; f_mean_wavelength : R; f_mean_angle : R; f_histograms : list (list nat) }.
(** 535-543: the values of histogram number h of a recorder *)
Definition payload_histogram (rows : list hrow) (start : nat) (A : acc) (h : nat) (spec : hspec) : list nat :=
  let offset := hr_offset (nth (start + h) rows default_row) in
  match spec with
  | H2 a b => slice (a_bins A) offset (h_bins a * h_bins b)
  | H1 a => slice (a_bins A) offset (h_bins a)
  end.
(** 532-553 for recorder number r *)
Definition payload_entry (rows : list hrow) (r : nat) (k : krec) (A : acc) : figures :=
  let n := INR (Nat.max (a_distinct A r) 1) in
  Figures (rec_name (kr_rec k)) (a_distinct A r) (a_cross A r)
    (a_sums A (r * 8 + 0) / n) (a_sums A (r * 8 + 2) / n)
    (map (fun '(h, spec) => payload_histogram rows (kr_start k) A h spec)
         (combine (seq 0 (length (rec_hists (kr_rec k)))) (rec_hists (kr_rec k)))).
(** The dict as a list; recorder names are distinct (C58) *)
Definition recorder_payload (rs : list (nat * recorder)) (A : acc) : list figures :=
  let '(ks, rows, _) := compile_recorders rs 0 0 in
  map (fun '(r, k) => payload_entry rows r k A) (combine (seq 0 (length ks)) ks).

(** ** 557-574 _extract_paths *)
Definition path_of (d : bdata) (j : nat) : list (vec * R) :=
  map (fun k => let w := bd_log d (j * bd_max_events d + k) in (vround (w_position w) 6, np_round (w_wavelength w) 2))
      (seq 0 (bd_counts d j)).
Definition extract_paths (d : bdata) (limit : nat) : list (list (vec * R)) :=
  flat_map (fun j => if Nat.ltb (bd_counts d j) 2 then [] else [path_of d j]) (seq 0 (Nat.min (bd_recorded d) limit)).

(** ** The websocket *)
Section Socket.
(** A parsed scene, its recorder tables, and what next() gives for
    simulate_stream(scene, rays, bundle, seed, record_every), bundle by bundle; None is an
    exception (no light sources, too many nodes, a bad seed; the generator ends with it).  The seed
    drawn for "seed": null and the number of threads are part of the parameters.  Applied
    scenes compile (server.py 69). *)
Variables (scene params : Type).
Variable specs : scene -> list (nat * recorder).
Variable stream : scene -> params -> list (option bdata).
Variables (rays max_paths : params -> nat).

(** 202-255: where a task waits *)
Inductive task :=
| Created (p : params)
| Announced (p : params) (compiled : scene)            (** in the await of 212 *)
| Tracing (p : params) (compiled used : scene) (rest : list (option bdata)) (totals : acc) (sent_paths : nat)
                                                        (** in the await of 230 or 243 *)
| Ended
| Crashed.                                              (** an exception left the task *)
(** What is sent to the browser; the histogram descriptions of 211 are a function of the
    recorder tables.  Clock times are left out. *)
Inductive content :=
| MStarted (total : nat) (meta : list (nat * recorder))
| MBundle (traced total : nat) (recorders : list figures) (paths : list (list (vec * R)))
| MDone
| MError.
(** [m_task] tells who sent it and is not part of the message; None: the receive loop *)
Record msg := Msg { m_task : option nat; m_content : content }.
Record socket := Socket { s_scene : option scene; s_stop : bool; s_tasks : list task; s_sent : list msg }.
Definition socket0 (s : option scene) : socket := Socket s false [] [].

Inductive happening := Run (p : params) | Stop | Apply (s : scene) | Continue (task : nat).

(** shapes of the arrays of 215-219: distinct += ... raises ValueError if they differ.
    (numpy would also broadcast an array of length one; not modelled.) *)
Definition total_bins (rs : list (nat * recorder)) : nat := snd (compile_recorders rs 0 0).
Definition same_shape (a b : scene) : bool :=
  Nat.eqb (length (specs a)) (length (specs b)) && Nat.eqb (total_bins (specs a)) (total_bins (specs b)).

Fixpoint set_nth {A} (l : list A) (i : nat) (x : A) : list A :=
  match l, i with
  | [], _ => []
  | _ :: t, O => x :: t
  | y :: t, S j => y :: set_nth t j x
  end.

(** One task continued: its next state and what it sends *)
Definition continue_task (scn : option scene) (stop : bool) (t : task) : task * list content :=
  match t with
  | Created p =>                                                    (* 203-213 *)
      match scn with
      | Some s => (Announced p s, [MStarted (rays p) (specs s)])
      | None => (Crashed, [])
      end
  | Announced p compiled =>                                         (* 215-228 *)
      match scn with
      | Some s => (Tracing p compiled s (stream s p) acc0 0, [])
      | None => (Crashed, [])
      end
  | Tracing p compiled used rest totals sent_paths =>               (* 229-255 *)
      match rest with
      | [] => (Ended, [MDone])
      | None :: _ => (Crashed, [])
      | Some d :: rest' =>
          if stop then (Ended, [MDone])
          else if negb (same_shape compiled used) then (Crashed, [])
          else
            let totals := acc_add totals (bd_acc d) in
            let paths := if Nat.ltb sent_paths (max_paths p) then extract_paths d (max_paths p - sent_paths) else [] in
            (Tracing p compiled used rest' totals (sent_paths + length paths),
             [MBundle (bd_traced d) (rays p) (recorder_payload (specs compiled) totals) paths])
      end
  | Ended => (Ended, [])
  | Crashed => (Crashed, [])
  end.

(** 258-271 and the requests that apply documents *)
Definition react (w : socket) (h : happening) : socket :=
  match h with
  | Run p =>
      match s_scene w with
      | None => Socket (s_scene w) (s_stop w) (s_tasks w) (s_sent w ++ [Msg None MError])
      | Some _ => Socket (s_scene w) false (s_tasks w ++ [Created p]) (s_sent w)
      end
  | Stop => Socket (s_scene w) true (s_tasks w) (s_sent w)
  | Apply s => Socket (Some s) (s_stop w) (s_tasks w) (s_sent w)
  | Continue i =>
      match nth_error (s_tasks w) i with
      | None => w
      | Some t =>
          let '(t', out) := continue_task (s_scene w) (s_stop w) t in
          Socket (s_scene w) (s_stop w) (set_nth (s_tasks w) i t') (s_sent w ++ map (Msg (Some i)) out)
      end
  end.
Definition happens (w : socket) (hs : list happening) : socket := fold_left react hs w.
End Socket.
Arguments Created {scene params}. Arguments Announced {scene params}. Arguments Tracing {scene params}.
Arguments Ended {scene params}. Arguments Crashed {scene params}.
Arguments Socket {scene params}. Arguments s_scene {scene params}. Arguments s_stop {scene params}.
Arguments s_tasks {scene params}. Arguments s_sent {scene params}. Arguments socket0 {scene params}.
Arguments Run {scene params}. Arguments Stop {scene params}. Arguments Apply {scene params}. Arguments Continue {scene params}.
