(** Model of the recorders: engine/recorder.py, engine/tally.py, the recorder tables of
    engine/compiler.py 134-204, tally in engine/_kernel.pyx 484-556 and RecorderResult in
    engine/api.py 26-77. *)
From Coq Require Import Reals ZArith List Bool Arith.
From Verif Require Import Base Vec TracerModel KernelModel.
Import ListNotations.
Open Scope R_scope.

(** recorder.py 34-42 PROPERTIES *)
Inductive prop := PWavelength | PAngle | PDuration | PPathlength | PX | PY | PZ.

(** recorder.py 57-71 *)
Record histogram := Histogram { h_prop : prop; h_start : R; h_stop : R; h_bins : nat }.
Definition valid_histogram (h : histogram) : Prop := h_start h < h_stop h /\ (1 <= h_bins h)%nat.
(** recorder.py 74-82: a Histogram or a Heatmap *)
Inductive hspec := H1 (h : histogram) | H2 (a b : histogram).
Definition valid_hspec (s : hspec) : Prop :=
  match s with H1 h => valid_histogram h | H2 a b => valid_histogram a /\ valid_histogram b end.
(** recorder.py 85-121; names are numbers *)
Record recorder := Recorder {
  rec_name : nat; rec_event : selector; rec_facet : option vec; rec_atol : R; rec_hists : list hspec }.

(** The values of one interaction: tally.py 139-145 and the arguments of the kernel's
    tally. *)
Record values := Values { v_wavelength : R; v_angle : R; v_duration : R; v_pathlength : R; v_local : vec }.
(** values[prop]; _kernel.pyx 478-498 prop_value *)
Definition prop_value (v : values) (p : prop) : R :=
  match p with
  | PWavelength => v_wavelength v | PAngle => v_angle v | PDuration => v_duration v | PPathlength => v_pathlength v
  | PX => vx (v_local v) | PY => vy (v_local v) | PZ => vz (v_local v)
  end.

(** int() of a float and the C cast: towards zero.  The cast of a value that does not fit
    into an int is outside the model. *)
Definition trunc (x : R) : Z := if Rleb 0 x then (up x - 1)%Z else (1 - up (- x))%Z.

(** tally.py 84-86 _bin_index; None = -1 *)
Definition bin_index (v : R) (h : histogram) : option nat :=
  let index := trunc ((v - h_start h) / (h_stop h - h_start h) * INR (h_bins h)) in
  if (0 <=? index)%Z && (index <? Z.of_nat (h_bins h))%Z then Some (Z.to_nat index) else None.

(** ** tally.py *)
(** 49-60 _TallyState: counters, moments (sum and sum of squares of wavelength, angle,
    duration, pathlength) and one bin list per histogram *)
Record tstate := TState { s_rays : nat; s_cross : nat; s_moments : list (R * R); s_bins : list (list nat) }.
Definition bins_size (s : hspec) : nat := match s with H1 h => h_bins h | H2 a b => (h_bins a * h_bins b)%nat end.
Definition new_state (r : recorder) : tstate :=
  TState 0 0 (repeat (0, 0) 4) (map (fun s => repeat 0%nat (bins_size s)) (rec_hists r)).

Fixpoint incr (i : nat) (l : list nat) : list nat :=
  match l, i with
  | [], _ => []
  | x :: t, O => S x :: t
  | x :: t, S j => x :: incr j t
  end.

(** the bin of a histogram or heatmap that [v] falls into *)
Definition cell (v : values) (s : hspec) : option nat :=
  match s with
  | H2 a b =>
      match bin_index (prop_value v (h_prop a)) a, bin_index (prop_value v (h_prop b)) b with
      | Some ia, Some ib => Some (ia * h_bins b + ib)%nat
      | _, _ => None
      end
  | H1 h => bin_index (prop_value v (h_prop h)) h
  end.
Definition moment_props : list prop := [PWavelength; PAngle; PDuration; PPathlength].
(** 62-81 accumulate *)
Definition accumulate (r : recorder) (v : values) (s : tstate) : tstate :=
  TState (S (s_rays s)) (s_cross s)
    (map (fun '((a, b), p) => (a + prop_value v p, b + prop_value v p * prop_value v p)) (combine (s_moments s) moment_props))
    (map (fun '(hs, bins) => match cell v hs with Some i => incr i bins | None => bins end) (combine (rec_hists r) (s_bins s))).

Definition opt_eqb (a : option nat) (n : nat) : bool := match a with Some x => Nat.eqb x n | None => false end.

(** 26-46 _matches.  Node names are distinct and stand for the nodes. *)
Definition matches (sel : selector) (node : nat) (e : event) : bool :=
  match e_kind e with
  | TRANSMIT =>
      if opt_eqb (e_hit e) node then
        match sel with
        | Entering => opt_eqb (e_adjacent e) node
        | Escaping => opt_eqb (e_container e) node
        | _ => false
        end
      else false
  | REFLECT => match sel with Reflected => opt_eqb (e_hit e) node && opt_eqb (e_adjacent e) node | _ => false end
  | NONRADIATIVE => match sel with Lost => opt_eqb (e_container e) node | _ => false end
  | REACT => match sel with Reacted => opt_eqb (e_container e) node | _ => false end
  | KILL => match sel with Killed => opt_eqb (e_container e) node | _ => false end
  | EXIT => match sel with Exit => opt_eqb (e_hit e) node | _ => false end
  | _ => false
  end.

(** 21-23 _incidence_angle *)
Definition incidence_angle (d n : vec) : R := acos (Rmin (Rabs (dot d n)) 1).

(** abs(f - n) > atol for one of the components *)
Definition facet_off (f n : vec) (atol : R) : bool :=
  Rltb atol (Rabs (vx f - vx n)) || Rltb atol (Rabs (vy f - vy n)) || Rltb atol (Rabs (vz f - vz n)).
Definition facet_ok (r : recorder) (normal : option vec) : bool :=
  match rec_facet r with
  | None => true
  | Some f => match normal with None => false | Some n => negb (facet_off f n (rec_atol r)) end
  end.

(** The scene as seen by tally_histories: world to node transforms and the outward
    normal (in world coordinates) of a node's surface at a world point, 123-126; the
    GeometryError of a point off the surface is not modelled. *)
Record tscene := TScene { t_w2l : nat -> vec -> vec; t_normal : nat -> vec -> vec }.

(** 122-126: metadata.get("normal"), computed for EXIT *)
Definition event_normal (T : tscene) (node : nat) (e : event) : option vec :=
  match e_kind e, e_normal e with
  | EXIT, None => Some (t_normal T node (position (e_ray e)))
  | _, n => n
  end.
(** 133-145: the values tallied for event [e] after a ray [prev] *)
Definition event_values (T : tscene) (node : nat) (prev : option ray) (e : event) : values :=
  let incident := match e_kind e with
                  | EXIT => direction (e_ray e)
                  | _ => match prev with Some p => direction p | None => direction (e_ray e) end
                  end in
  let angle := match event_normal T node e with Some n => incidence_angle incident n | None => 0 end in
  Values (wavelength (e_ray e)) angle (duration (e_ray e)) (travelled (e_ray e)) (t_w2l T node (position (e_ray e))).

Definition mem (n : nat) (l : list nat) : bool := existsb (Nat.eqb n) l.

(** 119-146: the inner loop over (node, recorder, state) for one event; [seen] are the
    recorder names already counted for this history *)
Fixpoint tally_event (T : tscene) (prev : option ray) (e : event) (seen : list nat) (ps : list (nat * recorder * tstate))
    : list nat * list (nat * recorder * tstate) :=
  match ps with
  | [] => (seen, [])
  | (node, r, s) :: rest =>
      let '(seen, s) :=
        if matches (rec_event r) node e && facet_ok r (event_normal T node e) then
          let s := TState (s_rays s) (S (s_cross s)) (s_moments s) (s_bins s) in
          if mem (rec_name r) seen then (seen, s)
          else (rec_name r :: seen, accumulate r (event_values T node prev e) s)
        else (seen, s) in
      let '(seen, rest) := tally_event T prev e seen rest in
      (seen, (node, r, s) :: rest)
  end.

(** 114-147: one history *)
Fixpoint tally_history (T : tscene) (prev : option ray) (seen : list nat) (h : list event) (ps : list (nat * recorder * tstate)) :=
  match h with
  | [] => ps
  | e :: rest => let '(seen, ps) := tally_event T prev e seen ps in tally_history T (Some (e_ray e)) seen rest ps
  end.
(** 89-154 tally_histories for the recorders [rs] in pre-order *)
Definition tally_histories (T : tscene) (rs : list (nat * recorder)) (histories : list (list event)) : list (nat * recorder * tstate) :=
  fold_left (fun ps h => tally_history T None [] h ps) histories (map (fun '(n, r) => (n, r, new_state r)) rs).

(** ** Kernel tables: compiler.py 159-204 *)
Record hrow := HRow { hr_a : histogram; hr_b : option histogram; hr_nb : nat; hr_offset : nat }.
Definition hr_na (h : hrow) : nat := h_bins (hr_a h).
(** 175-190: rows and next offset *)
Definition hist_row (s : hspec) (offset : nat) : hrow * nat :=
  match s with
  | H2 a b => (HRow a (Some b) (h_bins b) offset, (offset + h_bins a * h_bins b)%nat)
  | H1 h => (HRow h None 1 offset, (offset + h_bins h)%nat)
  end.
Fixpoint hist_rows (l : list hspec) (offset : nat) : list hrow * nat :=
  match l with
  | [] => ([], offset)
  | s :: rest => let '(row, o) := hist_row s offset in let '(rows, o) := hist_rows rest o in (row :: rows, o)
  end.
(** 167-191: per recorder (node, recorder, hist_start, hist_n); the table of rows;
    total_bins *)
Record krec := KRec { kr_node : nat; kr_rec : recorder; kr_start : nat; kr_n : nat }.
Fixpoint compile_recorders (l : list (nat * recorder)) (start offset : nat) : list krec * list hrow * nat :=
  match l with
  | [] => ([], [], offset)
  | (node, r) :: rest =>
      let '(rows, o) := hist_rows (rec_hists r) offset in
      let '(ks, more, total) := compile_recorders rest (start + length (rec_hists r)) o in
      (KRec node r start (length (rec_hists r)) :: ks, rows ++ more, total)
  end.

(** _kernel.pyx 176-181 AccBase for one thread: arrays as functions *)
Record acc := Acc { a_distinct : nat -> nat; a_cross : nat -> nat; a_sums : nat -> R; a_bins : nat -> nat }.
Definition acc0 : acc := Acc (fun _ => 0%nat) (fun _ => 0%nat) (fun _ => 0) (fun _ => 0%nat).
Definition upd {A} (f : nat -> A) (i : nat) (g : A -> A) : nat -> A := fun j => if Nat.eqb j i then g (f j) else f j.

(** the values of a call *)
Definition call_values (c : tally_call) : values :=
  Values (tc_wavelength c) (tc_angle c) (tc_duration c) (tc_travelled c) (tc_lpos c).
(** 519-530: does recorder r match the call?  (facet tests as in facet_off) *)
Definition selector_eqb (a b : selector) : bool :=
  match a, b with
  | Entering, Entering | Escaping, Escaping | Reflected, Reflected | Lost, Lost | Reacted, Reacted | Killed, Killed | Exit, Exit => true
  | _, _ => false
  end.
Definition call_matches (k : krec) (c : tally_call) : bool :=
  Nat.eqb (kr_node k) (tc_node c) && selector_eqb (rec_event (kr_rec k)) (tc_sel c) && facet_ok (kr_rec k) (tc_normal c).

(** 544-556: one histogram row *)
Definition tally_row (v : values) (row : hrow) (bins : nat -> nat) : nat -> nat :=
  match bin_index (prop_value v (h_prop (hr_a row))) (hr_a row) with
  | None => bins
  | Some ia =>
      match hr_b row with
      | None => upd bins (hr_offset row + ia) S
      | Some b =>
          match bin_index (prop_value v (h_prop b)) b with
          | None => bins
          | Some ib => upd bins (hr_offset row + ia * hr_nb row + ib) S
          end
      end
  end.
(** 535-542: sums[r * 8 + ...] *)
Definition add_sums (v : values) (r : nat) (sums : nat -> R) : nat -> R :=
  let add k x s := upd s (r * 8 + k) (fun y => y + x) in
  let w := v_wavelength v in let a := v_angle v in let d := v_duration v in let t := v_pathlength v in
  add 7%nat (t * t) (add 6%nat t (add 5%nat (d * d) (add 4%nat d (add 3%nat (a * a) (add 2%nat a (add 1%nat (w * w) (add 0%nat w sums))))))).
Definition default_row : hrow := HRow (Histogram PX 0 1 0) None 0 0.
(** 518-556: the loop over the recorders; [seen] is the array rseen *)
Fixpoint tally_loop (rows : list hrow) (c : tally_call) (ks : list krec) (r : nat) (st : (nat -> bool) * acc) : (nat -> bool) * acc :=
  match ks with
  | [] => st
  | k :: rest =>
      let '(seen, A) := st in
      let st :=
        if call_matches k c then
          let A := Acc (a_distinct A) (upd (a_cross A) r S) (a_sums A) (a_bins A) in
          if seen r then (seen, A)
          else
            let v := call_values c in
            (upd seen r (fun _ => true),
             Acc (upd (a_distinct A) r S) (a_cross A) (add_sums v r (a_sums A))
                 (fold_left (fun bins h => tally_row v (nth h rows default_row) bins) (seq (kr_start k) (kr_n k)) (a_bins A)))
        else (seen, A) in
      tally_loop rows c rest (S r) st
  end.
Definition tally (rows : list hrow) (ks : list krec) (c : tally_call) (st : (nat -> bool) * acc) := tally_loop rows c ks 0 st.
(** 624-626 and the calls made by trace_one for one ray *)
Definition tally_ray (rows : list hrow) (ks : list krec) (calls : list tally_call) (A : acc) : acc :=
  snd (fold_left (fun st c => tally rows ks c st) calls (fun _ => false, A)).

(** ** api.py 26-77 RecorderResult, and 119-137 EngineResult.recorders *)
Record result := Result { r_rays : nat; r_cross : nat; r_moments : list (R * R); r_bins : list (list nat) }.
Definition state_result (s : tstate) : result := Result (s_rays s) (s_cross s) (s_moments s) (s_bins s).
Definition slice (f : nat -> nat) (o n : nat) : list nat := map f (seq o n).
(** [A] is the sum over the threads *)
Definition engine_result (rows : list hrow) (k : krec) (r : nat) (A : acc) : result :=
  Result (a_distinct A r) (a_cross A r)
    (map (fun i => (a_sums A (r * 8 + 2 * i), a_sums A (r * 8 + 2 * i + 1))) (seq 0 4))
    (map (fun h => let row := nth (kr_start k + h) rows default_row in slice (a_bins A) (hr_offset row) (hr_na row * hr_nb row)) (seq 0 (kr_n k))).

(** 41-45 mean, 47-55 std, 57-61 error; None = nan *)
Definition moment (x : result) (i : nat) : R * R := nth i (r_moments x) (0, 0).
Definition mean (x : result) (i : nat) : option R :=
  if Nat.eqb (r_rays x) 0 then None else Some (fst (moment x i) / INR (r_rays x)).
Definition std (x : result) (i : nat) : option R :=
  if Nat.eqb (r_rays x) 0 then None
  else let mean := fst (moment x i) / INR (r_rays x) in
       Some (sqrt (Rmax (snd (moment x i) / INR (r_rays x) - mean * mean) 0)).
Definition error (x : result) (i : nat) : option R :=
  match std x i with None => None | Some s => Some (s / sqrt (INR (r_rays x))) end.
