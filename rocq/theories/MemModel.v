(** Model of the array accesses of pvtrace/engine/_kernel.pyx.  The kernel is compiled with
    boundscheck=False and wraparound=False, so an index outside an array is undefined behaviour.

    Every comparison of doubles and every cast of a double to int is an oracle that may answer
    anything, also differently each time: nothing depends on arithmetic, rounding, nan or the
    random numbers.  Integers of the tables are exact; their
    width is in WidthModel.v. *)
From Coq Require Import ZArith List Bool.
Import ListNotations.
Open Scope Z_scope.

(** ** Arrays *)
(** Local arrays of trace_one (629-640), tables of SceneT (120-163), accumulators (176-182),
    event log (185-198) and the arrays of trace_bundle *)
Inductive array :=
| hit_t | hit_node | node_hits | node_min_t | ts | cand | rseen
| geom_type | geom_params | l2w | w2l | nidx | surf_type | comp_start | comp_count
| comp_type | comp_qy | comp_tau_rad | comp_tau_nr | comp_phase_type | comp_phase_param
| abs_start | abs_n | ems_start | ems_n | abs_x | abs_y | ems_x | ems_cdf
| rec_node | rec_event | rec_has_facet | rec_facet | rec_atol | rec_hist_start | rec_hist_n
| h_prop_a | h_prop_b | h_na | h_nb | h_lo_a | h_hi_a | h_lo_b | h_hi_b | h_offset
| distinct | cross | sums | bins
| ev_kind | ev_hit | ev_container | ev_adjacent | ev_component | ev_source
| ev_position | ev_direction | ev_normal | ev_wavelength | ev_travelled | ev_duration
| pos_work | dir_work | wav_work | counts.

(** Length of each array, and the contents of the integer tables *)
Record memory := Memory { m_len : array -> Z; m_int : array -> Z -> Z }.
(** Scalars of SceneT, the arguments of trace_bundle *)
Record setting := Setting {
  n_nodes : Z; root : Z; n_recorders : Z; total_bins : Z; max_events : Z; record_every : Z; maxsteps : Z; emit_method : Z }.
(** 67-70 *)
Definition MAX_NODES := 128.   Definition MAX_RECORDERS := 256.   Definition MAX_HITS := 512.

(** ** Programs with oracles that leave a trace of accesses *)
Record oracle := Oracle { o_bool : nat -> bool; o_int : nat -> Z }.
(** an access: is it a write, the array, the index.  x += 1 is a read and a write for the scratch
    array node_hits, and counts as a write for the tallies. *)
Record access := Access { x_write : bool; x_array : array; x_index : Z }.
Definition state := (list access * nat)%type.
Definition prog (A : Type) := oracle -> state -> A * state.
Definition ret {A} (a : A) : prog A := fun _ s => (a, s).
Definition bind {A B} (m : prog A) (f : A -> prog B) : prog B := fun o s => let '(a, s') := m o s in f a o s'.
Notation "x <- m ;; k" := (bind m (fun x => k)) (at level 61, m at next level, right associativity).
Notation "m ;;; k" := (bind m (fun _ => k)) (at level 61, right associativity).
Definition ask : prog bool := fun o s => (o_bool o (snd s), (fst s, S (snd s))).
Definition cast : prog Z := fun o s => (o_int o (snd s), (fst s, S (snd s))).
Definition touch (a : array) (i : Z) : prog unit := fun _ s => (tt, (Access false a i :: fst s, snd s)).
Definition store (a : array) (i : Z) : prog unit := fun _ s => (tt, (Access true a i :: fst s, snd s)).
Definition read (mem : memory) (a : array) (i : Z) : prog Z := touch a i ;;; ret (m_int mem a i).
Fixpoint for_each {A B} (l : list A) (f : A -> B -> prog B) (b : B) : prog B :=
  match l with [] => ret b | x :: rest => b' <- f x b ;; for_each rest f b' end.
(** range(n), range(a, b) *)
Definition range (a b : Z) : list Z := map (fun i => a + Z.of_nat i) (seq 0 (Z.to_nat (b - a))).
Definition touches (a : array) (l : list Z) : prog unit := for_each l (fun i _ => touch a i) tt.
Definition stores (a : array) (l : list Z) : prog unit := for_each l (fun i _ => store a i) tt.
(** m[i * 4 + j] for i < 3: 206-216 transform_point; transform_vector leaves out column 3 *)
Definition transform_point (a : array) (node : Z) : prog unit :=
  touches a (flat_map (fun i => map (fun j => node * 16 + i * 4 + j) (range 0 4)) (range 0 3)).
Definition transform_vector (a : array) (node : Z) : prog unit :=
  touches a (flat_map (fun i => map (fun j => node * 16 + i * 4 + j) (range 0 3)) (range 0 3)).

(** ** 219-238 interp_clamped(x, xs + p, ys + p, n) *)
Fixpoint search (fuel : nat) (xs : array) (p lo hi : Z) : prog (Z * Z) :=
  match fuel with
  | O => ret (lo, hi)
  | S f =>
      if 1 <? hi - lo then
        let mid := Z.shiftr (lo + hi) 1 in
        touch xs (p + mid) ;;;
        c <- ask ;;
        if c then search f xs p mid hi else search f xs p lo mid
      else ret (lo, hi)
  end.
Definition interp_clamped (xs ys : array) (p n : Z) : prog unit :=
  if n =? 1 then touch ys p
  else
    touch xs p ;;;
    below <- ask ;;
    if below then touch ys p
    else
      touch xs (p + (n - 1)) ;;;
      above <- ask ;;
      if above then touch ys (p + (n - 1))
      else
        lh <- search (Z.to_nat n) xs p 0 (n - 1) ;;
        let '(lo, hi) := lh in
        touch xs (p + hi) ;;; touch xs (p + lo) ;;;
        same <- ask ;;
        if same then touch ys (p + lo)
        else touch ys (p + lo) ;;; touch ys (p + hi) ;;; touch xs (p + lo) ;;; touch xs (p + hi).

(** ** 245-356 intersections; the result is n, the number of entries written to ts *)
(** if t > EPS: ts[n] = t; n += 1 *)
Definition push (a : array) (n : Z) : prog Z := c <- ask ;; if c then store a n ;;; ret (n + 1) else ret n.
Definition intersect_box (node : Z) : prog Z :=
  touches geom_params (map (fun axis => node * 4 + axis) (range 0 3)) ;;;
  outside <- ask ;;
  if outside then ret 0
  else
    empty <- ask ;;
    if empty then ret 0 else n <- push ts 0 ;; push ts n.
Definition intersect_sphere (node : Z) : prog Z :=
  touch geom_params (node * 4) ;;;
  negative <- ask ;;
  if negative then ret 0 else n <- push ts 0 ;; push ts n.
Definition intersect_cylinder (node : Z) : prog Z :=
  touch geom_params (node * 4) ;;; touch geom_params (node * 4 + 1) ;;;
  oblique <- ask ;;
  ncand <- (if oblique then real <- ask ;; if real then n <- push cand 0 ;; push cand n else ret 0 else ret 0) ;;
  steep <- ask ;;
  ncand <- (if steep then n <- push cand ncand ;; push cand n else ret ncand) ;;
  for_each (range 0 ncand) (fun i n => touch cand i ;;; push ts n) 0.
Definition intersect_node (mem : memory) (node : Z) : prog Z :=
  gtype <- read mem geom_type node ;;
  if gtype =? 0 then intersect_box node else if gtype =? 1 then intersect_sphere node else intersect_cylinder node.
(** 359-400 *)
Definition local_normal (mem : memory) (node : Z) : prog unit :=
  gtype <- read mem geom_type node ;;
  if gtype =? 0 then touches geom_params (map (fun axis => node * 4 + axis) (range 0 3))
  else if gtype =? 1 then ret tt else touch geom_params (node * 4).

(** ** 501-556 tally for thread tid.  [facet]: wnormal is not NULL. *)
Definition tally_row (mem : memory) (s : setting) (tid h : Z) : prog unit :=
  touch h_prop_a h ;;; touch h_lo_a h ;;; touch h_hi_a h ;;;
  na <- read mem h_na h ;;
  ia <- cast ;;
  if (ia <? 0) || (na <=? ia) then ret tt
  else
    b <- read mem h_prop_b h ;;
    offset <- read mem h_offset h ;;
    if b <? 0 then store bins (tid * total_bins s + (offset + ia))
    else
      touch h_lo_b h ;;; touch h_hi_b h ;;;
      nb <- read mem h_nb h ;;
      ib <- cast ;;
      if (ib <? 0) || (nb <=? ib) then ret tt
      else store bins (tid * total_bins s + (offset + ia * nb + ib)).
Definition tally_recorder (mem : memory) (s : setting) (tid : Z) (facet : bool) (r : Z) : prog unit :=
  touch rec_node r ;;; touch rec_event r ;;;
  other <- ask ;;
  if other then ret tt
  else
    touch rec_has_facet r ;;;
    filtered <- ask ;;
    off <- (if filtered
            then if facet then touches rec_facet [r * 3; r * 3 + 1; r * 3 + 2] ;;; touch rec_atol r ;;; ask else ret true
            else ret false) ;;
    if (off : bool) then ret tt
    else
      store cross (tid * n_recorders s + r) ;;;
      touch rseen r ;;;
      already <- ask ;;
      if already then ret tt
      else
        store rseen r ;;;
        store distinct (tid * n_recorders s + r) ;;;
        stores sums (map (fun k => tid * n_recorders s * 8 + (r * 8 + k)) (range 0 8)) ;;;
        start <- read mem rec_hist_start r ;;
        n <- read mem rec_hist_n r ;;
        for_each (range start (start + n)) (fun h _ => tally_row mem s tid h) tt.
Definition tally (mem : memory) (s : setting) (tid : Z) (facet : bool) : prog unit :=
  for_each (range 0 (n_recorders s)) (fun r _ => tally_recorder mem s tid facet r) tt.

(** ** 562-597 record; the result is the new count *)
Definition row3 (row : Z) : list Z := map (fun i => row * 3 + i) (range 0 3).
Definition record (s : setting) (base count : Z) : prog Z :=
  if (base <? 0) || (max_events s <=? count) then ret count
  else
    let row := base + count in
    store ev_kind row ;;; store ev_hit row ;;; store ev_container row ;;; store ev_adjacent row ;;;
    store ev_component row ;;; store ev_source row ;;;
    stores ev_position (row3 row) ;;; stores ev_direction (row3 row) ;;; stores ev_normal (row3 row) ;;;
    store ev_wavelength row ;;; store ev_travelled row ;;; store ev_duration row ;;;
    ret (count + 1).

(** ** 603-897 trace_one *)
(** 660-677; the result is the contents of hit_node (its length is nhits) and of node_hits *)
Definition find_hits (mem : memory) (s : setting) : prog (list Z * (Z -> Z)) :=
  for_each (range 0 (n_nodes s)) (fun node acc =>
      store node_hits node ;;; store node_min_t node ;;;
      transform_point w2l node ;;; transform_vector w2l node ;;;
      nlocal <- intersect_node mem node ;;
      for_each (range 0 nlocal) (fun k (acc : list Z * (Z -> Z)) =>
          let '(hits, nh) := acc in
          let nhits := Z.of_nat (length hits) in
          hits' <- (if nhits <? MAX_HITS
                    then touch ts k ;;; store hit_t nhits ;;; store hit_node nhits ;;; ret (hits ++ [node])
                    else ret hits) ;;
          touch node_hits node ;;; store node_hits node ;;; touch ts k ;;; touch node_min_t node ;;;
          closer <- ask ;;
          (if closer : bool then store node_min_t node else ret tt) ;;;
          ret (hits', fun n => if n =? node then nh n + 1 else nh n))
        acc)
    ([], fun _ => 0).
(** 681-684 *)
Definition find_first (nhits : Z) : prog Z :=
  for_each (range 1 nhits) (fun i first => touch hit_t i ;;; touch hit_t first ;;; c <- ask ;; ret (if c : bool then i else first)) 0.
(** 685-689 *)
Definition find_second (nhits first : Z) : prog Z :=
  for_each (range 0 nhits) (fun i second =>
      if i =? first then ret second
      else if second <? 0 then ret i
      else touch hit_t i ;;; touch hit_t second ;;; c <- ask ;; ret (if c : bool then i else second)) (-1).
(** 698-706 *)
Definition find_container (s : setting) (nh : Z -> Z) : prog Z :=
  for_each (range 0 (n_nodes s)) (fun node container =>
      touch node_hits node ;;;
      if nh node =? 1 then touch node_min_t node ;;; c <- ask ;; (if c : bool then touch node_min_t node ;;; ret node else ret container)
      else ret container) (-1).

(** 747-755 and 771-783: the absorption spectra of the components cbase .. cbase + ccount - 1 *)
Definition coefficient (mem : memory) (comp : Z) : prog unit :=
  start <- read mem abs_start comp ;;
  n <- read mem abs_n comp ;;
  interp_clamped abs_x abs_y start n.
(** 742-757 (whether depth < t0).  alpha is 0.0 when there are no components, and the depth is then
    INFINITY, which is not less than any t0. *)
Definition absorbed_before (mem : memory) (cbase ccount : Z) : prog bool :=
  for_each (range 0 ccount) (fun k _ => coefficient mem (cbase + k)) tt ;;;
  attenuating <- (if 0 <? ccount then ask else ret false) ;;
  if (attenuating : bool) then ask else ret false.
(** 768-784; [found] is the break *)
Definition select_component (mem : memory) (cbase ccount : Z) : prog Z :=
  r <- for_each (range 0 ccount) (fun k (acc : Z * bool) =>
         let '(comp, found) := acc in
         if found then ret acc
         else coefficient mem (cbase + k) ;;; c <- ask ;; ret (if c : bool then (cbase + k, true) else (comp, false))) (cbase, false) ;;
  ret (fst r).

(** What a pass of the loop returns: None = break, Some nevents = continue *)
(** 786-837.  COMP_SCATTERER = 1, COMP_LUMINOPHORE = 2, EMIT_FULL = 2 *)
Definition absorb (mem : memory) (s : setting) (tid base container cbase ccount nevents : Z) : prog (option Z) :=
  comp <- select_component mem cbase ccount ;;
  nevents <- record s base nevents ;;
  ctype <- read mem comp_type comp ;;
  radiative <- (if (ctype =? 1) || (ctype =? 2) then touch comp_qy comp ;;; ask else ret false) ;;
  if radiative : bool then
    touch comp_phase_type comp ;;; touch comp_phase_param comp ;;;
    (if ctype =? 2 then
       start <- read mem ems_start comp ;;
       n <- read mem ems_n comp ;;
       (if emit_method s =? 2 then ret tt else interp_clamped ems_x ems_cdf start n) ;;;
       interp_clamped ems_cdf ems_x start n ;;;
       touch comp_tau_rad comp ;;;
       c <- ask ;; if c : bool then touch comp_tau_rad comp else ret tt
     else ret tt) ;;;
    nevents <- record s base nevents ;;
    ret (Some nevents)
  else
    touch comp_tau_nr comp ;;;
    c <- ask ;;
    (if c : bool then touch comp_tau_nr comp else ret tt) ;;;
    record s base nevents ;;;
    (if 0 <? n_recorders s then transform_point w2l container ;;; tally mem s tid false else ret tt) ;;;
    ret None.

(** 839-895 *)
Definition surface (mem : memory) (s : setting) (tid base hit container adjacent nevents : Z) : prog (option Z) :=
  if adjacent <? 0 then record s base nevents ;;; ret None
  else
    transform_point w2l hit ;;; local_normal mem hit ;;; transform_vector l2w hit ;;;
    st <- read mem surf_type hit ;;
    (if st =? 0 then touch nidx container ;;; touch nidx adjacent else ret tt) ;;;
    reflected <- ask ;;
    if reflected : bool then
      nevents <- record s base nevents ;;
      (if (0 <? n_recorders s) && negb (container =? hit) then tally mem s tid true else ret tt) ;;;
      ret (Some nevents)
    else
      touch surf_type hit ;;;
      nevents <- record s base nevents ;;
      (if 0 <? n_recorders s then tally mem s tid true else ret tt) ;;;
      ret (Some nevents).

(** 658-895: one pass with counter value [count] *)
Definition pass (mem : memory) (s : setting) (tid base count nevents : Z) : prog (option Z) :=
  hits <- find_hits mem s ;;
  let '(hits, nh) := hits in
  let nhits := Z.of_nat (length hits) in
  if nhits =? 0 then ret None
  else
    first <- find_first nhits ;;
    second <- find_second nhits first ;;
    touch hit_node first ;;; touch hit_t first ;;;
    let hit := nth (Z.to_nat first) hits 0 in
    ca <- (if nhits =? 1 then ret (hit, -1)
           else
             container <- find_container s nh ;;
             let container := if container <? 0 then hit else container in
             if container =? hit then touch hit_node second ;;; ret (container, nth (Z.to_nat second) hits 0)
             else ret (container, hit)) ;;
    let '(container, adjacent) := ca in
    if maxsteps s <? count then
      record s base nevents ;;;
      (if 0 <? n_recorders s then transform_point w2l container ;;; tally mem s tid false else ret tt) ;;;
      ret None
    else
      touch nidx container ;;;
      if hit =? root s then
        record s base nevents ;;;
        (if 0 <? n_recorders s
         then transform_point w2l hit ;;; local_normal mem hit ;;; transform_vector l2w hit ;;; tally mem s tid true
         else ret tt) ;;;
        ret None
      else
        cbase <- read mem comp_start container ;;
        ccount <- read mem comp_count container ;;
        absorbed <- absorbed_before mem cbase ccount ;;
        if (absorbed : bool) then absorb mem s tid base container cbase ccount nevents
        else surface mem s tid base hit container adjacent nevents.

(** 651-895; [fuel] bounds the number of passes looked at *)
Fixpoint loop (fuel : nat) (mem : memory) (s : setting) (tid base count nevents : Z) : prog Z :=
  match fuel with
  | O => ret nevents
  | S f =>
      let count := count + 1 in
      if (0 <=? base) && (max_events s - 1 <=? nevents) then record s base nevents
      else
        again <- pass mem s tid base count nevents ;;
        match again with Some nevents => loop f mem s tid base count nevents | None => ret nevents end
  end.
(** 624-626, 644-649 *)
Definition trace_one (fuel : nat) (mem : memory) (s : setting) (tid base : Z) : prog Z :=
  stores rseen (range 0 (n_recorders s)) ;;;
  nevents <- record s base 0 ;;
  loop fuel mem s tid base 0 nevents.
(** 1078-1096: ray i on thread tid; trace_one reads and writes its rows of pos_work and dir_work *)
Definition trace_ray (fuel : nat) (mem : memory) (s : setting) (tid i : Z) : prog unit :=
  let base := if (0 <? record_every s) && (i mod record_every s =? 0) then i / record_every s * max_events s else -1 in
  stores pos_work (row3 i) ;;; stores dir_work (row3 i) ;;; touch wav_work i ;;;
  trace_one fuel mem s tid base ;;;
  if 0 <=? base then store counts (i / record_every s) else ret tt.
