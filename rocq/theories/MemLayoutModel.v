(** The arrays that trace_bundle (_kernel.pyx 899-1096) hands to trace_one: lengths and integer
    contents, from the tables of CompilerModel.v and TallyModel.v. *)
From Coq Require Import Reals ZArith List Bool.
From Verif Require Import Base Vec TransformModel TracerModel KernelModel TallyModel CompilerModel MemModel.
Import ListNotations.
Open Scope Z_scope.

Definition len {A} (l : list A) : Z := Z.of_nat (List.length l).
Definition ints {A} (f : A -> Z) (l : list A) (i : Z) : Z := nth (Z.to_nat i) (map f l) 0.

(** The arguments of trace_bundle *)
Record call := Call { b_rays : Z; b_maxsteps : Z; b_max_events : Z; b_emit_method : Z; b_threads : Z; b_record_every : Z }.
(** 922-925 *)
Definition n_recorded (c : call) : Z := if 0 <? b_record_every c then (b_rays c + b_record_every c - 1) / b_record_every c else 0.
(** 1013: nthr = max(1, num_threads) *)
Definition nthr (c : call) : Z := Z.max 1 (b_threads c).

(** recorder.py 34-42 *)
Definition property_id (p : prop) : Z :=
  match p with PWavelength => 0 | PAngle => 1 | PDuration => 2 | PPathlength => 3 | PX => 4 | PY => 5 | PZ => 6 end.

Section Layout.
Variables (T : tables) (root_id : nat) (ks : list krec) (hrows : list hrow) (total : nat) (c : call).

(** Lengths: the local arrays 628-640, compiler.py 75-131 and 159-204, trace_bundle 1012-1068.
    Two-dimensional arrays are flat. *)
Definition layout_len (a : array) : Z :=
  match a with
  | hit_t | hit_node => MAX_HITS
  | node_hits | node_min_t => MAX_NODES
  | ts => 8
  | cand => 4
  | rseen => MAX_RECORDERS
  | geom_type => len (t_geom_type T)
  | geom_params => len (List.concat (t_geom_params T))
  | l2w => len (t_l2w T) * 16
  | w2l => len (CompilerModel.t_w2l T) * 16
  | nidx => len (t_index T)
  | surf_type => len (t_surf T)
  | comp_start => len (t_comp_start T)
  | comp_count => len (t_comp_count T)
  | comp_type | comp_qy | comp_tau_rad | comp_tau_nr | comp_phase_type | comp_phase_param
  | abs_start | abs_n | ems_start | ems_n => len (t_rows T)
  | abs_x => len (t_abs_x T)
  | abs_y => len (t_abs_y T)
  | ems_x => len (t_ems_x T)
  | ems_cdf => len (t_ems_cdf T)
  | rec_node | rec_event | rec_has_facet | rec_atol | rec_hist_start | rec_hist_n => len ks
  | rec_facet => Z.max (len ks) 1 * 3
  | h_prop_a | h_prop_b | h_na | h_nb | h_lo_a | h_hi_a | h_lo_b | h_hi_b | h_offset => len hrows
  | distinct | cross => nthr c * Z.max 1 (len ks)
  | sums => nthr c * (Z.max 1 (len ks) * 8)
  | bins => nthr c * Z.max 1 (Z.of_nat total)
  | ev_position | ev_direction | ev_normal => n_recorded c * b_max_events c * 3
  | ev_kind | ev_hit | ev_container | ev_adjacent | ev_component | ev_source
  | ev_wavelength | ev_travelled | ev_duration => n_recorded c * b_max_events c
  | pos_work | dir_work => b_rays c * 3
  | wav_work => b_rays c
  | counts => Z.max (n_recorded c) 1
  end.
Definition layout_int (a : array) : Z -> Z :=
  match a with
  | geom_type => ints Z.of_nat (t_geom_type T)
  | surf_type => ints Z.of_nat (t_surf T)
  | comp_start => ints Z.of_nat (t_comp_start T)
  | comp_count => ints Z.of_nat (t_comp_count T)
  | comp_type => ints (fun r => Z.of_nat (r_type r)) (t_rows T)
  | abs_start => ints (fun r => Z.of_nat (r_abs_start r)) (t_rows T)
  | abs_n => ints (fun r => Z.of_nat (r_abs_n r)) (t_rows T)
  | ems_start => ints (fun r => Z.of_nat (r_ems_start r)) (t_rows T)
  | ems_n => ints (fun r => Z.of_nat (r_ems_n r)) (t_rows T)
  | rec_hist_start => ints (fun k => Z.of_nat (kr_start k)) ks
  | rec_hist_n => ints (fun k => Z.of_nat (kr_n k)) ks
  | h_prop_b => ints (fun h => match hr_b h with Some b => property_id (h_prop b) | None => -1 end) hrows
  | h_na => ints (fun h => Z.of_nat (hr_na h)) hrows
  | h_nb => ints (fun h => Z.of_nat (hr_nb h)) hrows
  | h_offset => ints (fun h => Z.of_nat (hr_offset h)) hrows
  | _ => fun _ => 0
  end.
Definition layout : memory := Memory layout_len layout_int.
(** 953-1010 *)
Definition scalars : setting :=
  Setting (len (t_geom_type T)) (Z.of_nat root_id) (len ks) (Z.of_nat total) (b_max_events c) (b_record_every c) (b_maxsteps c) (b_emit_method c).
End Layout.

(** trace_bundle after compile_scene: None = an exception before any ray is traced.
    compiler.py 149-152: at most MAX_RECORDERS recorders; _kernel.pyx 927-928: at most MAX_NODES
    nodes; np.zeros refuses a negative number of rows (1026-1037). *)
Definition trace_bundle (scene : stree) (rs : list (nat * recorder)) (c : call) : option (memory * setting) :=
  match compile_scene scene with
  | None => None
  | Some (T, root_id) =>
      if MAX_RECORDERS <? len rs then None
      else
        let '(ks, hrows, total) := compile_recorders rs 0 0 in
        if MAX_NODES <? len (t_geom_type T) then None
        else if n_recorded c * b_max_events c <? 0 then None
        else Some (layout T ks hrows total c, scalars T root_id ks total c)
  end.
