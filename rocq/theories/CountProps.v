(** C149: what "pvtrace-cli count" prints from the database of a simulation is what the compiled
    engine's recorders show for the same rays. *)
From Coq Require Import Reals Lra Lia List Bool Arith Permutation.
From Verif Require Import Base Vec Interp DistModel DistProofs MaterialModel MaterialSpec OpticsModel TransformModel GeomModel TracerModel TracerProofs TracerProps
  KernelModel KernelProofs KernelSim KernelProps BundleModel LogProps TallyModel TallyProofs TallyProps
  CompilerModel CompilerProofs CompilerProps CliModel CliProofs CliProps EndModel EndProofs EndProps EndTallyProps.
Import ListNotations.
Open Scope R_scope.

(** The count of a query over the database that the Python tracer's histories were written to, by
    any number of processes running one task each and in any interleaving, with or without
    --end-rays, equals the rays of the recorder with the corresponding event, node and facet that
    the compiled engine fills for the same rays and random numbers. *)
Theorem C149_counts_agree_partial : forall mesh root T root_id rs ks rows total r node rc k max_events ms m tasks end_rays pool received_messages q f,
  exact_mesh mesh -> ready root -> compile_scene root = Some (T, root_id) ->
  NoDup (map (fun p => rec_name (snd p)) rs) ->
  kernel_tables rs = (ks, rows, total) -> nth_error rs r = Some (node, rc) -> nth_error ks r = Some k ->
  let S := python_scene mesh root in
  (forall t, In t tasks -> traceable S root ms m max_events t) ->
  one_task pool -> Permutation (map (python_history S ms m) tasks) (concat (concat pool)) ->
  received end_rays pool received_messages -> same_filter q f rc ->
  sql_count q node f (on_disk (monitor_queue received_messages)) =
  r_rays (engine_result rows k r
    (fold_left (fun A calls => tally_ray rows ks calls A)
       (map (fun t => tallies_of (run_task (read_scene T root_id) (Some max_events) ms m t)) tasks) acc0)).
Proof.
  intros mesh root T root_id rs ks rows total r node rc k b ms m tasks er pool msgs q f M Rd C Hnd Et Hr Hk S Ht H1 Hp Hm Hf.
  destruct (C17_one_result_per_recorder (tally_scene S) rs (map (python_history S ms m) tasks) Hnd) as [_ G].
  destruct (G node rc (nth_error_In _ _ Hr)) as (s & Hs & _).
  rewrite (C25_counts_agree_partial er pool msgs _ (tally_scene S) rs node rc s q f H1 Hm Hp Hnd Hs Hf).
  rewrite (C146_recorders_agree mesh root T root_id rs ks rows total r node rc k b ms m tasks s M Rd C Hnd Et Hr Hk Ht Hs). reflexivity.
Qed.
Print Assumptions C149_counts_agree_partial.

(** ** The glass ball, with a recorder of what escapes from it *)
Definition ball_recorder : nat * recorder := (1%nat, Recorder 0 Escaping None 0 []).
Definition ball_task := Task 5 (fun _ => mid_draws) start.

(** Two tasks run by one process: the rays of the second are taken for those of the first, and the
    count falls short of the compiled engine's. *)
Theorem C149_counts_agree_refuted : exists root T root_id ks rows total k tasks pool received_messages,
  ready root /\ compile_scene root = Some (T, root_id) /\
  kernel_tables [ball_recorder] = (ks, rows, total) /\ nth_error ks 0 = Some k /\
  let S := python_scene kernel_mesh root in
  (forall t, In t tasks -> traceable S root 7 KT 10 t) /\
  map (python_history S 7 KT) tasks = concat (concat pool) /\
  received false pool received_messages /\ same_filter QEscaping all_faces (snd ball_recorder) /\
  sql_count QEscaping 1 all_faces (on_disk (monitor_queue received_messages)) = 1%nat /\
  r_rays (engine_result rows k 0
    (fold_left (fun A calls => tally_ray rows ks calls A)
       (map (fun t => tallies_of (run_task (read_scene T root_id) (Some 10%nat) 7 KT t)) tasks) acc0)) = 2%nat.
Proof.
  destruct ball_compiles as [T C].
  destruct (kernel_tables [ball_recorder]) as [[ks rows] total] eqn:Et.
  destruct (nth_error ks 0) as [k|] eqn:Hk; [|vm_compute in Et; injection Et as <- _ _; discriminate].
  set (h := python_history ball_scene 7 KT ball_task).
  set (pool := [[[h]; [h]]]).
  exists ball_tree, T, 0%nat, ks, rows, total, k, [ball_task; ball_task], pool, (in_turn false pool).
  assert (Hnd : NoDup (map (fun p : nat * recorder => rec_name (snd p)) [ball_recorder])) by (constructor; [easy|constructor]).
  assert (Htr : forall t, In t [ball_task; ball_task] -> traceable ball_scene ball_tree 7 KT 10 t) by (intros t [<-|[<-|[]]]; exact ball_traceable).
  assert (Hf : same_filter QEscaping all_faces (snd ball_recorder)) by (repeat split).
  destruct (ball_history 3) as [Eh _]. cbn [Nat.add] in Eh. fold ball_task in Eh. fold h in Eh. clearbody h.
  split; [exact ball_ready|]. split; [exact C|]. split; [reflexivity|]. split; [exact Hk|]. split; [exact Htr|].
  split.
  { assert (E' : h = python_history (python_scene kernel_mesh ball_tree) 7 KT ball_task).
    { rewrite Eh. symmetry. apply (ball_history 3). }
    cbn [map]. rewrite <- E'. reflexivity. }
  split; [apply in_turn_received|]. split; [exact Hf|]. split.
  - subst pool. rewrite Eh. unfold on_disk. rewrite count_keys. reflexivity.
  - destruct (C17_one_result_per_recorder (tally_scene ball_scene) [ball_recorder] (map (python_history ball_scene 7 KT) [ball_task; ball_task]) Hnd) as [_ G].
    destruct (G 1%nat (snd ball_recorder) (or_introl eq_refl)) as (s & Hs & _).
    rewrite (C146_recorders_agree kernel_mesh ball_tree T 0 [ball_recorder] ks rows total 0 1%nat (snd ball_recorder) k 10 7 KT _ s kernel_mesh_exact ball_ready C Hnd Et eq_refl Hk Htr Hs).
    cbn [state_result r_rays].
    destruct (C17_recorder_counts (tally_scene ball_scene) [ball_recorder] _ 1%nat (snd ball_recorder) s (counted QEscaping 1 all_faces) Hnd Hs) as [-> _].
    { intros e. apply counted_spec. exact Hf. }
    cbn [map]. change (python_history ball_scene 7 KT ball_task) with (fst (step_forward 5 ball_scene 7 None KT (fun _ => mid_draws) start)).
    destruct (ball_history 3) as [E' _]. unfold python_history in E'. cbn [Nat.add tk_fuel tk_draws tk_ray] in E'. rewrite E'. reflexivity.
Qed.
Print Assumptions C149_counts_agree_refuted.

(** Two processes with a task each: both count two. *)
Example C149_example : exists T, compile_scene ball_tree = Some (T, 0%nat) /\ forall ks rows total k,
  kernel_tables [ball_recorder] = (ks, rows, total) -> nth_error ks 0 = Some k ->
  let h := python_history ball_scene 7 KT ball_task in
  let pool := [[[h]]; [[h]]] in
  one_task pool /\ received true pool (in_turn true pool) /\
  sql_count QEscaping 1 all_faces (on_disk (monitor_queue (in_turn true pool))) = 2%nat /\
  r_rays (engine_result rows k 0
    (fold_left (fun A calls => tally_ray rows ks calls A)
       (map (fun t => tallies_of (run_task (read_scene T 0) (Some 10%nat) 7 KT t)) [ball_task; ball_task]) acc0)) = 2%nat.
Proof.
  destruct ball_compiles as [T C]. exists T. split; [exact C|]. intros ks rows total k Et Hk. cbv zeta.
  set (h := python_history ball_scene 7 KT ball_task). set (pool := [[[h]]; [[h]]]).
  assert (O : one_task pool) by (intros [|[|p]] ts; simpl; [intros [= <-]; simpl; lia|intros [= <-]; simpl; lia|destruct p; discriminate]).
  assert (Hnd : NoDup (map (fun p : nat * recorder => rec_name (snd p)) [ball_recorder])) by (constructor; [easy|constructor]).
  split; [exact O|]. split; [apply in_turn_received|].
  rewrite <- (C149_counts_agree_partial kernel_mesh ball_tree T 0 [ball_recorder] ks rows total 0 1%nat (snd ball_recorder) k 10 7 KT [ball_task; ball_task] true pool (in_turn true pool) QEscaping all_faces
    kernel_mesh_exact ball_ready C Hnd Et eq_refl Hk).
  - assert (Q : sql_count QEscaping 1 all_faces (on_disk (monitor_queue (in_turn true pool))) = 2%nat); [|now split].
    destruct (ball_history 3) as [Eh _]. cbn [Nat.add] in Eh. fold ball_task in Eh. fold h in Eh. clearbody h.
    subst pool. rewrite Eh. unfold on_disk. rewrite count_keys. reflexivity.
  - intros t [<-|[<-|[]]]; exact ball_traceable.
  - exact O.
  - apply Permutation_refl.
  - apply in_turn_received.
  - repeat split.
Qed.
