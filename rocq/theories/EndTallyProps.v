(** C146: the recorders of a scene show the same results whichever engine traced the rays. *)
From Coq Require Import Reals Lra Lia Psatz List Bool Arith String.
From Verif Require Import Base Vec Interp DistModel DistProofs MaterialModel MaterialSpec OpticsModel TransformModel TransformProofs GeomModel GeomProofs TracerModel TracerProofs TracerProps
  KernelModel KernelProofs KernelSim KernelProps BundleModel LogProps TallyModel TallyProofs TallyProps
  CompilerModel CompilerProofs CompilerProps EndModel EndProofs EndProps.
Import ListNotations.
Open Scope R_scope.

(** engine/tally.py 117, 123-126, 145: the node's frame, and the outward normal at an exit point,
    geometry.normal(local point) turned into the world; a GeometryError is excluded below. *)
Definition tally_scene (S : scene) : tscene :=
  TScene (fun n => to_point (w2l S n))
    (fun n p => match normal_of S n (to_point (w2l S n) p) with Some v => to_vector (l2w S n) v | None => vzero end).

Definition python_history (S : scene) (ms : nat) (m : emit_method) (t : task) : list event :=
  fst (step_forward (tk_fuel t) S ms None m (tk_draws t) (tk_ray t)).

(** A ray that the Python tracer follows without an exception, ordinary (C138) at every step,
    with a history that fits in the event log and a normal at the point where it leaves. *)
Record traceable (S : scene) (root : stree) (ms : nat) (m : emit_method) (max_events : nat) (t : task) : Prop := {
  tr_draws : forall i, wf_draws (tk_draws t i) /\ 0 < u_comp (tk_draws t i) /\ 0 < u_wl (tk_draws t i);
  tr_unit : is_unit (direction (tk_ray t));
  tr_ordinary : forall i r, reaches S ms m (tk_draws t) (tk_ray t) i r -> ordinary S root (tk_draws t (Datatypes.S i)) r;
  tr_status : snd (step_forward (tk_fuel t) S ms None m (tk_draws t) (tk_ray t)) <> Raised;
  tr_fits : (List.length (python_history S ms m t) + 1 < max_events)%nat;
  tr_exit : forall e n, In e (python_history S ms m t) -> e_kind e = EXIT -> e_hit e = Some n ->
    normal_of S n (to_point (w2l S n) (position (e_ray e))) <> None }.

Lemma pass_kill S ms mp m u count r evs e :
  (pass S ms mp m u count r = Stop evs \/ pass S ms mp m u count r = Raise evs \/ exists r', pass S ms mp m u count r = Continue evs r') ->
  In e evs -> e_kind e = KILL -> e_hit e = None.
Proof.
  intros H Hin Hk. pose proof (pass_within S ms mp m u count r) as P. destruct (_ || _).
  - destruct P as [P|[P|(c & P)]]; rewrite P in H; destruct H as [H|[H|(r' & H)]]; try discriminate; injection H as <-; try contradiction.
    destruct Hin as [<-|[]]. reflexivity.
  - exfalso. apply (P evs H). unfold kinds. apply in_map_iff. exists e. auto.
Qed.
Lemma loop_kill S ms mp m us : forall fuel count r e,
  In e (fst (loop fuel S ms mp m us count r)) -> e_kind e = KILL -> e_hit e = None.
Proof.
  induction fuel as [|fuel IH]; intros count r e H Hk; [destruct H|]. cbn [loop] in H.
  destruct (pass _ _ _ _ _ _ _) as [evs|evs|evs r'] eqn:P; cbn [fst] in H.
  - apply (pass_kill _ _ _ _ _ _ _ evs e (or_introl P) H Hk).
  - apply (pass_kill _ _ _ _ _ _ _ evs e (or_intror (or_introl P)) H Hk).
  - destruct (loop fuel S ms mp m us (Datatypes.S count) r') as [rest st] eqn:L. cbn [fst] in H. apply in_app_or in H. destruct H as [H|H].
    + apply (pass_kill _ _ _ _ _ _ _ evs e (or_intror (or_intror (ex_intro _ r' P))) H Hk).
    + apply (IH (Datatypes.S count) r' e); [|exact Hk]. rewrite L. exact H.
Qed.

(** The histories of the Python tracer have two different nodes at every surface. *)
Lemma history_two_sided S fuel ms m us r : wf_scene S -> (forall i, wf_draws (us i)) -> is_unit (direction r) ->
  Forall two_sided (fst (step_forward fuel S ms None m us r)).
Proof.
  intros W Hu Hd. apply Forall_forall. intros e He. split.
  - intros Hk Heq. destruct (e_container e) as [c|] eqn:Ec.
    + symmetry in Heq. assert (Hk' : e_kind e = REFLECT \/ e_kind e = TRANSMIT) by tauto.
      exact (C07_events_separate_two_nodes fuel S ms None m us r e c c W Hu Hd He Ec Heq Hk' eq_refl).
    + clear Heq. apply in_split in He. destruct He as (pre & post & H). destruct pre as [|e0 pre] using rev_ind.
      * unfold step_forward in H. destruct (loop fuel S ms None m us 0 r). cbn in H. injection H as <- _. destruct Hk; discriminate.
      * rewrite <- app_assoc in H. cbn [app] in H.
        destruct (C03_flights_follow_next_hit fuel S ms None m us r pre e0 e post W Hu Hd H) as (h & c' & a' & D & _ & Ec' & _).
        { destruct Hk as [-> | ->]; reflexivity. }
        congruence.
  - intros Hk. unfold step_forward in He. destruct (loop fuel S ms None m us 0 r) as [evs st] eqn:L. cbn [fst] in He.
    destruct He as [<-|He]; [discriminate|]. apply (loop_kill S ms None m us fuel 0 r e); [|exact Hk]. rewrite L. exact He.
Qed.

(** Every recorder of a scene - its rays, crossings, moments and bins - has in the compiled
    engine the result that tally_histories computes from the Python tracer's histories of the
    same rays. *)
Theorem C146_recorders_agree : forall mesh root T root_id rs ks rows total r node rc k max_events ms m tasks s,
  exact_mesh mesh -> ready root -> compile_scene root = Some (T, root_id) ->
  NoDup (map (fun p => rec_name (snd p)) rs) ->
  kernel_tables rs = (ks, rows, total) -> nth_error rs r = Some (node, rc) -> nth_error ks r = Some k ->
  let S := python_scene mesh root in
  (forall t, In t tasks -> traceable S root ms m max_events t) ->
  In (node, rc, s) (tally_histories (tally_scene S) rs (map (python_history S ms m) tasks)) ->
  engine_result rows k r
    (fold_left (fun A calls => tally_ray rows ks calls A)
       (map (fun t => tallies_of (run_task (read_scene T root_id) (Some max_events) ms m t)) tasks) acc0) = state_result s.
Proof.
  intros mesh root T root_id rs ks rows total r node rc k b ms m tasks s M Rd C Hnd Et Hr Hk S Ht Hin. pose proof (rd_usable _ Rd) as R.
  set (K := kernel_scene root).
  assert (W : wf_scene S) by exact (tree_wf mesh root R).
  assert (Hb : tasks = [] \/ (1 <= b)%nat).
  { destruct tasks as [|t l]; [now left|]. right. pose proof (tr_fits _ _ _ _ _ _ (Ht t (or_introl eq_refl))). lia. }
  assert (E : forall t, In t tasks -> log_of (run_task K (Some b) ms m t) = python_history S ms m t /\
     run_task (read_scene T root_id) (Some b) ms m t = run_task K (Some b) ms m t).
  { intros t H. specialize (Ht t H). unfold python_history, run_task. pose proof (tr_fits _ _ _ _ _ _ Ht) as Hf. unfold python_history in Hf.
    destruct (step_forward (tk_fuel t) S ms None m (tk_draws t) (tk_ray t)) as [evs st] eqn:Es. cbn [fst] in *.
    pose proof (tables_within mesh root T root_id R C (tk_fuel t) (Some b) ms m (tk_draws t) (tk_ray t)) as Q. split; [|exact Q].
    destruct (C138_same_history mesh root T root_id (tk_fuel t) ms m (tk_draws t) (tk_ray t) b evs st M Rd C
      (tr_draws _ _ _ _ _ _ Ht) (tr_unit _ _ _ _ _ _ Ht) (tr_ordinary _ _ _ _ _ _ Ht) Es) as (ts & kst & Ek & _).
    - pose proof (tr_status _ _ _ _ _ _ Ht) as X. rewrite Es in X. exact X.
    - exact Hf.
    - rewrite Q in Ek. fold K in Ek. rewrite Ek. reflexivity. }
  rewrite (map_ext_in _ (fun t => tallies_of (run_task K (Some b) ms m t))) by (intros t H; now rewrite (proj2 (E t H))).
  rewrite <- (map_map (run_task K (Some b) ms m) tallies_of).
  rewrite (map_ext_in (python_history S ms m) (fun t => log_of (run_task K (Some b) ms m t))) in Hin by (intros t H; now rewrite (proj1 (E t H))).
  rewrite <- (map_map (run_task K (Some b) ms m) log_of) in Hin.
  assert (G : forall b', (1 <= b')%nat -> map (run_task K (Some b') ms m) tasks = map (run_task K (Some b) ms m) tasks ->
    engine_result rows k r (fold_left (fun A calls => tally_ray rows ks calls A) (map tallies_of (map (run_task K (Some b) ms m) tasks)) acc0) = state_result s).
  { intros b' Hb' Eb. rewrite <- Eb in Hin |- *.
    apply (C18_tallies_agree_partial (tally_scene S) K rs ks rows total r node rc k b' ms m tasks s Hnd Et Hr Hk Hb'); [|exact Hin].
    rewrite Eb. intros x Hx. apply in_map_iff in Hx. destruct Hx as (t & <- & H). rewrite (proj1 (E t H)). specialize (Ht t H).
    assert (Hu : forall i, wf_draws (tk_draws t i)) by (intros i; apply (tr_draws _ _ _ _ _ _ Ht)).
    split; [split|].
    - reflexivity.
    - intros e n He Hx Hn. pose proof (tr_exit _ _ _ _ _ _ Ht e n He Hx Hn) as Hne. cbn [tally_scene t_normal].
      destruct (normal_of S n (to_point (w2l S n) (position (e_ray e)))) as [v|] eqn:Ev; [|congruence].
      destruct (normal_unit mesh root R n _ v Ev) as [<- _]. reflexivity.
    - exact (history_two_sided S _ ms m _ _ W Hu (tr_unit _ _ _ _ _ _ Ht)). }
  destruct Hb as [-> |Hb]; [apply (G 1%nat); [lia|reflexivity]|apply (G b); [exact Hb|reflexivity]].
Qed.
Print Assumptions C146_recorders_agree.

(** ** The glass ball: the photon that leaves the world is counted by both *)
Lemma ball_history fuel : python_history ball_scene 7 KT (Task (2 + fuel) (fun _ => mid_draws) start) =
    [Event GENERATE start None None None None None; Event TRANSMIT after (Some 1%nat) (Some 1%nat) (Some 0%nat) None (Some (V 1 0 0));
      Event EXIT outside (Some 0%nat) (Some 0%nat) None None None] /\
  snd (step_forward (2 + fuel) ball_scene 7 None KT (fun _ => mid_draws) start) = Done.
Proof. unfold python_history, step_forward. cbn [tk_fuel tk_draws tk_ray Nat.add loop]. rewrite ball_pass1, ball_pass2. now split. Qed.
Lemma ball_traceable : traceable ball_scene ball_tree 7 KT 10 (Task 5 (fun _ => mid_draws) start).
Proof.
  destruct (ball_history 3) as [E Es]. cbn [Nat.add] in E, Es.
  assert (Hr : forall i r, reaches ball_scene 7 KT (fun _ => mid_draws) start i r -> (i = 0%nat /\ r = start) \/ (i = 1%nat /\ r = after)).
  { intros i r H. induction H as [|i r evs r' _ [[-> ->]|[-> ->]] P]; [now left| |].
    - right. split; [reflexivity|]. rewrite ball_pass1 in P. injection P as _ <-. reflexivity.
    - rewrite ball_pass2 in P. discriminate. }
  split; cbn [tk_fuel tk_draws tk_ray].
  - intros _. unfold wf_draws, mid_draws; simpl. lra.
  - unfold is_unit, dot; simpl; ring.
  - intros i r H. destruct (Hr i r H) as [[_ ->]|[_ ->]]; apply ball_ordinary; auto; intros h c a D.
    + change (next_hit ball_scene start) with (next_hit glass start). rewrite glass_hits0. intros [= _ _ _ <-]. simpl. lra.
    + change (next_hit ball_scene after) with (next_hit glass after). rewrite glass_hits1. intros [= _ _ _ <-]. simpl. lra.
  - rewrite Es. discriminate.
  - rewrite E. cbn. lia.
  - rewrite E. intros e n [<-|[<-|[<-|[]]]]; try discriminate. intros _ [= <-].
    change (normal_of ball_scene 0) with (of_node ball_tree (fun _ => None) (fun n _ p => py_normal (p_geometry n) p) 0).
    change (w2l ball_scene 0) with (of_node ball_tree rid (fun n _ => ainv (p_to_root n)) 0).
    rewrite !(proj1 (ball_at _ _)). cbn [p_to_root p_geometry py_normal e_ray outside position]. rewrite ainv_rid, to_point_rid.
    unfold sphere_normal, unit_vector. rewrite norm_axis. destruct (Reqb_spec (Rabs 10) 0) as [Q|Q]; [rewrite Rabs_right in Q; lra|discriminate].
Qed.

Definition world_recorder : nat * recorder := (0%nat, exit_recorder).
Example C146_example : exists T, compile_scene ball_tree = Some (T, 0%nat) /\ forall ks rows total k,
  kernel_tables [world_recorder] = (ks, rows, total) -> nth_error ks 0 = Some k ->
  let calls := tallies_of (run_task (read_scene T 0) (Some 10%nat) 7 KT (Task 5 (fun _ => mid_draws) start)) in
  exists s, engine_result rows k 0 (tally_ray rows ks calls acc0) = state_result s /\ s_rays s = 1%nat /\ s_cross s = 1%nat.
Proof.
  destruct ball_compiles as [T C]. exists T. split; [exact C|]. intros ks rows total k Et Hk calls.
  set (t := Task 5 (fun _ => mid_draws) start) in *.
  assert (Hnd : NoDup (map (fun p : nat * recorder => rec_name (snd p)) [world_recorder])) by (constructor; [easy|constructor]).
  destruct (ball_history 3) as [Eh _]. cbn [Nat.add] in Eh. fold t in Eh.
  eexists. split.
  - apply (C146_recorders_agree kernel_mesh ball_tree T 0 [world_recorder] ks rows total 0 0%nat exit_recorder k 10 7 KT [t] _
      kernel_mesh_exact ball_ready C Hnd Et eq_refl Hk).
    + intros t' [<-|[]]. exact ball_traceable.
    + rewrite tally_histories_spec by exact Hnd. left. reflexivity.
  - assert (Hn : t_normal (tally_scene ball_scene) 0 (position outside) = V 1 0 0).
    { cbn [tally_scene t_normal]. change (normal_of ball_scene 0) with (of_node ball_tree (fun _ => None) (fun n _ p => py_normal (p_geometry n) p) 0).
      change (w2l ball_scene 0) with (of_node ball_tree rid (fun n _ => ainv (p_to_root n)) 0). change (l2w ball_scene 0) with (of_node ball_tree rid (fun n _ => p_to_root n) 0).
      rewrite !(proj1 (ball_at _ _)). cbn [p_to_root p_geometry py_normal outside position]. rewrite ainv_rid, to_point_rid.
      unfold sphere_normal, unit_vector. rewrite norm_axis, Rabs_right by lra. destruct (Reqb_spec 10 0) as [Q|Q]; [lra|].
      rewrite to_vector_rid. apply vec_eq; simpl; field. }
    change (python_scene kernel_mesh ball_tree) with ball_scene. cbn [map]. rewrite Eh. set (T' := tally_scene ball_scene) in *. clearbody T'.
    set (log := [_; _; _]).
    assert (Ms : slot_matches T' 0 exit_recorder (Event EXIT outside (Some 0%nat) (Some 0%nat) None None None) = true).
    { apply slot_matches_spec. split; [split; reflexivity|]. intros f [= <-]. exists (V 1 0 0). split; [cbn; f_equal; exact Hn|].
      simpl. replace (1 - 1) with 0 by lra. replace (0 - 0) with 0 by lra. rewrite Rabs_R0. lra. }
    assert (Mv : List.length (match_values T' 0 exit_recorder None log) = 1%nat).
    { unfold log. cbn [match_values]. rewrite Ms. reflexivity. }
    destruct (slot_result T' 0 exit_recorder [log]) as (E1 & E2 & _). rewrite E1, E2. unfold recorded. cbn [map flat_map]. rewrite app_nil_r.
    destruct (match_values T' 0 exit_recorder None log) as [|v [|]]; try discriminate. split; reflexivity.
Qed.
