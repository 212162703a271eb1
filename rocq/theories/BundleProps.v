(** C12, C13 and the bundle part of C10: parallel runs of trace_bundle and the event log. *)
From Coq Require Import Reals Lra ZArith List Bool Arith Lia Permutation.
From Verif Require Import Base Vec DistModel MaterialModel OpticsModel PhaseModel TransformModel TracerModel TracerProps KernelModel KernelProofs
  LogProofs LogProps TallyModel RngModel BundleModel BundleProofs.
Import ListNotations.
Open Scope nat_scope.

(** The results that do not depend on the schedule: the log with its counts and the tallies
    summed over the threads. *)
Definition same_results (M : memory) (n : nat) (M' : memory) (n' : nat) : Prop :=
  (forall row, m_log M row = m_log M' row) /\ (forall j, m_counts M j = m_counts M' j) /\
  (forall i, a_distinct (merged n M) i = a_distinct (merged n' M') i) /\ (forall i, a_cross (merged n M) i = a_cross (merged n' M') i) /\
  (forall i, a_bins (merged n M) i = a_bins (merged n' M') i) /\ (forall i, a_sums (merged n M) i = a_sums (merged n' M') i).

(** Any two executions, with any numbers of threads, any distribution of the rays over the
    threads and any interleaving of their writes, end with the same results.  (The sums
    are real numbers here; adding floats in another order can change the last bits.) *)
Theorem C12_schedule_independent : forall J threads threads' M M',
  Permutation (concat threads) (seq 0 (length (j_rays J))) -> Permutation (concat threads') (seq 0 (length (j_rays J))) ->
  executes J threads M -> executes J threads' M' ->
  same_results M (length threads) M' (length threads').
Proof.
  intros J th th' M M' D D' E E'.
  destruct (acc_eq_trans _ _ _ (merged_sequential J th M D E) (acc_eq_sym _ _ (merged_sequential J th' M' D' E'))) as (H1 & H2 & H3 & H4).
  split; [intros; now rewrite (executed_log J th M D E), (executed_log J th' M' D' E')|].
  split; [intros; now rewrite (executed_counts J th M D E), (executed_counts J th' M' D' E')|]. auto.
Qed.
Print Assumptions C12_schedule_independent.

(** They are the results of tracing ray after ray in one thread: the accumulators are those
    of the theorems on recorders (C17 to C22). *)
Theorem C12_sequential : forall J threads M,
  Permutation (concat threads) (seq 0 (length (j_rays J))) -> executes J threads M ->
  let A := fold_left (fun A i => tally_ray (hrows J) (krecs J) (tallies_of (run_ray J i)) A) (seq 0 (length (j_rays J))) acc0 in
  (forall r k, engine_result (hrows J) k r (merged (length threads) M) = engine_result (hrows J) k r A) /\
  exists M1, executes J [seq 0 (length (j_rays J))] M1 /\ same_results M (length threads) M1 1.
Proof.
  intros J th M D E A. split.
  - intros r k. destruct (merged_sequential J th M D E) as (H1 & H2 & H3 & H4).
    unfold engine_result. rewrite H1, H2. f_equal.
    + apply map_ext. intros i. now rewrite !H3.
    + apply map_ext. intros h. unfold slice. apply map_ext. intros x. apply H4.
  - exists (fold_left (exec J) (flat_map (ray_steps J 0) (seq 0 (length (j_rays J)))) memory0).
    assert (E1 : executes J [seq 0 (length (j_rays J))] (fold_left (exec J) (flat_map (ray_steps J 0) (seq 0 (length (j_rays J)))) memory0)).
    { eexists. split; [|reflexivity]. unfold thread_steps. simpl. apply interleave_one. }
    split; [exact E1|]. apply (C12_schedule_independent J th [seq 0 (length (j_rays J))]); [exact D| |exact E|exact E1].
    simpl. now rewrite app_nil_r.
Qed.
Print Assumptions C12_sequential.

(** ** C13 *)
(** The rows of recorded rays lie inside the allocated log and never collide. *)
Theorem C13_rows_inside_and_disjoint : forall J i b k, i < length (j_rays J) -> base J i = Some b -> k < j_max_events J ->
  b + k < n_rows J /\ i / j_every J < n_recorded J /\
  forall i' b' k', base J i' = Some b' -> k' < j_max_events J -> b + k = b' + k' -> i = i' /\ k = k'.
Proof.
  intros J i b k Hi Hb Hk. apply base_some in Hb. destruct Hb as (He & Ei & ->).
  assert (Hs : i / j_every J < n_recorded J).
  { unfold n_recorded. destruct (Nat.ltb_spec 0 (j_every J)); [|lia]. apply Nat.lt_le_trans with (S (i / j_every J)); [lia|].
    apply Nat.div_le_lower_bound; [lia|]. set (x := i / j_every J) in *. nia. }
  split; [|split; [exact Hs|]].
  - unfold n_rows. nia.
  - intros i' b' k' Hb' Hk' E. apply base_some in Hb'. destruct Hb' as (_ & Ei' & ->).
    assert (Q : i / j_every J = i' / j_every J).
    { set (x := i / j_every J) in *. set (y := i' / j_every J) in *. destruct (Nat.lt_trichotomy x y) as [L|[L|L]]; [nia|exact L|nia]. }
    split; [rewrite Ei, Ei', Q; reflexivity|]. rewrite Q in E. lia.
Qed.
Print Assumptions C13_rows_inside_and_disjoint.

(** Slot j belongs to ray j * record_every; the slots are as many as the recorded rays. *)
Theorem C13_slots : forall J,
  n_recorded J = length (recorded_indices J) /\
  (forall i, In i (recorded_indices J) <-> i < length (j_rays J) /\ base J i <> None) /\
  (forall j i, nth_error (recorded_indices J) j = Some i -> i = j * j_every J).
Proof.
  intros J. destruct (Nat.eq_dec (j_every J) 0) as [E|E].
  - unfold n_recorded, recorded_indices, base. rewrite E. simpl. split; [reflexivity|]. split.
    + intros i. split; [intros []|]. intros [_ H]. now contradict H.
    + intros [|j]; discriminate.
  - split; [rewrite recorded_slots by lia; now rewrite map_length, seq_length|]. split.
    + intros i. unfold recorded_indices, base. destruct (Nat.leb_spec (j_every J) 0); [lia|]. destruct (Nat.ltb_spec 0 (j_every J)); [|lia].
      rewrite filter_In, in_seq. simpl. destruct (Nat.eqb (i mod j_every J) 0); split; intros [H1 H2]; split; try lia; congruence.
    + intros j i. rewrite recorded_slots by lia. intros H. assert (Hj : j < n_recorded J).
      { assert (L : nth_error (map (fun j => j * j_every J) (seq 0 (n_recorded J))) j <> None) by congruence.
        apply nth_error_Some in L. now rewrite map_length, seq_length in L. }
      rewrite nth_error_map, nth_error_seq in H by exact Hj. injection H as <-. reflexivity.
Qed.
Print Assumptions C13_slots.

(** histories() never fails and yields, slot by slot, exactly the events trace_one recorded
    for the ray of the slot, whatever the schedule. *)
Theorem C13_histories_decode : forall J threads M sources,
  Permutation (concat threads) (seq 0 (length (j_rays J))) -> executes J threads M ->
  (forall i r, nth_error (j_rays J) i = Some r -> exists l, source r = Light l /\ nth_error sources i = Some l) ->
  histories J sources M = Some (map (fun i => map entry_of (log_of (run_ray J i))) (recorded_indices J)).
Proof.
  intros J th M sources D E Hsrc. unfold histories.
  destruct (Nat.eq_dec (j_every J) 0) as [E0|E0].
  { unfold n_recorded, recorded_indices. rewrite E0. reflexivity. }
  rewrite recorded_slots by lia. rewrite map_map. apply all_some_map. intros j Hj. apply in_seq in Hj.
  destruct (slot_bound J j ltac:(lia) ltac:(lia)) as (Hr & Hb & Hq).
  rewrite nth_error_map, nth_error_seq by lia. simpl option_map.
  assert (Hc : m_counts M j = length (log_of (run_ray J (j * j_every J)))).
  { rewrite <- Hq at 1. apply (slot_count J th M _ D E Hr _ Hb). }
  rewrite Hc. set (log := log_of (run_ray J (j * j_every J))).
  destruct (Hsrc (j * j_every J) (ray_no J (j * j_every J))) as (l & Hl & Hn).
  { unfold ray_no. now apply nth_error_nth'. }
  assert (Ok : Forall (ok_event (j_scene J) l) log).
  { unfold log, run_ray. apply trace_events. exact Hl. }
  rewrite (all_some_map _ (fun k => entry_of (nth k log (Event GENERATE no_ray None None None None None)))).
  - f_equal. clear. induction log as [|e log IH]; [reflexivity|]. simpl. f_equal. rewrite <- seq_shift, map_map. exact IH.
  - intros k Hk. apply in_seq in Hk. assert (He : nth_error log k = Some (nth k log (Event GENERATE no_ray None None None None None))) by (apply nth_error_nth'; lia).
    rewrite (slot_log J th M _ k _ D E Hr _ Hb He). apply (decode_row _ _ _ l); [|exact Hn].
    rewrite Forall_forall in Ok. apply Ok. apply nth_In. lia.
Qed.
Print Assumptions C13_histories_decode.

(** event_counts() counts the events of the recorded rays by kind. *)
Lemma filter_list_prod {A B} (f : A -> B -> bool) la lb :
  length (filter (fun '(a, b) => f a b) (list_prod la lb)) = fold_right Nat.add 0 (map (fun a => length (filter (f a) lb)) la).
Proof.
  induction la as [|a la IH]; simpl; [reflexivity|]. rewrite filter_app, app_length, IH. f_equal.
  clear IH. induction lb as [|b lb IHb]; simpl; [reflexivity|]. destruct (f a b); simpl; now rewrite IHb.
Qed.
Lemma kind_code_eqb k k' : Nat.eqb (kind_code k) (kind_code k') = true <-> k = k'.
Proof. destruct k, k'; simpl; split; intros; congruence. Qed.
Definition same_kind (k : kind) (e : event) : bool := Nat.eqb (kind_code (e_kind e)) (kind_code k).

Theorem C13_event_counts : forall J threads M k,
  Permutation (concat threads) (seq 0 (length (j_rays J))) -> executes J threads M ->
  event_count J M k = length (filter (same_kind k) (flat_map (fun i => log_of (run_ray J i)) (recorded_indices J))).
Proof.
  intros J th M k D E. unfold event_count. rewrite (filter_list_prod (fun j c => _)).
  destruct (Nat.eq_dec (j_every J) 0) as [E0|E0].
  { unfold n_recorded, recorded_indices. rewrite E0. reflexivity. }
  rewrite recorded_slots by lia. rewrite flat_map_map'.
  assert (G : forall js, (forall j, In j js -> j < n_recorded J) ->
    fold_right Nat.add 0 (map (fun j => length (filter (fun c => (c <? m_counts M j) && Nat.eqb (w_kind (m_log M (j * j_max_events J + c))) (kind_code k)) (seq 0 (j_max_events J)))) js) =
    length (filter (same_kind k) (flat_map (fun j => log_of (run_ray J (j * j_every J))) js))).
  { induction js as [|j js IH]; intros H; simpl; [reflexivity|]. rewrite filter_app, app_length, <- IH by (intros; apply H; now right). f_equal.
    destruct (slot_bound J j ltac:(lia) (H j (or_introl eq_refl))) as (Hr & Hb & Hq).
    assert (Hc : m_counts M j = length (log_of (run_ray J (j * j_every J)))).
    { rewrite <- Hq at 1. apply (slot_count J th M _ D E Hr _ Hb). }
    assert (Hl : length (log_of (run_ray J (j * j_every J))) <= j_max_events J) by (apply logged_len; rewrite Hb; discriminate).
    pose proof (fun c e => slot_log J th M (j * j_every J) c e D E Hr _ Hb) as Hrow. unfold logged in Hrow. rewrite Hc.
    set (log := log_of (run_ray J (j * j_every J))) in *. set (o := j * j_max_events J) in *.
    replace (j_max_events J) with (length log + (j_max_events J - length log)) by lia. rewrite seq_app, filter_app, app_length.
    assert (Z : forall l, (forall c, In c l -> length log <= c) -> filter (fun c => (c <? length log) && Nat.eqb (w_kind (m_log M (o + c))) (kind_code k)) l = []).
    { induction l as [|c l IHl]; intros Hc'; [reflexivity|]. simpl. destruct (Nat.ltb_spec c (length log)); [specialize (Hc' c (or_introl eq_refl)); lia|].
      simpl. apply IHl. intros; apply Hc'; now right. }
    rewrite (Z (seq (0 + length log) _)) by (intros c Hc'; apply in_seq in Hc'; lia). simpl length at 2. rewrite Nat.add_0_r.
    clearbody log. clear Hc Hl Z.
    assert (G : forall pre suf, log = pre ++ suf ->
      length (filter (fun c => (c <? length log) && Nat.eqb (w_kind (m_log M (o + c))) (kind_code k)) (seq (length pre) (length suf))) = length (filter (same_kind k) suf)).
    { intros pre suf; revert pre. induction suf as [|e suf IHs]; intros pre El; [reflexivity|]. simpl.
      specialize (IHs (pre ++ [e])). rewrite app_length in IHs. simpl in IHs. rewrite Nat.add_1_r in IHs.
      rewrite <- app_assoc in IHs. specialize (IHs El).
      assert (Hn : nth_error log (length pre) = Some e) by (rewrite El, nth_error_app2, Nat.sub_diag by lia; reflexivity).
      rewrite (Hrow (length pre) e Hn). destruct (Nat.ltb_spec (length pre) (length log)) as [_|C]; [|rewrite El, app_length in C; simpl in C; lia].
      simpl. unfold same_kind at 1. destruct (Nat.eqb (kind_code (e_kind e)) (kind_code k)); simpl; now rewrite IHs. }
    apply (G [] log). reflexivity. }
  apply G. intros j Hj. apply in_seq in Hj. lia.
Qed.
Print Assumptions C13_event_counts.

(** ** C10 for a whole bundle *)
Definition with_recording (J : job) (every max_events : nat) : job :=
  Job (j_scene J) (j_recorders J) (j_rays J) (j_seed J) (j_streams J) (j_maxsteps J) max_events (j_method J) every.

(** If no ray runs out of its event budget, the tallies are the same for every record_every
    and max_events, and for every schedule. *)
Theorem C10_bundle_tallies_partial : forall J every max_events threads threads' M M',
  1 <= j_max_events J -> 1 <= max_events ->
  (forall i, i < length (j_rays J) -> status_of (run_ray J i) <> KBudget) ->
  (forall i, i < length (j_rays J) -> status_of (run_ray (with_recording J every max_events) i) <> KBudget) ->
  Permutation (concat threads) (seq 0 (length (j_rays J))) -> Permutation (concat threads') (seq 0 (length (j_rays J))) ->
  executes J threads M -> executes (with_recording J every max_events) threads' M' ->
  forall i, a_distinct (merged (length threads) M) i = a_distinct (merged (length threads') M') i /\
    a_cross (merged (length threads) M) i = a_cross (merged (length threads') M') i /\
    a_bins (merged (length threads) M) i = a_bins (merged (length threads') M') i /\
    a_sums (merged (length threads) M) i = a_sums (merged (length threads') M') i.
Proof.
  intros J every me th th' M M' H1 H1' B B' D D' E E' i.
  pose proof (merged_sequential J th M D E) as S. pose proof (merged_sequential (with_recording J every me) th' M' D' E') as S'.
  assert (Eq : sequential (with_recording J every me) = sequential J).
  { unfold sequential. change (j_rays (with_recording J every me)) with (j_rays J).
    change (hrows (with_recording J every me)) with (hrows J). change (krecs (with_recording J every me)) with (krecs J).
    assert (C : forall i, i < length (j_rays J) -> calls_of (with_recording J every me) i = calls_of J i).
    { clear i. intros i Hi. specialize (B i Hi). specialize (B' i Hi). unfold calls_of, run_ray in *.
      change (ray_no (with_recording J every me) i) with (ray_no J i) in *. change (j_scene (with_recording J every me)) with (j_scene J) in *.
      change (j_maxsteps (with_recording J every me)) with (j_maxsteps J) in *. change (j_method (with_recording J every me)) with (j_method J) in *.
      change (j_streams (with_recording J every me)) with (j_streams J) in *. change (j_seed (with_recording J every me)) with (j_seed J) in *.
      change (j_max_events (with_recording J every me)) with me in *.
      destruct (base J i), (base (with_recording J every me) i); try reflexivity.
      - rewrite (proj1 (C10_tallies_independent_partial _ _ _ _ _ _ _ H1 B)), (proj1 (C10_tallies_independent_partial _ _ _ _ _ _ _ H1' B')). reflexivity.
      - rewrite (proj1 (C10_tallies_independent_partial _ _ _ _ _ _ _ H1 B)). reflexivity.
      - rewrite (proj1 (C10_tallies_independent_partial _ _ _ _ _ _ _ H1' B')). reflexivity. }
    assert (G : forall is A, (forall i, In i is -> i < length (j_rays J)) ->
      fold_left (fun A i => tally_ray (hrows J) (krecs J) (calls_of (with_recording J every me) i) A) is A =
      fold_left (fun A i => tally_ray (hrows J) (krecs J) (calls_of J i) A) is A).
    { induction is as [|x is IH]; intros A H; simpl; [reflexivity|]. rewrite C by (apply H; now left). apply IH. intros; apply H; now right. }
    apply G. intros x Hx. apply in_seq in Hx. lia. }
  rewrite Eq in S'. destruct (acc_eq_trans _ _ _ S (acc_eq_sym _ _ S')) as (A1 & A2 & A3 & A4). auto.
Qed.
Print Assumptions C10_bundle_tallies_partial.

(** ** Termination of the compiled loop *)
Lemma k_loop_ends K b ms m us : forall fuel count log r, S ms < fuel + count -> 0 < fuel ->
  status_of (k_loop fuel K b ms m us count log r) <> KRunning.
Proof.
  induction fuel as [|fuel IH]; intros count log r H H0; [lia|]. cbn [k_loop].
  destruct (budget_spent b log); [discriminate|].
  pose proof (k_pass_shape K ms m (us (S count)) (S count) r) as Hs.
  destruct (k_pass _ _ _ _ _ _) as [evs ts|evs ts r'|]; [discriminate| |discriminate].
  destruct Hs as [Hc _]. specialize (IH (S count) (fold_left (record b) evs log) r' ltac:(lia) ltac:(lia)).
  destruct (k_loop _ _ _ _ _ _ _ _ _) as [[l t] st]. exact IH.
Qed.
(** trace_one leaves its loop in pass maxsteps + 1 at the latest, for every scene and all
    draws; with recording or without. *)
Theorem C02_kernel_terminates : forall K budget ms m us r,
  status_of (trace_one (S (S ms)) K budget ms m us r) <> KRunning.
Proof. intros. unfold trace_one. apply k_loop_ends; lia. Qed.
Print Assumptions C02_kernel_terminates.

(** ** Example: three rays of the empty world, two threads that swap the order, every second
    ray recorded *)
Definition job3 : job :=
  Job k_world [] [start; start; start] 7 (fun _ _ _ => mid_draws) 5 4 KT 2.
Lemma job3_run i : i < 3 -> log_of (run_ray job3 i) = if Nat.eqb i 1 then [] else
  [Event GENERATE start None None None None None;
   Event EXIT (k_propagate start 10 1) (Some 0) (Some 0) None None None].
Proof.
  intros Hi. assert (E : ray_no job3 i = start) by (destruct i as [|[|[|i]]]; [reflexivity..|lia]).
  unfold run_ray. rewrite E. unfold trace_one.
  destruct i as [|[|[|i]]]; [| | |lia];
    cbn [base job3 j_every j_max_events Nat.ltb Nat.leb Nat.modulo Nat.divmod fst snd Nat.sub Nat.eqb andb j_maxsteps k_loop budget_spent record length Nat.add];
    unfold k_pass; change (position start) with (V 0 0 0); change (direction start) with (V 1 0 0); change (j_scene job3) with k_world; rewrite k_world_hit;
    reflexivity.
Qed.
Example C12_C13_example : exists M, executes job3 [[1]; [2; 0]] M /\
  Permutation (concat [[1]; [2; 0]]) (seq 0 (length (j_rays job3))) /\
  n_recorded job3 = 2 /\ n_rows job3 = 8 /\ event_count job3 M EXIT = 2 /\
  histories job3 [0; 0; 0] M = Some (let h := [Entry start GENERATE None None None None None;
                                               Entry (k_propagate start 10 1) EXIT (Some 0) (Some 0) None None None] in [h; h]).
Proof.
  (* thread 1 starts, thread 0 runs its ray, thread 1 goes on *)
  set (a := ray_steps job3 1 2). set (b := ray_steps job3 0 1). set (c := ray_steps job3 1 0).
  assert (P : Permutation (concat [[1]; [2; 0]]) (seq 0 (length (j_rays job3)))).
  { simpl. apply (Permutation_cons_app [0] [2]). apply perm_swap. }
  assert (Cat : forall l0 l1 : list step, interleave [l0; l1] (l0 ++ l1)).
  { induction l0 as [|x l0 IH]; intros l1; simpl.
    - induction l1 as [|y l1 IH1]; [apply inter_nil; repeat constructor|]. apply (inter_cons [[]] y l1 []). exact IH1.
    - apply (inter_cons [] x l0 [l1]). apply IH. }
  assert (Front : forall p (l0 l1 : list step) r, interleave [l0; l1] r -> interleave [l0; p ++ l1] (p ++ r)).
  { induction p as [|x p IH]; intros l0 l1 r H; simpl; [exact H|]. apply (inter_cons [l0] x (p ++ l1) []). now apply IH. }
  set (M := fold_left (exec job3) (a ++ b ++ c) memory0).
  assert (X : executes job3 [[1]; [2; 0]] M).
  { exists (a ++ b ++ c). split; [|reflexivity]. unfold thread_steps. simpl. rewrite !app_nil_r. apply Front. apply Cat. }
  exists M. split; [exact X|]. split; [exact P|]. split; [reflexivity|]. split; [reflexivity|].
  assert (R : recorded_indices job3 = [0; 2]) by reflexivity. split.
  - rewrite (C13_event_counts job3 _ M EXIT P X), R. simpl flat_map. rewrite !job3_run by lia. reflexivity.
  - rewrite (C13_histories_decode job3 _ M [0; 0; 0] P X).
    + rewrite R. simpl map. rewrite !job3_run by lia. reflexivity.
    + intros i r H. exists 0. destruct i as [|[|[|[|i]]]]; simpl in H; try discriminate; injection H as <-; split; reflexivity.
Qed.
