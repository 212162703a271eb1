(** C23 - C28, C66, C79: command line interface and work split. *)
From Coq Require Import Reals Lra List Bool Arith ZArith Lia Permutation.
From Verif Require Import Base Vec TracerModel TracerProofs TracerProps KernelModel BundleModel BundleProofs TallyModel TallyProofs TallyProps CliModel CliProofs.
Import ListNotations.
Open Scope nat_scope.

(** ** C26, C27 *)
Theorem C26_work_split : forall num_rays workers seed drawn, (0 <= num_rays)%Z -> (1 <= workers)%Z ->
  let p := simulate_plan num_rays workers seed drawn in
  (p = RaisesValueError \/ thrown p = num_rays) /\
  (seed = None -> p <> RaisesValueError) /\
  (forall tasks, p = Pool tasks ->
     Z.of_nat (length tasks) = workers /\
     Forall (fun t => (1 <= fst t)%Z) tasks /\
     exists first others, tasks = first :: others /\
       Forall (fun t => fst t = (num_rays / workers)%Z) others /\
       (fst first = num_rays / workers + num_rays mod workers)%Z /\
       map snd tasks = map drawn (seq 0 (length tasks))).
Proof.
  intros n w seed drawn Hn Hw. cbv zeta. unfold simulate_plan.
  destruct (Z.eqb_spec w 1) as [->|Hw1]; [split; [right; simpl; lia|split; [discriminate|discriminate]]|].
  destruct (Z.eqb_spec w 0); [lia|].
  destruct (Z.eqb_spec (n / w) 0) as [Hq|Hq]; [split; [right; simpl; lia|split; [discriminate|discriminate]]|].
  assert (Hq1 : (1 <= n / w)%Z) by (assert (0 <= n / w)%Z by (apply Z.div_pos; lia); lia).
  pose proof (Z.div_mod n w ltac:(lia)) as Hdm. pose proof (Z.mod_pos_bound n w ltac:(lia)) as Hm.
  set (rem := if (n / w * w <? n)%Z then (n mod (n / w * w))%Z else ((n / w * w) mod n)%Z).
  assert (Hrem : rem = (n mod w)%Z).
  { unfold rem. destruct (Z.ltb_spec (n / w * w) n).
    - symmetry. apply (Z.mod_unique n (n / w * w) 1 (n mod w)); nia.
    - assert (E : (n / w * w = n)%Z) by nia. rewrite E, Z.mod_same by nia. nia. }
  clearbody rem. subst rem.
  destruct (Z.to_nat w) as [|w'] eqn:W; [lia|]. cbn [repeat].
  destruct seed as [sd|]; [split; [now left|split; [discriminate|discriminate]]|].
  assert (EW : w = Z.of_nat (S w')) by lia.
  split; [right|split; [discriminate|]].
  - assert (Sum : forall k a, fold_right Z.add 0%Z (map (fun t : Z * Z => Z.max 0 (fst t)) (combine (repeat (n / w)%Z k) (map drawn (seq a k)))) = (Z.of_nat k * (n / w))%Z).
    { induction k as [|k IH]; intros a; [reflexivity|]. cbn [repeat seq map combine fold_right fst]. rewrite IH. lia. }
    cbn [thrown seq map combine fold_right fst]. rewrite Sum. nia.
  - intros tasks [= <-].
    assert (L : forall k a, length (combine (repeat (n / w)%Z k) (map drawn (seq a k))) = k)
      by (intros; rewrite combine_length, repeat_length, map_length, seq_length; lia).
    assert (F : forall k a, Forall (fun t : Z * Z => fst t = (n / w)%Z) (combine (repeat (n / w)%Z k) (map drawn (seq a k)))).
    { induction k as [|k IH]; intros a; constructor; [reflexivity|apply IH]. }
    assert (D : forall k a, map snd (combine (repeat (n / w)%Z k) (map drawn (seq a k))) = map drawn (seq a k)).
    { induction k as [|k IH]; intros a; simpl; [reflexivity|]. now rewrite IH. }
    cbn [seq map combine length]. rewrite L. split; [lia|]. split.
    + constructor; [simpl; lia|]. eapply Forall_impl; [|apply F]. intros t ->. exact Hq1.
    + eexists _, _. split; [reflexivity|]. split; [apply F|]. split; [reflexivity|]. simpl. now rewrite D.
Qed.
Print Assumptions C26_work_split.

Example C26_case : simulate_plan 11 4 None (fun i => Z.of_nat (7 * i)) = Pool [(5, 0); (2, 7); (2, 14); (2, 21)]%Z
  /\ thrown (simulate_plan 11 4 None (fun i => Z.of_nat (7 * i))) = 11%Z
  /\ simulate_plan 3 4 None (fun _ => 0%Z) = Single 3 None.
Proof. repeat split. Qed.

(** With a seed: one process seeded with it, or ValueError; with workers=1 always the former. *)
Theorem C27_seed_honoured_or_rejected : forall num_rays workers seed drawn cpu_count, (0 <= num_rays)%Z ->
  (forall w, workers = Some w -> (1 <= w)%Z) ->
  let w := resolve_workers cpu_count workers in
  let p := simulate_plan num_rays w (Some seed) drawn in
  (p = Single num_rays (Some seed) \/ p = RaisesValueError) /\
  (p = Single num_rays (Some seed) <-> w = 1%Z \/ (num_rays < w)%Z).
Proof.
  intros n ws seed drawn cpu Hn Hws. cbv zeta.
  assert (Hw : (1 <= resolve_workers cpu ws)%Z) by (destruct ws as [w|]; simpl; [now apply Hws|lia]).
  set (w := resolve_workers cpu ws) in *. clearbody w. unfold simulate_plan.
  destruct (Z.eqb_spec w 1) as [->|Hw1]; [split; [now left|tauto]|].
  destruct (Z.eqb_spec w 0); [lia|].
  pose proof (Z.div_mod n w ltac:(lia)). pose proof (Z.mod_pos_bound n w ltac:(lia)).
  destruct (Z.eqb_spec (n / w) 0) as [Hq|Hq]; [split; [now left|]; split; [intros _; right; nia|tauto]|].
  assert (0 <= n / w)%Z by (apply Z.div_pos; lia).
  destruct (Z.to_nat w) as [|w'] eqn:W; [lia|]. cbn [repeat]. split; [now right|].
  split; [discriminate|]. intros [G|G]; [lia|nia].
Qed.
Print Assumptions C27_seed_honoured_or_rejected.

(** How many workers run when none is asked for: half of the processors, rounded down, and one on a
    machine with fewer than two; a number that is asked for is used. *)
Theorem C27_default_workers : forall cpu_count,
  let w := resolve_workers cpu_count None in
  (1 <= w)%Z /\ (cpu_count < 2 -> w = 1)%Z /\ (2 <= cpu_count -> 2 * w <= cpu_count <= 2 * w + 1)%Z /\
  (forall asked, resolve_workers cpu_count (Some asked) = asked).
Proof.
  intros c. cbv zeta. cbn [resolve_workers]. pose proof (Z.div_mod c 2 ltac:(lia)). pose proof (Z.mod_pos_bound c 2 ltac:(lia)).
  repeat split; lia.
Qed.
Print Assumptions C27_default_workers.

Example C27_case : simulate_plan 100 (resolve_workers 8 None) (Some 0%Z) (fun _ => 5%Z) = RaisesValueError
  /\ simulate_plan 100 (resolve_workers 8 (Some 1%Z)) (Some 0%Z) (fun _ => 5%Z) = Single 100 (Some 0%Z).
Proof. repeat split. Qed.

(** ** C28 *)
(** The database [db] holds the messages [ms]: row by row, in order. *)
Definition holds (db : database) (ms : list message) : Prop :=
  length (ray_table db) = length ms /\ length (event_table db) = length ms /\
  forall j m, nth_error ms j = Some m ->
    exists rr er, nth_error (ray_table db) j = Some rr /\ nth_error (event_table db) j = Some er /\
      row_ray rr = e_ray (m_event m) /\
      (* rowid of row j is j + 1 *)
      ray_id er = S j /\
      row_kind er = e_kind (m_event m) /\ row_component er = e_comp (m_event m) /\ row_hit er = e_hit (m_event m) /\
      row_container er = e_container (m_event m) /\ row_adjacent er = e_adjacent (m_event m) /\ row_facet er = None /\
      match e_normal (m_event m) with
      | Some n => ni er = Some (vx n) /\ nj er = Some (vy n) /\ nk er = Some (vz n)
      | None => ni er = None /\ nj er = None /\ nk er = None
      end.

Lemma nth_error_combine_seq {A} a (l : list A) j x : nth_error l j = Some x -> nth_error (combine (seq a (length l)) l) j = Some (a + j, x).
Proof.
  revert a j. induction l as [|y l IH]; intros a j H; [destruct j; discriminate|]. destruct j as [|j]; simpl in *.
  - injection H as ->. now rewrite Nat.add_0_r.
  - rewrite IH by exact H. now rewrite Nat.add_succ_r.
Qed.

Lemma monitor_holds ms : holds (saved (monitor_queue ms)) ms.
Proof.
  destruct (monitor_spec ms) as (_ & _ & _ & Hr & He). unfold holds. rewrite Hr, He, !map_length, combine_length, seq_length, Nat.min_id.
  split; [reflexivity|]. split; [reflexivity|]. intros j m Hm.
  exists (rrow (ids (monitor_queue ms)) m), (erow (S j) m).
  split; [now apply map_nth_error|]. split; [apply (map_nth_error (fun '(j, m) => erow j m) j _ (nth_error_combine_seq 1 ms j m Hm))|].
  unfold erow. simpl. destruct (e_normal (m_event m)); simpl; repeat split; reflexivity.
Qed.

(** Whenever the program dies while handling message [m] after [done], the file holds [done] or
    [done] and [m]; after handling everything it holds all messages. *)
Theorem C28_consistent_prefix : forall ms,
  holds (on_disk (monitor_queue ms)) ms /\
  (forall done m rest s, ms = done ++ m :: rest -> In s (handle_states (monitor_queue done) m) ->
     holds (on_disk s) done \/ holds (on_disk s) (done ++ [m])) /\
  (forall s, In s (states_from monitor0 ms) -> exists k, k <= length ms /\ holds (on_disk s) (firstn k ms)).
Proof.
  intros ms. split; [apply monitor_holds|].
  assert (A : forall done m s, In s (handle_states (monitor_queue done) m) -> holds (on_disk s) done \/ holds (on_disk s) (done ++ [m])).
  { intros done m s Hs. destruct (handle_states_eq (monitor_queue done) m) as (_ & _ & E1 & s2 & s3 & E & E2 & E3 & _).
    rewrite E in Hs. unfold on_disk. simpl in Hs. destruct Hs as [<-|[<-|[<-|[<-|[]]]]].
    - left. rewrite E1. apply monitor_holds.
    - left. rewrite E2. apply monitor_holds.
    - left. rewrite E3. apply monitor_holds.
    - right. rewrite <- monitor_snoc. apply monitor_holds. }
  split; [intros done m rest s _; apply A|].
  assert (B : forall post pre s, In s (states_from (monitor_queue pre) post) -> exists k, k <= length (pre ++ post) /\ holds (on_disk s) (firstn k (pre ++ post))).
  { induction post as [|m post IH]; intros pre s Hs; [destruct Hs|]. cbn [states_from] in Hs. apply in_app_or in Hs. destruct Hs as [Hs|Hs].
    - destruct (A _ _ _ Hs) as [H|H].
      + exists (length pre). rewrite app_length. split; [lia|]. rewrite firstn_app, Nat.sub_diag, firstn_all, app_nil_r. exact H.
      + exists (length (pre ++ [m])). replace (pre ++ m :: post) with ((pre ++ [m]) ++ post) by now rewrite <- app_assoc.
        rewrite (app_length (pre ++ [m]) post). split; [lia|]. rewrite firstn_app, Nat.sub_diag, firstn_all, app_nil_r. exact H.
    - rewrite <- monitor_snoc in Hs. replace (pre ++ m :: post) with ((pre ++ [m]) ++ post) by now rewrite <- app_assoc. now apply IH. }
  intros s Hs. apply (B ms [] s Hs).
Qed.
Print Assumptions C28_consistent_prefix.

(** ** Example histories *)
Definition ray_nm (w : R) : ray := Ray (V 0 0 0) (V 0 0 1) w 0 0 (Light 0).
Definition ev_generate w := Event GENERATE (ray_nm w) None None None None None.
Definition ev_enter w := Event TRANSMIT (ray_nm w) (Some 1) (Some 0) (Some 1) None (Some (V 0 0 (-1))).
Definition ev_reflect w := Event REFLECT (ray_nm w) (Some 1) (Some 0) (Some 1) None (Some (V 0 0 (-1))).
Definition ev_bounce w := Event REFLECT (ray_nm w) (Some 1) (Some 1) (Some 0) None (Some (V 0 0 1)).
Definition ev_absorb w := Event ABSORB (ray_nm w) (Some 1) (Some 1) (Some 0) (Some 0) None.
Definition ev_emit w := Event EMIT (ray_nm w) (Some 1) (Some 1) (Some 0) (Some 0) None.
Definition ev_escape w := Event TRANSMIT (ray_nm w) (Some 1) (Some 1) (Some 0) None (Some (V 0 0 1)).
Definition ev_exit w := Event EXIT (ray_nm w) (Some 0) (Some 0) None None None.
Definition ev_lost w := Event NONRADIATIVE (ray_nm w) (Some 1) (Some 1) (Some 0) (Some 0) None.

(** The processes' messages one after the other *)
Lemma interleave_concat {A} (ls : list (list A)) : interleave ls (concat ls).
Proof.
  assert (G : forall (ls : list (list A)) before, Forall (eq []) before -> interleave (before ++ ls) (concat ls)).
  { clear. induction ls as [|l ls IH]; intros before Hb; simpl.
    - constructor. rewrite app_nil_r. exact Hb.
    - induction l as [|x l IHl]; simpl.
      + change (before ++ [] :: ls) with (before ++ [[]] ++ ls). rewrite app_assoc. apply IH. apply Forall_app. split; [exact Hb|constructor; [reflexivity|constructor]].
      + apply inter_cons. exact IHl. }
  exact (G ls [] (Forall_nil _)).
Qed.
Definition in_turn (er : bool) (pool : list (list task)) : list message := concat (pool_messages er pool).
Lemma in_turn_received er pool : received er pool (in_turn er pool).
Proof. apply interleave_concat. Qed.

(** ** C23 *)
(** A history made by the tracer (perhaps cut short by an exception). *)
Definition traced (h : list event) : Prop :=
  exists fuel S maxsteps maxpath method us r, fst (step_forward fuel S maxsteps maxpath method us r) = h.

Lemma traced_end h : traced h -> exists e rest, h = e :: rest /\ e_kind e = GENERATE.
Proof.
  intros (fuel & S & ms & mp & me & us & r & <-). destruct (step_forward fuel S ms mp me us r) as [evs st] eqn:E.
  destruct (C01_interrupted_history _ _ _ _ _ _ _ _ _ E) as (g & f & Hk & _). simpl. unfold kinds in Hk.
  destruct evs as [|e rest]; [discriminate|]. injection Hk as Hk _. now exists e, rest.
Qed.
Lemma traced_sends (er : bool) h : traced h -> (if er then filter is_end_ray h else h) <> [].
Proof. intros H. apply traced_end in H. destruct H as (e & rest & -> & Hk). destruct er; [|discriminate]. simpl. unfold is_end_ray at 1. rewrite Hk. discriminate. Qed.

(** one ray of one task of one process *)
Definition same_ray (m m' : message) : Prop := m_pid m = m_pid m' /\ m_task m = m_task m' /\ m_idx m = m_idx m'.

(** Events of one ray always share the id; the ids in use are 0, 1, ... without gaps. *)
Theorem C23_events_share_id : forall end_rays pool ms, received end_rays pool ms ->
  let db := on_disk (monitor_queue ms) in
  (forall j j' m m' r r', nth_error ms j = Some m -> nth_error ms j' = Some m' ->
     nth_error (ray_table db) j = Some r -> nth_error (ray_table db) j' = Some r' -> same_ray m m' -> throw_id r = throw_id r') /\
  exists n, forall i, In i (map throw_id (ray_table db)) <-> i < n.
Proof.
  intros er pool ms Hr. cbv zeta. unfold on_disk. destruct (monitor_spec ms) as (Hnd & Hin & _ & Hrt & _). rewrite Hrt. split.
  - intros j j' m m' r r' H1 H2 H3 H4 (E1 & E2 & E3). rewrite (map_nth_error _ _ _ H1) in H3. rewrite (map_nth_error _ _ _ H2) in H4.
    injection H3 as <-. injection H4 as <-. simpl. unfold key. now rewrite E1, E3.
  - exists (length (ids (monitor_queue ms))). intros i. rewrite map_map. simpl. rewrite in_map_iff. split.
    + intros (m & <- & Hm). apply gid_lt. apply Hin. now apply in_map.
    + intros H. destruct (nth_error (ids (monitor_queue ms)) i) as [k|] eqn:E; [|apply nth_error_None in E; lia].
      pose proof (nth_error_In _ _ E) as Hk. pose proof (gid_nth _ _ Hk) as E'.
      apply Hin in Hk. apply in_map_iff in Hk. destruct Hk as (m & <- & Hm). exists m. split; [|exact Hm].
      apply (proj1 (NoDup_nth_error _) Hnd); [apply nth_error_Some; congruence|]. now rewrite E, E'.
Qed.
Print Assumptions C23_events_share_id.

Lemma ids_are_rays (er : bool) pool ms : one_task pool -> Forall (fun h : list event => (if er then filter is_end_ray h else h) <> []) (concat (concat pool)) -> received er pool ms ->
  length (ids (monitor_queue ms)) = length (concat (concat pool)).
Proof.
  intros H1 Hne Hr. destruct (monitor_spec ms) as (Hnd & Hin & _).
  rewrite <- pool_rays_histories, map_length, <- (map_length fst (pool_rays pool)). apply Permutation_length.
  apply NoDup_Permutation; [exact Hnd|now apply pool_rays_nodup|]. intros [p i]. rewrite Hin, !in_map_iff. split.
  - intros (m & [= <- <-] & Hm). apply (received_in _ _ _ Hr) in Hm. destruct Hm as (h & Hh & _). exists ((m_pid m, m_idx m), h). split; [reflexivity|].
    apply in_pool_rays. now exists (m_task m).
  - intros ([[p' i'] h] & [= -> ->] & Hx). pose proof Hx as Hx'. apply in_pool_rays in Hx. destruct Hx as (n & Hx).
    assert (Hh : In h (concat (concat pool))) by (rewrite <- pool_rays_histories; apply in_map_iff; now exists ((p, i), h)).
    pose proof (proj1 (Forall_forall _ _) Hne h Hh) as N. cbv beta in N. destruct (if er then filter is_end_ray h else h) as [|e l] eqn:El; [easy|].
    exists (Msg p n i e). split; [reflexivity|]. apply (received_in _ _ _ Hr). exists h. split; [exact Hx|]. rewrite El. now left.
Qed.

(** If no pool process runs two tasks, throw ids are in bijection with the rays thrown. *)
Theorem C23_throw_ids_partial : forall end_rays pool ms, one_task pool -> Forall traced (concat (concat pool)) ->
  received end_rays pool ms ->
  let db := on_disk (monitor_queue ms) in
  (forall j j' m m' r r', nth_error ms j = Some m -> nth_error ms j' = Some m' ->
     nth_error (ray_table db) j = Some r -> nth_error (ray_table db) j' = Some r' -> (throw_id r = throw_id r' <-> same_ray m m')) /\
  (forall i, In i (map throw_id (ray_table db)) <-> i < length (concat (concat pool))).
Proof.
  intros er pool ms H1 Ht Hr. cbv zeta.
  assert (Hne : Forall (fun h : list event => (if er then filter is_end_ray h else h) <> []) (concat (concat pool)))
    by (eapply Forall_impl; [|exact Ht]; intros h; apply traced_sends).
  destruct (C23_events_share_id er pool ms Hr) as [Hs _]. cbv zeta in Hs. split.
  - intros j j' m m' r r' G1 G2 G3 G4. split; [|eapply Hs; eassumption].
    unfold on_disk in *. destruct (monitor_spec ms) as (Hnd & Hin & _ & Hrt & _). rewrite Hrt in G3, G4.
    rewrite (map_nth_error _ _ _ G1) in G3. rewrite (map_nth_error _ _ _ G2) in G4. injection G3 as <-. injection G4 as <-. simpl. intros E.
    apply nth_error_In in G1, G2. apply gid_inj in E; [|apply Hin; now apply in_map|apply Hin; now apply in_map]. injection E as E1 E2.
    apply (received_in _ _ _ Hr) in G1, G2. destruct G1 as (h & G1 & _). destruct G2 as (h' & G2 & _). rewrite <- E1, <- E2 in G2.
    split; [exact E1|]. split; [|exact E2]. apply (one_task_number pool _ _ _ _ h h' H1 G1 G2).
  - intros i. rewrite <- (ids_are_rays er pool ms H1 Hne Hr). unfold on_disk. destruct (monitor_spec ms) as (Hnd & Hin & _ & Hrt & _). rewrite Hrt, map_map.
    simpl. rewrite in_map_iff. split.
    + intros (m & <- & Hm). apply gid_lt. apply Hin. now apply in_map.
    + intros H. destruct (nth_error (ids (monitor_queue ms)) i) as [k|] eqn:E; [|apply nth_error_None in E; lia].
      pose proof (nth_error_In _ _ E) as Hk. pose proof (gid_nth _ _ Hk) as E'.
      apply Hin in Hk. apply in_map_iff in Hk. destruct Hk as (m & <- & Hm). exists m. split; [|exact Hm].
      apply (proj1 (NoDup_nth_error _) Hnd); [apply nth_error_Some; congruence|]. now rewrite E, E'.
Qed.
Print Assumptions C23_throw_ids_partial.

(** The pool may give two tasks to one process; then rays of both get the same ids. *)
Theorem C23_throw_ids_refuted : exists pool ms m m' r r',
  received false pool ms /\ length (concat (concat pool)) = 2 /\
  nth_error ms 0 = Some m /\ nth_error ms 2 = Some m' /\ ~ same_ray m m' /\
  nth_error (ray_table (on_disk (monitor_queue ms))) 0 = Some r /\ nth_error (ray_table (on_disk (monitor_queue ms))) 2 = Some r' /\
  throw_id r = throw_id r' /\ forall i, In i (map throw_id (ray_table (on_disk (monitor_queue ms)))) -> i = 0.
Proof.
  exists [[[[ev_generate 500; ev_exit 500]]; [[ev_generate 600; ev_exit 600]]]; []].
  eexists (in_turn false _). do 4 eexists.
  split; [apply in_turn_received|split; [reflexivity|]].
  - simpl. split; [reflexivity|]. split; [reflexivity|]. split; [intros (_ & H & _); discriminate|].
    split; [reflexivity|]. split; [reflexivity|]. split; [reflexivity|]. intros i H. intuition.
Qed.
Print Assumptions C23_throw_ids_refuted.

(** ** C24 *)
(** The same tasks run by the same processes, with and without --end-rays, messages arriving in
    any order: every count is the same. *)
Theorem C24_end_rays_counts : forall pool ms ms' q node f, received false pool ms -> received true pool ms' ->
  sql_count q node f (on_disk (monitor_queue ms')) = sql_count q node f (on_disk (monitor_queue ms)).
Proof.
  intros pool ms ms' q node f H H'. unfold on_disk. rewrite !count_keys. apply nodup_same_length. intros k. rewrite !in_map_iff. split.
  - intros (m & <- & Hm). apply filter_In in Hm. destruct Hm as [Hm Hc]. exists m. split; [reflexivity|]. apply filter_In. split; [|exact Hc].
    apply (received_in _ _ _ H') in Hm. apply (received_in _ _ _ H). destruct Hm as (h & Hh & He). exists h. split; [exact Hh|]. apply filter_In in He. tauto.
  - intros (m & <- & Hm). apply filter_In in Hm. destruct Hm as [Hm Hc]. exists m. split; [reflexivity|]. apply filter_In. split; [|exact Hc].
    apply (received_in _ _ _ H) in Hm. apply (received_in _ _ _ H'). destruct Hm as (h & Hh & He). exists h. split; [exact Hh|]. apply filter_In.
    split; [exact He|]. eapply counted_end. exact Hc.
Qed.
Print Assumptions C24_end_rays_counts.

(** Two processes; the second database drops the internal reflection, ABSORB and EMIT. *)
Definition ex_pool : list (list task) :=
  [ [[ [ev_generate 500; ev_enter 500; ev_bounce 500; ev_absorb 500; ev_emit 600; ev_escape 600; ev_exit 600];
       [ev_generate 500; ev_reflect 500; ev_exit 500] ]];
    [[ [ev_generate 510; ev_enter 510; ev_absorb 510; ev_lost 510] ]] ].
Definition ex_ms (er : bool) : list message := in_turn er ex_pool.
Definition all_faces : filters := Filters None None None None None 0%R.
Example C24_case : received false ex_pool (ex_ms false) /\ received true ex_pool (ex_ms true) /\
  length (ex_ms false) = 14 /\ length (ex_ms true) = 10 /\
  sql_count QEntering 1 all_faces (on_disk (monitor_queue (ex_ms true))) = 2 /\
  sql_count QLost 1 all_faces (on_disk (monitor_queue (ex_ms true))) = 1 /\
  sql_count QReflected 1 all_faces (on_disk (monitor_queue (ex_ms false))) = 1.
Proof. split; [apply interleave_concat|]. split; [apply interleave_concat|]. repeat split; reflexivity. Qed.

(** ** C25 *)
Definition recorder_event (q : query) : selector :=
  match q with QReflected => Reflected | QEntering => Entering | QEscaping => Escaping | QLost => Lost | QReacted => Reacted | QKilled => Killed end.
(** --nx --ny --nz --atol of the command line as the facet of the recorder; lost, reacted
    and killed have no such options. *)
Definition same_filter (q : query) (f : filters) (r : recorder) : Prop :=
  f_facet f = None /\ f_source f = None /\ rec_event r = recorder_event q /\
  match q with
  | QReflected | QEntering | QEscaping =>
      match rec_facet r with
      | None => f_nx f = None /\ f_ny f = None /\ f_nz f = None
      | Some n => f_nx f = Some (vx n) /\ f_ny f = Some (vy n) /\ f_nz f = Some (vz n) /\ f_atol f = rec_atol r
      end
  | _ => rec_facet r = None
  end.

Lemma kind_is_spec a b : kind_is a b = true <-> a = b.
Proof. unfold kind_is. destruct (kind_eq_dec a b); split; congruence. Qed.
Lemma col_is_spec c v : col_is c v = true <-> c = Some v.
Proof. destruct c; simpl; [rewrite Nat.eqb_eq; split; congruence|split; discriminate]. Qed.

Lemma counted_spec T q f r node e : same_filter q f r ->
  (counted q node f e = true <-> selected (rec_event r) node e /\ on_facet r (event_normal T node e)).
Proof.
  intros (Hf & Hs & Hev & Hn). rewrite Hev.
  assert (NF : forall n0, e_kind e <> EXIT -> (normal_clause (f_nx f) (option_map vx (e_normal e)) (f_atol f) && normal_clause (f_ny f) (option_map vy (e_normal e)) (f_atol f)
     && normal_clause (f_nz f) (option_map vz (e_normal e)) (f_atol f) = true <-> on_facet r (event_normal T n0 e)) \/ (q = QLost \/ q = QReacted \/ q = QKilled)).
  { intros n0 Hk. assert (En : event_normal T n0 e = e_normal e) by (unfold event_normal; destruct (e_kind e); try reflexivity; easy).
    rewrite En. destruct q; try (right; tauto); left; unfold on_facet; destruct (rec_facet r) as [v|].
    all: try (destruct Hn as (E1 & E2 & E3 & E4); rewrite E1, E2, E3, E4; destruct (e_normal e) as [n|]; simpl;
      [rewrite !andb_true_iff, !Rleb_true; split; [intros [[G1 G2] G3] g [= <-]; exists n; auto|intros G; destruct (G v eq_refl) as (n' & [= <-] & G1 & G2 & G3); auto]
      |split; [discriminate|intros G; destruct (G v eq_refl) as (n' & E & _); discriminate]]).
    all: destruct Hn as (E1 & E2 & E3); rewrite E1, E2, E3; simpl; split; [intros _ g; discriminate|reflexivity]. }
  unfold counted. destruct q; simpl; rewrite ?Hf, ?Hs; simpl; rewrite ?andb_true_r, ?andb_true_iff, ?kind_is_spec, ?col_is_spec.
  - assert (Hk : (e_hit e = Some node /\ e_adjacent e = Some node) /\ e_kind e = REFLECT \/ ~ (e_kind e = REFLECT /\ e_hit e = Some node /\ e_adjacent e = Some node)).
    { destruct (kind_eq_dec (e_kind e) REFLECT); [|right; tauto]. destruct (e_hit e) as [a|]; [|right; intuition discriminate]. destruct (e_adjacent e) as [b|]; [|right; intuition discriminate].
      destruct (Nat.eq_dec a node); [|right; intuition congruence]. destruct (Nat.eq_dec b node); [|right; intuition congruence]. left. subst. tauto. }
    destruct Hk as [Hk|Hk]; [|tauto]. destruct (NF node) as [G|G]; [destruct Hk as [_ ->]; discriminate| |intuition discriminate].
    rewrite !andb_true_iff in G. rewrite <- G. tauto.
  - assert (Hk : (e_hit e = Some node /\ e_adjacent e = Some node) /\ e_kind e = TRANSMIT \/ ~ (e_kind e = TRANSMIT /\ e_hit e = Some node /\ e_adjacent e = Some node)).
    { destruct (kind_eq_dec (e_kind e) TRANSMIT); [|right; tauto]. destruct (e_hit e) as [a|]; [|right; intuition discriminate]. destruct (e_adjacent e) as [b|]; [|right; intuition discriminate].
      destruct (Nat.eq_dec a node); [|right; intuition congruence]. destruct (Nat.eq_dec b node); [|right; intuition congruence]. left. subst. tauto. }
    destruct Hk as [Hk|Hk]; [|tauto]. destruct (NF node) as [G|G]; [destruct Hk as [_ ->]; discriminate| |intuition discriminate].
    rewrite !andb_true_iff in G. rewrite <- G. tauto.
  - assert (Hk : (e_hit e = Some node /\ e_container e = Some node) /\ e_kind e = TRANSMIT \/ ~ (e_kind e = TRANSMIT /\ e_hit e = Some node /\ e_container e = Some node)).
    { destruct (kind_eq_dec (e_kind e) TRANSMIT); [|right; tauto]. destruct (e_hit e) as [a|]; [|right; intuition discriminate]. destruct (e_container e) as [b|]; [|right; intuition discriminate].
      destruct (Nat.eq_dec a node); [|right; intuition congruence]. destruct (Nat.eq_dec b node); [|right; intuition congruence]. left. subst. tauto. }
    destruct Hk as [Hk|Hk]; [|tauto]. destruct (NF node) as [G|G]; [destruct Hk as [_ ->]; discriminate| |intuition discriminate].
    rewrite !andb_true_iff in G. rewrite <- G. tauto.
  - assert (on_facet r (event_normal T node e)) by (intros g Hg; congruence). tauto.
  - assert (on_facet r (event_normal T node e)) by (intros g Hg; congruence). tauto.
  - assert (on_facet r (event_normal T node e)) by (intros g Hg; congruence). tauto.
Qed.

(** The command line count of a database equals the [rays] of the recorder tallied over the same
    histories in any order, when no pool process runs two tasks. *)
Theorem C25_counts_agree_partial : forall end_rays pool ms histories T rs node r s q f,
  one_task pool -> received end_rays pool ms -> Permutation histories (concat (concat pool)) ->
  NoDup (map (fun p => rec_name (snd p)) rs) -> In (node, r, s) (tally_histories T rs histories) -> same_filter q f r ->
  sql_count q node f (on_disk (monitor_queue ms)) = s_rays s.
Proof.
  intros er pool ms hs T rs node r s q f H1 Hr Hp Hnd Hin Hf. unfold on_disk. rewrite count_keys.
  rewrite (matching_keys er pool ms (counted q node f) H1 Hr); [|intros _ e; apply counted_end].
  destruct (C17_recorder_counts T rs hs node r s (counted q node f) Hnd Hin) as [-> _]; [intros e; apply (counted_spec T); exact Hf|].
  symmetry. apply Permutation_length. clear - Hp.
  induction Hp as [|x l l' P IH|x y l|l1 l2 l3 P1 IH1 P2 IH2]; simpl; [apply perm_nil| | |exact (Permutation_trans IH1 IH2)].
  - destruct (existsb _ x); [apply perm_skip|]; exact IH.
  - destruct (existsb _ x), (existsb _ y); try apply Permutation_refl. apply perm_swap.
Qed.
Print Assumptions C25_counts_agree_partial.

(** When one process runs two tasks the count falls short of the recorder. *)
Theorem C25_counts_agree_refuted : exists pool ms T r s,
  received false pool ms /\ In (1, r, s) (tally_histories T [(1, r)] (concat (concat pool))) /\ same_filter QLost all_faces r /\
  sql_count QLost 1 all_faces (on_disk (monitor_queue ms)) = 1 /\ s_rays s = 2.
Proof.
  exists [[[[ev_generate 500; ev_lost 500]]; [[ev_generate 600; ev_lost 600]]]; []].
  exists (in_turn false [[[[ev_generate 500; ev_lost 500]]; [[ev_generate 600; ev_lost 600]]]; []]), (TScene (fun _ v => v) (fun _ _ => V 0 0 1)), (Recorder 0 Lost None 0%R []).
  set (rr := Recorder 0 Lost None 0%R []).
  destruct (C17_one_result_per_recorder (TScene (fun _ v => v) (fun _ _ => V 0 0 1)) [(1, rr)] (concat (concat [[[[ev_generate 500; ev_lost 500]]; [[ev_generate 600; ev_lost 600]]]; []]))) as [_ G];
    [constructor; [easy|constructor]|].
  destruct (G 1 rr (or_introl eq_refl)) as (s & Hs & _). exists s.
  split; [apply in_turn_received|split; [exact Hs|split; [repeat split|split; [reflexivity|]]]].
  - destruct (C17_recorder_counts _ [(1, rr)] _ _ _ _ (counted QLost 1 all_faces) ltac:(constructor; [easy|constructor]) Hs) as [-> _]; [|reflexivity].
    intros e. apply counted_spec. repeat split.
Qed.
Print Assumptions C25_counts_agree_refuted.

Example C25_case : exists s, In (1, Recorder 3 Escaping (Some (V 0 0 1)) 0%R [], s)
    (tally_histories (TScene (fun _ v => v) (fun _ _ => V 0 0 1)) [(1, Recorder 3 Escaping (Some (V 0 0 1)) 0%R [])] (concat (concat ex_pool))) /\
  one_task ex_pool /\ received true ex_pool (ex_ms true) /\
  same_filter QEscaping (Filters (Some 0%R) (Some 0%R) (Some 1%R) None None 0%R) (Recorder 3 Escaping (Some (V 0 0 1)) 0%R []) /\ s_rays s = 1.
Proof.
  set (rr := Recorder 3 Escaping (Some (V 0 0 1)) 0%R []).
  destruct (C17_one_result_per_recorder (TScene (fun _ v => v) (fun _ _ => V 0 0 1)) [(1, rr)] (concat (concat ex_pool))) as [_ G]; [constructor; [easy|constructor]|].
  destruct (G 1 rr (or_introl eq_refl)) as (s & Hs & _). exists s. split; [exact Hs|].
  assert (O : one_task ex_pool) by (intros [|[|p]] ts; simpl; [intros [= <-]; simpl; lia|intros [= <-]; simpl; lia|destruct p; discriminate]).
  split; [exact O|]. split; [apply interleave_concat|]. split; [repeat split|].
  rewrite <- (C25_counts_agree_partial true ex_pool (ex_ms true) _ _ [(1, rr)] 1 rr s QEscaping (Filters (Some 0%R) (Some 0%R) (Some 1%R) None None 0%R) O (interleave_concat _) (Permutation_refl _) ltac:(constructor; [easy|constructor]) Hs ltac:(repeat split)).
  unfold on_disk. rewrite count_keys. unfold ex_ms, ex_pool, pool_messages. simpl. unfold counted. simpl.
  assert (E : forall x, Rleb (Rabs (x - x)) 0 = true) by (intros; apply Rleb_true; rewrite Rminus_eq_0, Rabs_R0; lra). rewrite !E. reflexivity.
Qed.

(** ** C66 *)
(** Entries of a spectrum are the wavelengths of matching events; every counted ray has at
    least one; exactly one if all its matching events have the same wavelength. *)
Theorem C66_spectrum_partial : forall ms q node f,
  let db := on_disk (monitor_queue ms) in
  let counted_ids := select_distinct Nat.eq_dec throw_id (query_where q node f) db in
  (forall i w, In (i, w) (sql_spectrum q node f db) <->
     exists re, In re (joined db) /\ query_where q node f re = true /\ throw_id (fst re) = i /\ wavelength (row_ray (fst re)) = w) /\
  (forall i, In i counted_ids <-> exists w, In (i, w) (sql_spectrum q node f db)) /\
  sql_count q node f db <= length (sql_spectrum q node f db) /\
  ((forall re re', In re (joined db) -> In re' (joined db) -> query_where q node f re = true -> query_where q node f re' = true ->
      throw_id (fst re) = throw_id (fst re') -> wavelength (row_ray (fst re)) = wavelength (row_ray (fst re'))) ->
   length (sql_spectrum q node f db) = sql_count q node f db /\ NoDup (map fst (sql_spectrum q node f db))).
Proof.
  intros ms q node f. cbv zeta. set (db := on_disk (monitor_queue ms)). clearbody db.
  set (rows := filter (query_where q node f) (joined db)).
  assert (Hrows : forall re, In re rows <-> In re (joined db) /\ query_where q node f re = true) by (intros re; apply filter_In).
  assert (A : forall i w, In (i, w) (sql_spectrum q node f db) <-> exists re, In re rows /\ throw_id (fst re) = i /\ wavelength (row_ray (fst re)) = w).
  { intros i w. unfold sql_spectrum, select_distinct. rewrite nodup_In, in_map_iff. fold rows. split.
    - intros (re & [= <- <-] & H). now exists re.
    - intros (re & H & <- & <-). now exists re. }
  assert (B : forall i, In i (select_distinct Nat.eq_dec throw_id (query_where q node f) db) <-> exists w, In (i, w) (sql_spectrum q node f db)).
  { intros i. unfold select_distinct. rewrite nodup_In, in_map_iff. fold rows. split.
    - intros (re & <- & H). exists (wavelength (row_ray (fst re))). apply A. now exists re.
    - intros (w & H). apply A in H. destruct H as (re & H & <- & _). now exists re. }
  split; [intros i w; rewrite A; split; intros (re & H); exists re; rewrite Hrows in *; tauto|]. split; [exact B|]. split.
  - unfold sql_count. rewrite <- (map_length fst (sql_spectrum q node f db)). apply NoDup_incl_length; [apply NoDup_nodup|].
    intros i Hi. apply B in Hi. destruct Hi as (w & Hi). apply in_map_iff. now exists (i, w).
  - intros Hw. assert (N : NoDup (map fst (sql_spectrum q node f db))).
    { assert (P : NoDup (sql_spectrum q node f db)) by apply NoDup_nodup.
      assert (U : forall x y, In x (sql_spectrum q node f db) -> In y (sql_spectrum q node f db) -> fst x = fst y -> x = y).
      { intros [i w] [i' w'] Hx Hy E. simpl in E. subst i'. apply A in Hx, Hy. destruct Hx as (re & Hx & <- & <-). destruct Hy as (re' & Hy & E & <-).
        apply Hrows in Hx, Hy. f_equal. apply Hw; tauto || congruence. }
      clear - P U. induction (sql_spectrum q node f db) as [|x l IH]; simpl; [constructor|]. inversion P as [|? ? P1 P2]; subst. constructor.
      - intros H. apply in_map_iff in H. destruct H as (y & E & H). apply P1. rewrite (U x y (or_introl eq_refl) (or_intror H) (eq_sym E)). exact H.
      - apply IH; [exact P2|]. intros a b Ha Hb. apply U; now right. }
    split; [|exact N]. unfold sql_count. rewrite <- (map_length fst (sql_spectrum q node f db)). apply Permutation_length.
    apply NoDup_Permutation; [exact N|apply NoDup_nodup|]. intros i. rewrite B, in_map_iff. split.
    + intros ([i' w] & <- & H). now exists w.
    + intros (w & H). now exists (i, w).
Qed.
Print Assumptions C66_spectrum_partial.

Lemma split_in {A} (x : A) l : In x l -> exists a b, l = a ++ x :: b.
Proof. apply in_split. Qed.

(** lost, reacted and killed rays end there, so their spectra have exactly one entry per
    counted ray (no process running two tasks). *)
Theorem C66_volume_spectrum_partial : forall end_rays pool ms q node f,
  one_task pool -> Forall traced (concat (concat pool)) -> received end_rays pool ms ->
  q = QLost \/ q = QReacted \/ q = QKilled ->
  let db := on_disk (monitor_queue ms) in
  length (sql_spectrum q node f db) = sql_count q node f db /\ NoDup (map fst (sql_spectrum q node f db)).
Proof.
  intros er pool ms q node f H1 Ht Hr Hq. cbv zeta. apply C66_spectrum_partial.
  unfold on_disk. rewrite joined_spec. destruct (monitor_spec ms) as (_ & Hin & _).
  intros re re' Hre Hre' Hc Hc' E. apply in_map_iff in Hre, Hre'. destruct Hre as ([j m] & <- & Hm). destruct Hre' as ([j' m'] & <- & Hm').
  apply in_combine_r in Hm, Hm'. rewrite counted_eq in Hc, Hc'. simpl in E |- *.
  apply gid_inj in E; [|apply Hin; now apply in_map|apply Hin; now apply in_map]. injection E as E1 E2.
  apply (received_in _ _ _ Hr) in Hm, Hm'. destruct Hm as (h & Gh & He). destruct Hm' as (h' & Gh' & He'). rewrite <- E1, <- E2 in Gh'.
  destruct (one_task_number pool _ _ _ _ h h' H1 Gh Gh') as [_ <-].
  assert (Hh : In h (concat (concat pool))).
  { rewrite <- pool_rays_histories. apply in_map_iff. exists ((m_pid m, m_idx m), h). split; [reflexivity|]. apply in_pool_rays. now exists (m_task m). }
  apply (proj1 (Forall_forall _ _) Ht) in Hh. destruct Hh as (fuel & Sc & mx & mp & me & us & r & Eh).
  assert (I1 : In (m_event m) h) by (destruct er; [apply filter_In in He; tauto|exact He]).
  assert (I2 : In (m_event m') h) by (destruct er; [apply filter_In in He'; tauto|exact He']).
  assert (K : forall e, counted q node f e = true -> is_terminal (e_kind e) = true).
  { intros e Hce. unfold counted in Hce. destruct Hq as [->|[->| ->]]; simpl in Hce; rewrite !andb_true_iff, kind_is_spec in Hce; destruct Hce as [[_ ->] _]; reflexivity. }
  destruct (split_in _ _ I1) as (a & b & Ea). rewrite Ea in I2, Eh.
  pose proof (C01_nothing_after_ending _ _ _ _ _ _ _ _ _ _ Eh (K _ Hc)) as ->.
  apply in_app_or in I2. destruct I2 as [I2|[I2|[]]]; [|now rewrite I2].
  destruct (split_in _ _ I2) as (c & d & Ec). subst a. rewrite <- app_assoc in Eh. simpl in Eh.
  pose proof (C01_nothing_after_ending _ _ _ _ _ _ _ _ _ _ Eh (K _ Hc')) as D. destruct d; discriminate.
Qed.
Print Assumptions C66_volume_spectrum_partial.

(** A ray that escapes twice, with different wavelengths, is listed twice. *)
Theorem C66_spectrum_refuted : exists pool ms q node f,
  one_task pool /\ received false pool ms /\ length (concat (concat pool)) = 1 /\
  sql_count q node f (on_disk (monitor_queue ms)) = 1 /\ 
  In (0, 500%R) (sql_spectrum q node f (on_disk (monitor_queue ms))) /\ In (0, 600%R) (sql_spectrum q node f (on_disk (monitor_queue ms))).
Proof.
  exists [[[ [ev_generate 500; ev_escape 500; ev_enter 500; ev_absorb 500; ev_emit 600; ev_escape 600; ev_exit 600] ]]].
  eexists (in_turn false _). exists QEscaping, 1, all_faces.
  split; [intros [|p] ts; simpl; [intros [= <-]; simpl; lia|destruct p; discriminate]|].
  split; [apply in_turn_received|].
  split; [reflexivity|]. split; [reflexivity|].
  set (ms := in_turn false _). assert (G : gid (ids (monitor_queue ms)) (0, 0) = 0) by reflexivity.
  unfold sql_spectrum, on_disk. rewrite select_spec. split; apply nodup_In, in_map_iff.
  - exists (Msg 0 0 0 (ev_escape 500)). unfold rrow, key. cbn [m_pid m_idx m_event throw_id row_ray]. rewrite G. split; [reflexivity|].
    apply filter_In. split; [simpl; tauto|reflexivity].
  - exists (Msg 0 0 0 (ev_escape 600)). unfold rrow, key. cbn [m_pid m_idx m_event throw_id row_ray]. rewrite G. split; [reflexivity|].
    apply filter_In. split; [simpl; tauto|reflexivity].
Qed.
Print Assumptions C66_spectrum_refuted.

(** ** C79 *)
(** The progress bar shows the number of rays started, at every moment, and at the end the
    number of rays thrown, when no pool process runs two tasks. *)
Theorem C79_progress_partial : forall end_rays pool ms k, one_task pool -> Forall traced (concat (concat pool)) ->
  received end_rays pool ms ->
  (exists started, NoDup started /\ updates (monitor_queue (firstn k ms)) = length started /\
     forall p i, In (p, i) started <-> exists m, In m (firstn k ms) /\ m_pid m = p /\ m_idx m = i) /\
  updates (monitor_queue ms) = length (concat (concat pool)).
Proof.
  intros er pool ms k H1 Ht Hr.
  assert (Hne : Forall (fun h : list event => (if er then filter is_end_ray h else h) <> []) (concat (concat pool)))
    by (eapply Forall_impl; [|exact Ht]; intros h; apply traced_sends).
  pose proof (received_steady er pool ms H1 Hne Hr) as G. split.
  - destruct (G k) as (_ & E & _). destruct (monitor_spec (firstn k ms)) as (Hnd & Hin & _).
    exists (ids (monitor_queue (firstn k ms))). split; [exact Hnd|]. split; [exact E|]. intros p i. rewrite Hin, in_map_iff. split.
    + intros (m & [= <- <-] & Hm). now exists m.
    + intros (m & Hm & <- & <-). now exists m.
  - destruct (G (length ms)) as (_ & E & _). rewrite firstn_all in E. rewrite E. now apply (ids_are_rays er).
Qed.
Print Assumptions C79_progress_partial.

(** Otherwise the bar can stop early. *)
Theorem C79_progress_refuted : exists pool ms, received false pool ms /\ length (concat (concat pool)) = 2 /\ updates (monitor_queue ms) = 1.
Proof.
  exists [[[[ev_generate 500; ev_exit 500]]; [[ev_generate 600; ev_exit 600]]]; []]. eexists (in_turn false _).
  split; [apply in_turn_received|split; reflexivity].
Qed.
Print Assumptions C79_progress_refuted.

Example C79_case : updates (monitor_queue (ex_ms true)) = 3.
Proof. reflexivity. Qed.
