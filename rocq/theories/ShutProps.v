(** C150: "pvtrace-cli simulate" stores every event before it ends, and ends. *)
From Coq Require Import Reals List Bool Arith Lia Permutation.
From Verif Require Import Base Vec TracerModel BundleModel BundleProofs CliModel CliProofs CliProps ShutModel.
Import ListNotations.
Open Scope nat_scope.

Definition puts (l : list item) : list message := flat_map (fun i => match i with Put m => [m] | Fail => [] end) l.
Definition in_hand (d : reader) : list message := match d with Busy m => [m] | _ => [] end.
Definition sent (s : run) : list message := stored s ++ in_hand (reader_at s) ++ waiting s.
Lemma puts_map ms : puts (map Put ms) = ms.
Proof. unfold puts. induction ms; simpl; congruence. Qed.

(** Nothing is lost or repeated on the way: while the thread lives, what was taken out of the
    processes is in the file, in hand or in the queue. *)
Lemma sent_step cap opens s1 s2 orig : act cap opens (fun _ => false) s1 s2 \/ poll s1 s2 ->
  (forall l, interleave (map puts (todo s1)) l -> interleave orig (sent s1 ++ l)) ->
  (forall l, interleave (map puts (todo s2)) l -> interleave orig (sent s2 ++ l)).
Proof.
  intros Hs H l Hl.
  destruct Hs as [Hs|Hs]; destruct Hs; cbn [todo] in *; unfold sent in *; cbn [stored reader_at waiting in_hand app] in *; try discriminate; try (now apply H).
  - specialize (H (m :: l)). rewrite <- !app_assoc in *. cbn [app] in *. apply H.
    rewrite map_app in *. cbn [map puts flat_map app] in *. apply inter_cons. exact Hl.
  - apply H. rewrite map_app in *. exact Hl.
  - destruct opens; now apply H.
  - specialize (H l Hl). rewrite <- !app_assoc in *. exact H.
  - destruct (stop_set c); now apply H.
Qed.
Lemma sent_runs cap opens programs n s : runs cap opens (fun _ => false) n (started programs) s ->
  forall l, interleave (map puts (todo s)) l -> interleave (map puts programs) (sent s ++ l).
Proof.
  intros H. remember (started programs) as s0 eqn:E. induction H as [s|n s s1 s2 _ IH A|n s s1 s2 _ IH A]; subst.
  - intros l Hl. exact Hl.
  - apply (sent_step cap opens s1 s2); auto.
  - apply (sent_step cap opens s1 s2); auto.
Qed.

(** Where the threads can be *)
Record sound (opens : bool) (s : run) : Prop := {
  so_left : caller_at s <> Simulating -> raised s = true \/ Forall (eq []) (todo s);
  so_return : reader_at s = Returned -> stop_set (caller_at s) = true;
  so_empty : reader_at s = CheckingEmpty -> stop_set (caller_at s) = true;
  so_ended : caller_at s = Ended -> reader_at s = Returned \/ reader_at s = Dead;
  so_drained : stop_set (caller_at s) = true -> raised s = false -> waiting s = [];
  so_dead : opens = true -> reader_at s <> Dead }.
Lemma snoc_nil {A} (l : list A) x : l ++ [x] <> [].
Proof. destruct l; discriminate. Qed.
Lemma none_left {A} before (x : A) rest after : ~ Forall (eq []) (before ++ (x :: rest) :: after).
Proof. intros H. apply Forall_app in H. destruct H as [_ H]. inversion H. discriminate. Qed.
Lemma sound_step cap opens s1 s2 : act cap opens (fun _ => false) s1 s2 \/ poll s1 s2 -> sound opens s1 -> sound opens s2.
Proof.
  intros Hs [L R' E N D X].
  destruct Hs as [Hs|Hs]; destruct Hs; cbn [todo raised waiting reader_at stored caller_at] in *; try discriminate;
    split; cbn [todo raised waiting reader_at stored caller_at]; try easy; auto.
  - intros Hc. destruct (L Hc) as [G|G]; [now left|]. now apply none_left in G.
  - intros Hc Hr. subst r. exfalso. destruct c; try discriminate; (destruct L as [G|G]; [discriminate|discriminate|]; now apply none_left in G).
  - intros _. apply L. discriminate.
  - intros _. apply L. discriminate.
  - destruct opens; discriminate.
  - destruct opens; discriminate.
  - intros Hc. destruct (N Hc); discriminate.
  - intros ->. discriminate.
  - intros Hc. destruct (N Hc); discriminate.
  - intros Hc Hr. discriminate (D Hc Hr).
  - intros Hc. destruct (N Hc); discriminate.
  - destruct (stop_set c); discriminate.
  - destruct (stop_set c); [reflexivity|discriminate].
  - intros Hc. destruct (N Hc); discriminate.
  - destruct (stop_set c); discriminate.
  - intros Hc. destruct (N Hc); discriminate.
  - intros Hc. destruct (N Hc); discriminate.
Qed.
Lemma sound_runs cap opens programs n s : runs cap opens (fun _ => false) n (started programs) s -> sound opens s.
Proof.
  intros H. remember (started programs) as s0 eqn:E. induction H as [s|n s s1 s2 _ IH A|n s s1 s2 _ IH A]; subst.
  - split; cbn; easy.
  - apply (sound_step cap opens s1 s2); auto.
  - apply (sound_step cap opens s1 s2); auto.
Qed.

(** When the command has ended without an exception, the file holds the events of all processes: the
    monitor of CliModel.v received them all ([received]), in some order that keeps the order of each
    process. *)
Theorem C150_all_stored_partial : forall capacity end_rays pool n s,
  runs capacity true (fun _ => false) n (started (map (map Put) (pool_messages end_rays pool))) s ->
  caller_at s = Ended ->
  raised s = false /\ received end_rays pool (stored s) /\ holds (on_disk (monitor_queue (stored s))) (stored s).
Proof.
  intros cap er pool n s H He. set (L := pool_messages er pool) in *.
  assert (Hr : raised s = false /\ Forall (Forall (fun i => i <> Fail)) (todo s)).
  { remember (started (map (map Put) L)) as s0 eqn:E0. clear He. induction H as [s|n s s1 s2 _ IH A|n s s1 s2 _ IH A].
    - subst. cbn. split; [reflexivity|]. apply Forall_forall. intros l Hl. apply in_map_iff in Hl. destruct Hl as (ms & <- & _).
      apply Forall_forall. intros i Hi. apply in_map_iff in Hi. destruct Hi as (m & <- & _). discriminate.
    - specialize (IH E0). destruct A; cbn [raised todo] in *; try exact IH; destruct IH as [-> F]; apply Forall_app in F; destruct F as [F1 F2]; inversion F2 as [|x y F3 F4]; subst.
      + split; [reflexivity|]. apply Forall_app. split; [exact F1|]. constructor; [now inversion F3|exact F4].
      + inversion F3. congruence.
    - specialize (IH E0). destruct A; exact IH. }
  destruct Hr as [Hr _]. split; [exact Hr|].
  pose proof (sound_runs _ _ _ _ _ H) as [SL _ _ SN SD SX].
  split; [|apply C28_consistent_prefix].
  assert (Ht : Forall (eq []) (todo s)) by (destruct SL as [G|G]; [rewrite He; discriminate|congruence|exact G]).
  assert (Hw : waiting s = []) by (apply SD; [now rewrite He|exact Hr]).
  assert (Hd : reader_at s = Returned) by (destruct (SN He) as [G|G]; [exact G|now apply SX in G]).
  pose proof (sent_runs _ _ _ _ _ H []) as G. rewrite map_map, (map_ext _ (fun ms => ms) puts_map), map_id in G.
  unfold sent in G. rewrite Hw, Hd in G. cbn [in_hand app] in G. rewrite !app_nil_r in G. apply G.
  apply inter_nil. apply Forall_map. eapply Forall_impl; [|exact Ht]. now intros l <-.
Qed.
Print Assumptions C150_all_stored_partial.

(** Whatever exceptions the tasks raise, at every moment the file holds a beginning of what each
    process has to send, interleaved. *)
Lemma interleave_split {A} (a : list A) : forall b ls, interleave ls (a ++ b) ->
  exists done rest, map (fun p => fst p ++ snd p) (combine done rest) = ls /\ length done = length rest /\ interleave done a /\ interleave rest b.
Proof.
  induction a as [|x a IH]; intros b ls H.
  - exists (map (fun _ => []) ls), ls. split; [|split; [now rewrite map_length|split; [|exact H]]].
    + clear. induction ls; simpl; congruence.
    + apply inter_nil. apply Forall_map, Forall_forall. reflexivity.
  - cbn [app] in H. inversion H as [|before y l after rest' H' E1 E2]; subst.
    destruct (IH b _ H') as (done & rest & E & Hl & Hd & Hr).
    assert (S : forall (before : list (list A)) l after done rest, length done = length rest ->
      map (fun p => fst p ++ snd p) (combine done rest) = before ++ l :: after ->
      exists d1 d d2 r1 r r2, done = d1 ++ d :: d2 /\ rest = r1 ++ r :: r2 /\ length d1 = length r1 /\
        map (fun p => fst p ++ snd p) (combine d1 r1) = before /\ d ++ r = l /\ map (fun p => fst p ++ snd p) (combine d2 r2) = after).
    { clear. induction before as [|z before IH]; intros l after [|d done] [|r rest]; simpl; intros Hl E; try discriminate; injection Hl as Hl; injection E as E1 E2.
      - exists [], d, done, [], r, rest. repeat split; auto.
      - destruct (IH _ _ _ _ Hl E2) as (d1 & d' & d2 & r1 & r' & r2 & -> & -> & Hl' & E3 & E4 & E5).
        exists (d :: d1), d', d2, (r :: r1), r', r2. simpl. subst z before. repeat split; auto. }
    destruct (S _ _ _ _ _ Hl E) as (d1 & d & d2 & r1 & r & r2 & -> & -> & Hl1 & <- & <- & <-).
    exists (d1 ++ (x :: d) :: d2), (r1 ++ r :: r2).
    assert (C : forall (u v : list (list A)) u' v', length u = length v -> combine (u ++ u') (v ++ v') = combine u v ++ combine u' v').
    { clear. induction u; intros [|? v] u' v'; simpl; try discriminate; intros; [reflexivity|f_equal; auto]. }
    split; [rewrite C by exact Hl1; rewrite map_app; reflexivity|]. split; [rewrite !app_length in *; simpl in *; lia|].
    split; [now apply inter_cons|exact Hr].
Qed.
Theorem C150_stored_prefix_partial : forall capacity programs n s,
  runs capacity true (fun _ => false) n (started programs) s ->
  exists done rest, map (fun p => fst p ++ snd p) (combine done rest) = map puts programs /\ length done = length rest /\
    interleave done (stored s) /\ holds (on_disk (monitor_queue (stored s))) (stored s).
Proof.
  intros cap programs n s H.
  pose proof (sent_runs _ _ _ _ _ H _ (interleave_concat _)) as G. unfold sent in G. rewrite <- app_assoc in G.
  destruct (interleave_split _ _ _ G) as (done & rest & E & Hl & Hd & _). exists done, rest. split; [exact E|]. split; [exact Hl|]. split; [exact Hd|].
  apply C28_consistent_prefix.
Qed.
Print Assumptions C150_stored_prefix_partial.

(** Also after an exception, with processes that go on sending: at the moment the writing thread
    returns, what is in the file is everything the processes have sent up to then, in an order they
    may have sent it. *)
Theorem C150_returns_partial : forall capacity programs n s s',
  runs capacity true (fun _ => false) n (started programs) s ->
  act capacity true (fun _ => false) s s' \/ poll s s' ->
  reader_at s <> Returned -> reader_at s' = Returned ->
  waiting s' = [] /\ stop_set (caller_at s') = true /\
  forall l, interleave (map puts (todo s')) l -> interleave (map puts programs) (stored s' ++ l).
Proof.
  intros capacity programs n s s' H Hs Hr Hr'.
  assert (H' : exists m, runs capacity true (fun _ => false) m (started programs) s').
  { destruct Hs as [Hs|Hs]; [exists (S n); eapply runs_act; eassumption|exists n; eapply runs_poll; eassumption]. }
  destruct H' as [m H']. pose proof (sent_runs _ _ _ _ _ H') as G. destruct (sound_runs _ _ _ _ _ H') as [L R' E N D X].
  assert (W : waiting s' = []).
  { destruct Hs as [Hs|Hs]; destruct Hs; cbn [reader_at waiting] in *; try congruence. destruct (stop_set c); discriminate. }
  split; [exact W|]. split; [apply R'; exact Hr'|]. intros l Hl. specialize (G l Hl). unfold sent in G. rewrite W, Hr' in G.
  cbn [in_hand app] in G. now rewrite app_nil_r in G.
Qed.
Print Assumptions C150_returns_partial.
(** With one process (workers 1, or fewer rays than workers) nothing that was sent is missing, even if
    the tracer raises an exception. *)
Lemma interleave_single {A} (l a : list A) : interleave [l] a -> a = l.
Proof.
  intros H. remember [l] as ls eqn:E. revert l E. induction H as [ls F|before x l' after rest _ IH]; intros l E.
  - subst ls. now inversion F.
  - destruct before as [|? [|]]; try discriminate. injection E as <- ->. f_equal. apply IH. reflexivity.
Qed.
Theorem C150_one_process_partial : forall capacity ms (fails : bool) n s,
  runs capacity true (fun _ => false) n (started [map Put ms ++ (if fails then [Fail] else [])]) s ->
  caller_at s = Ended -> stored s = ms /\ raised s = fails.
Proof.
  intros cap ms fails n s H He.
  assert (J : ((exists ms', todo s = [map Put ms' ++ (if fails then [Fail] else [])]) /\ raised s = false \/ todo s = [[]] /\ raised s = fails) /\
    (caller_at s <> Simulating -> todo s = [[]] /\ raised s = fails) /\ (stop_set (caller_at s) = true -> waiting s = [])).
  { remember (started _) as s0 eqn:E0. clear He. induction H as [s|n s s1 s2 _ IH A|n s s1 s2 _ IH A]; [subst; cbn; split; [left; eauto|easy]| |].
    - specialize (IH E0). destruct IH as (I1 & I2 & I3).
      assert (T : forall before (x : item) rest after r q d w c, s1 = Run (before ++ (x :: rest) :: after) r q d w c ->
        before = [] /\ after = [] /\ r = false /\ c = Simulating /\ ((exists m ms', x = Put m /\ rest = map Put ms' ++ (if fails then [Fail] else [])) \/ x = Fail /\ rest = [] /\ fails = true)).
      { intros before x rest after r q d w c ->. cbn [todo raised caller_at] in *.
        assert (Hc : c = Simulating). { destruct c; try reflexivity; (destruct I2 as [I2 _]; [discriminate|]; destruct before as [|? [|]]; discriminate). }
        destruct I1 as [[[ms' I1] ->]|[I1 _]]; [|destruct before as [|? [|]]; discriminate].
        destruct before as [|? [|]]; try discriminate. injection I1 as E1 ->. repeat split; auto.
        destruct ms' as [|m ms']; cbn [map app] in E1.
        - right. destruct fails; [|discriminate]. injection E1 as -> ->. auto.
        - left. injection E1 as -> ->. eauto. }
      destruct A; cbn [todo raised waiting reader_at stored caller_at] in *; try (split; [exact I1|split; [exact I2|exact I3]]).
      + destruct (T _ _ _ _ _ _ _ _ _ eq_refl) as (-> & -> & -> & -> & [(m' & ms' & _ & ->)|(Q & _)]); [|discriminate].
        split; [left; cbn; eauto|]. easy.
      + destruct (T _ _ _ _ _ _ _ _ _ eq_refl) as (-> & -> & -> & -> & [(m' & ms' & Q & _)|(_ & -> & ->)]); [discriminate|].
        split; [now right|]. easy.
      + assert (Q : ts = [[]] /\ r = fails).
        { destruct I1 as [[[ms' ->] ->]|I1]; [|exact I1]. destruct H as [H|H]; [discriminate|]. inversion H as [|? ? E _]; subst. symmetry in E.
          apply app_eq_nil in E. destruct E as [E1 E2]. rewrite E1, E2. destruct fails; [discriminate|auto]. }
        split; [now right|]. split; [now intros _|easy].
      + split; [exact I1|]. split; [intros _; apply I2; discriminate|reflexivity].
      + split; [exact I1|]. split; [intros _; apply I2; discriminate|intros _; now apply I3].
      + split; [exact I1|]. split; [exact I2|]. intros Hc. discriminate (I3 Hc).
    - specialize (IH E0). destruct A; exact IH. }
  destruct J as (_ & J1 & J2). destruct J1 as [Ht Hr]; [rewrite He; discriminate|]. split; [|exact Hr].
  assert (Hw : waiting s = []) by (apply J2; now rewrite He).
  pose proof (sound_runs _ _ _ _ _ H) as [_ _ _ SN _ SX].
  assert (Hd : reader_at s = Returned) by (destruct (SN He) as [G|G]; [exact G|now apply SX in G]).
  pose proof (sent_runs _ _ _ _ _ H []) as G. unfold sent in G. rewrite Ht, Hw, Hd in G. cbn [in_hand app map] in G. rewrite !app_nil_r in G.
  assert (E : puts (map Put ms ++ (if fails then [Fail] else [])) = ms).
  { unfold puts. rewrite flat_map_app. fold (puts (map Put ms)). rewrite puts_map. destruct fails; cbn; apply app_nil_r. }
  rewrite E in G. apply interleave_single. apply G. apply inter_nil. repeat constructor.
Qed.
Print Assumptions C150_one_process_partial.

(** Every execution consists of a bounded number of steps that get something done, and as long as the
    main thread has not ended another one is possible: neither the full queue nor the two loops that
    wait can block the command for good. *)
Definition cost (s : run) : nat :=
  3 * length (concat (todo s)) + 2 * length (waiting s) +
  match reader_at s with Starting => 3 | Busy _ => 2 | Returned | Dead => 0 | _ => 1 end +
  match caller_at s with Simulating => 3 | Draining => 2 | Joining => 1 | Ended => 0 end.
Lemma act_cost cap opens u s1 s2 : act cap opens u s1 s2 -> cost s2 < cost s1.
Proof.
  intros H. destruct H; unfold cost; cbn [todo waiting reader_at caller_at]; rewrite ?concat_app, ?app_length; cbn [concat]; rewrite ?app_length; cbn [length]; try lia.
  - destruct opens; lia.
Qed.
Lemma poll_cost s1 s2 : poll s1 s2 -> cost s2 = cost s1.
Proof. intros H. destruct H; unfold cost; cbn [todo waiting reader_at caller_at]; try lia. destruct (stop_set c); lia. Qed.

Theorem C150_ends_partial : forall capacity programs n s, 1 <= capacity ->
  runs capacity true (fun _ => false) n (started programs) s ->
  n <= 3 * length (concat programs) + 6 /\
  (caller_at s = Ended \/ exists s', runs capacity true (fun _ => false) 1 s s').
Proof.
  intros cap programs n s Hc H. split.
  - assert (G : n + cost s <= cost (started programs)).
    { remember (started programs) as s0 eqn:E. clear E. induction H as [s|n s s1 s2 _ IH A|n s s1 s2 _ IH A]; [lia| |].
      - apply act_cost in A. lia.
      - apply poll_cost in A. lia. }
    unfold cost at 2 in G. cbn [started todo waiting reader_at caller_at length] in G. lia.
  - pose proof (sound_runs _ _ _ _ _ H) as [_ SR SE SN _ SX]. clear H.
    assert (One : forall s s2, act cap true (fun _ => false) s s2 -> exists s', runs cap true (fun _ => false) 1 s s').
    { intros s0 s2 A. exists s2. apply (runs_act _ _ _ 0 s0 s0 s2); [constructor|exact A]. }
    assert (Then_ : forall s s1, poll s s1 -> (exists s', runs cap true (fun _ => false) 1 s1 s') -> exists s', runs cap true (fun _ => false) 1 s s').
    { intros s0 s1 P [s' Hs']. exists s'. clear - P Hs'.
      assert (G : forall n x y, runs cap true (fun _ => false) n x y -> x = s1 -> runs cap true (fun _ => false) n s0 y).
      { intros n x y Hr. induction Hr as [x|n x a b _ IH A|n x a b _ IH A]; intros ->.
        - apply (runs_poll _ _ _ 0 s0 s0 s1); [constructor|exact P].
        - apply (runs_act _ _ _ n s0 a b); [now apply IH|exact A].
        - apply (runs_poll _ _ _ n s0 a b); [now apply IH|exact A]. }
      apply (G 1 s1 s' Hs' eq_refl). }
    destruct s as [ts r q d w c]. cbn [reader_at caller_at] in *.
    destruct c; [right|right|right|now left]; cbn [stop_set] in *.
    + (* Simulating *)
      destruct q as [|m q].
      * assert (P : (exists before i rest after, ts = before ++ (i :: rest) :: after) \/ Forall (eq []) ts).
        { clear. induction ts as [|[|i l] ts IH]; [now right| |].
          - destruct IH as [(b & i & rest & a & ->)|IH]; [left; now exists ([] :: b), i, rest, a|right; now constructor].
          - left. now exists [], i, l, ts. }
        destruct P as [(b & i & rest & a & ->)|P]; [|eapply One, act_leave; now right].
        destruct i; eapply One; [apply act_put; cbn; lia|apply act_fail].
      * destruct d; try discriminate (SR eq_refl); try discriminate (SE eq_refl); try (now destruct (SX eq_refl)).
        -- eapply One, act_open.
        -- eapply Then_; [apply poll_stop|]. cbn [stop_set]. eapply One, act_get.
        -- eapply One, act_get.
        -- eapply One, act_write. reflexivity.
    + (* Draining *)
      destruct q as [|m q]; [eapply One, act_stop|].
      destruct d; try discriminate (SR eq_refl); try discriminate (SE eq_refl); try (now destruct (SX eq_refl)).
      -- eapply One, act_open.
      -- eapply Then_; [apply poll_stop|]. cbn [stop_set]. eapply One, act_get.
      -- eapply One, act_get.
      -- eapply One, act_write. reflexivity.
    + (* Joining *)
      assert (Empty : forall q, exists s', runs cap true (fun _ => false) 1 (Run ts r q CheckingEmpty w Joining) s').
      { intros [|m q0]; [eapply One, act_return|]. eapply Then_; [apply poll_empty|]. eapply One, act_get. }
      assert (Check : forall q, exists s', runs cap true (fun _ => false) 1 (Run ts r q Checking w Joining) s').
      { intros q0. eapply Then_; [apply poll_stop|]. cbn [stop_set]. apply Empty. }
      destruct d; try (now destruct (SX eq_refl)).
      -- eapply One, act_open.
      -- apply Check.
      -- apply Empty.
      -- destruct q; [eapply Then_; [apply poll_get|apply Check]|eapply One, act_get].
      -- eapply One, act_write. reflexivity.
      -- eapply One, act_join. now left.
Qed.
Print Assumptions C150_ends_partial.

(** If the thread fails before its loop (for example because of a wrong --zmq), the main thread waits
    for ever for the queue to become empty. *)
Theorem C150_hangs_refuted : exists end_rays pool, concat (pool_messages end_rays pool) <> [] /\
  forall capacity unwritable n s,
    runs capacity false unwritable n (started (map (map Put) (pool_messages end_rays pool))) s -> caller_at s <> Ended.
Proof.
  exists false, ex_pool. split; [discriminate|]. set (L := pool_messages false ex_pool).
  assert (HL : ~ Forall (eq []) (map (map Put) L)) by (intros F; inversion F; discriminate). clearbody L.
  intros cap u n s H.
  assert (J : (reader_at s = Starting \/ reader_at s = Dead) /\ raised s = false /\ Forall (Forall (fun i => i <> Fail)) (todo s) /\
    (waiting s <> [] \/ ~ Forall (eq []) (todo s)) /\ (caller_at s = Simulating \/ caller_at s = Draining /\ waiting s <> [])).
  { remember (started _) as s0 eqn:E0. induction H as [s|n s s1 s2 _ IH A|n s s1 s2 _ IH A].
    - subst. cbn. split; [now left|]. split; [reflexivity|]. split; [|split; [now right|now left]].
      apply Forall_forall. intros l Hl. apply in_map_iff in Hl. destruct Hl as (ms & <- & _).
      apply Forall_forall. intros i Hi. apply in_map_iff in Hi. destruct Hi as (m & <- & _). discriminate.
    - destruct (IH E0) as (I1 & I2 & I3 & I4 & I5). clear IH. destruct A; cbn [todo raised waiting reader_at caller_at] in *.
      + split; [exact I1|]. split; [exact I2|]. split; [|split; [left; apply snoc_nil|destruct I5 as [I5|[I5 _]]; [now left|right; split; [exact I5|apply snoc_nil]]]].
        apply Forall_app in I3. destruct I3 as [F1 F2]. inversion F2 as [|x y F3 F4]; subst. apply Forall_app. split; [exact F1|]. constructor; [now inversion F3|exact F4].
      + apply Forall_app in I3. destruct I3 as [F1 F2]. inversion F2 as [|x y F3 F4]; subst. inversion F3. congruence.
      + split; [exact I1|]. split; [exact I2|]. split; [exact I3|]. split; [exact I4|]. right. split; [reflexivity|].
        destruct H as [H|H]; [congruence|]. destruct I4 as [I4|I4]; [exact I4|contradiction].
      + destruct I5 as [I5|[_ I5]]; [discriminate|contradiction].
      + destruct I5 as [I5|[I5 _]]; discriminate.
      + auto.
      + destruct I1; discriminate.
      + destruct I1; discriminate.
      + destruct I1; discriminate.
      + destruct I1; discriminate.
    - destruct (IH E0) as ([I1|I1] & _); destruct A; discriminate. }
  destruct J as (_ & _ & _ & _ & [J|[J _]]); rewrite J; discriminate.
Qed.
Print Assumptions C150_hangs_refuted.

(** If writing the last event fails, the command ends as if nothing had happened, without it. *)
Theorem C150_lost_refuted : exists end_rays pool m n s,
  runs 10 true (fun _ => true) n (started (map (map Put) (pool_messages end_rays pool))) s /\
  caller_at s = Ended /\ raised s = false /\ In m (concat (pool_messages end_rays pool)) /\ ~ In m (stored s).
Proof.
  exists false, [[[[ev_generate 500]]]]. set (m := Msg 0 0 0 (ev_generate 500)). exists m, 7, (Run [[]] false [] Dead [] Ended).
  split; [|cbn; auto]. change (map (map Put) (pool_messages false [[[[ev_generate 500]]]])) with [[Put m]]. unfold started. clearbody m.
  eapply runs_act; [|apply act_join; now right]. eapply runs_act; [|apply act_stop]. eapply runs_act; [|apply (act_die _ _ _ _ _ _ m); reflexivity].
  eapply runs_act; [|apply act_get]. eapply runs_poll; [|apply (poll_stop _ _ _ _ Draining)]. eapply runs_act; [|apply (act_open _ true)].
  eapply runs_act; [|apply act_leave; right; repeat constructor].
  eapply runs_act; [|apply (act_put _ _ _ [] m [] [] false [] Starting [] Simulating); cbn; lia]. constructor.
Qed.
Print Assumptions C150_lost_refuted.

(** Two processes with one event each; the second comes first. *)
Example C150_example : exists a b n s, pool_messages false [[[[ev_generate 500]]]; [[[ev_generate 600]]]] = [[a]; [b]] /\
  runs 1 true (fun _ => false) n (started [[Put a]; [Put b]]) s /\ caller_at s = Ended /\ stored s = [b; a].
Proof.
  exists (Msg 0 0 0 (ev_generate 500)), (Msg 1 0 0 (ev_generate 600)). set (a := Msg 0 0 0 _). set (b := Msg 1 0 0 _).
  exists 11, (Run [[]; []] false [] Returned [b; a] Ended). split; [reflexivity|]. split; [|auto]. unfold started. clearbody a b.
  eapply runs_act; [|apply act_join; now left]. eapply runs_act; [|apply act_return]. eapply runs_poll; [|apply (poll_stop _ _ _ _ Joining)].
  eapply runs_act; [|apply act_stop]. eapply runs_act; [|apply (act_write _ _ _ _ _ _ a [b]); reflexivity].
  eapply runs_act; [|apply act_leave; right; repeat constructor].
  eapply runs_act; [|apply act_get]. eapply runs_poll; [|apply (poll_stop _ _ _ _ Simulating)]. eapply runs_act; [|apply (act_write _ _ _ _ _ _ b []); reflexivity].
  eapply runs_act; [|apply (act_put _ _ _ [] a [] [[]] false [] (Busy b) [] Simulating); cbn; lia].
  eapply runs_act; [|apply act_get]. eapply runs_poll; [|apply (poll_stop _ _ _ _ Simulating)]. eapply runs_act; [|apply (act_open _ true)].
  eapply runs_act; [|apply (act_put _ _ _ [[Put a]] b [] [] false [] Starting [] Simulating); cbn; lia]. constructor.
Qed.
