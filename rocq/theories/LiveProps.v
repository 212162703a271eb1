(** C92, C93, C94, C95: what the studio reports while a simulation runs. *)
From Coq Require Import Reals ZArith List Bool Arith Lia Lra Permutation.
From Verif Require Import Base Vec DistModel MaterialModel PhaseModel TransformModel TracerModel TracerProps KernelModel KernelProofs LogProofs LogProps
  TallyModel TallyProofs RngModel BundleModel BundleProofs BundleProps StreamModel StreamProps LiveModel LiveProofs.
Import ListNotations.
Open Scope nat_scope.

Section Live.
Variables (scene params : Type) (specs : scene -> list (nat * recorder)) (stream : scene -> params -> list (option bdata))
          (rays max_paths : params -> nat).
Notation happens := (happens scene params specs stream rays max_paths).
Notation react := (react scene params specs stream rays max_paths).
Notation continue_task := (continue_task scene params specs stream rays max_paths).

(** ** C92 *)
(** Whatever the order in which commands are processed and tasks continued: run number i sends
    nothing, or "started", then one report for each of the first bundles of one stream, then
    perhaps "done".  The k-th report shows what EngineResult.recorders reads out of the sums of
    the arrays of the bundles up to the k-th.  "done" comes after the last bundle, or after a
    stop. *)
Theorem C92_reports : forall s0 hs i p, nth_error (runs hs) i = Some p ->
  let out := sent_by i (happens (socket0 (Some s0)) hs) in
  out = [] \/
  exists c u ds ms rest ending,
    In c (scenes_of s0 hs) /\ In u (scenes_of s0 hs) /\ stream u p = map Some ds ++ rest /\
    out = MStarted (rays p) (specs c) :: ms ++ ending /\ length ms = length ds /\
    (forall k m, nth_error ms k = Some m -> exists d fs ps, nth_error ds k = Some d /\
       m = MBundle (bd_traced d) (rays p) fs ps /\ shows (specs c) (summed (firstn (S k) ds)) fs) /\
    (ending = [] \/ ending = [MDone] /\ (rest = [] \/ In Stop hs)).
Proof.
  intros s0 hs i p Hp out. destruct (in_order_always scene params specs stream rays max_paths s0 hs) as (_ & _ & Hl & Ht & _).
  fold out in Ht. set (w := happens (socket0 (Some s0)) hs) in *.
  destruct (nth_error (s_tasks w) i) as [t|] eqn:Ei.
  2:{ exfalso. apply nth_error_None in Ei. assert (i < length (runs hs)) by (apply nth_error_Some; congruence). lia. }
  destruct (Ht i t Ei) as (q & Hq & F). rewrite Hp in Hq. injection Hq as <-. fold out in F. clearbody out.
  assert (Rep : forall c ds ms, reports scene params specs rays max_paths p c ds ms -> length ms = length ds /\
    forall k m, nth_error ms k = Some m -> exists d fs ps, nth_error ds k = Some d /\
       m = MBundle (bd_traced d) (rays p) fs ps /\ shows (specs c) (summed (firstn (S k) ds)) fs).
  { intros c ds ms (L & R & _). split; [exact L|]. intros k m Hk. destruct (R k m Hk) as (d & fs & ps & A & B & C & _). eauto 6. }
  destruct t as [q|q c|q c u rest tot sent| |]; cbn [follows] in F.
  - left. apply F.
  - right. destruct F as (_ & Hc & ->). exists c, c, [], [], (stream c p), []. do 3 (split; [auto|]). split; [reflexivity|]. split; [reflexivity|].
    split; [intros [|k] m Hk; discriminate|now left].
  - right. destruct F as (_ & Hc & Hu & ds & ms & St & -> & R & _). exists c, u, ds, ms, rest, []. do 3 (split; [auto|]). rewrite app_nil_r. split; [reflexivity|].
    destruct (Rep c ds ms R). split; [assumption|]. split; [assumption|now left].
  - right. destruct F as (c & u & ds & ms & rest & Hc & Hu & St & -> & R & E & _). exists c, u, ds, ms, rest, [MDone]. do 3 (split; [auto|]). split; [reflexivity|].
    destruct (Rep c ds ms R). split; [assumption|]. split; [assumption|]. right. auto.
  - right. destruct F as (c & u & ds & ms & x & rest & Hc & Hu & St & -> & R & _). exists c, u, ds, ms, (x :: rest), []. do 3 (split; [auto|]). rewrite app_nil_r. split; [reflexivity|].
    destruct (Rep c ds ms R). split; [assumption|]. split; [assumption|now left].
Qed.

(** The counters of a run never fall from one report to a later one. *)
Lemma sum_firstn_le (l : list nat) : forall a b, a <= b -> list_sum (firstn a l) <= list_sum (firstn b l).
Proof. induction l as [|x l IH]; intros [|a] [|b] H; cbn; try lia. specialize (IH a b ltac:(lia)). unfold list_sum in IH. lia. Qed.
Lemma shown rs A fs r f : shows rs A fs -> nth_error fs r = Some f -> f_rays f = a_distinct A r /\ f_crossings f = a_cross A r.
Proof.
  unfold shows. destruct (kernel_tables rs) as [[ks rows] total] eqn:E. destruct (tables_ok rs ks rows total E) as (_ & _ & Elen & _).
  intros (L & H) Hf. destruct (nth_error ks r) as [k|] eqn:Hk.
  - destruct (H r k f Hk Hf) as (_ & A1 & A2 & _). split; assumption.
  - exfalso. apply nth_error_None in Hk. assert (r < length fs) by (apply nth_error_Some; congruence). lia.
Qed.
Theorem C92_counts_never_fall : forall s0 hs i a b ta tb na nb fa fb pa pb r x y,
  let out := sent_by i (happens (socket0 (Some s0)) hs) in
  nth_error out a = Some (MBundle ta na fa pa) -> nth_error out b = Some (MBundle tb nb fb pb) -> a <= b ->
  nth_error fa r = Some x -> nth_error fb r = Some y -> f_rays x <= f_rays y /\ f_crossings x <= f_crossings y.
Proof.
  intros s0 hs i a b ta tb na nb fa fb pa pb r x y out Ha Hb Hab Hx Hy.
  destruct (nth_error (runs hs) i) as [p|] eqn:Ep.
  2:{ exfalso. destruct (in_order_always scene params specs stream rays max_paths s0 hs) as (_ & _ & Hl & _ & Hno).
      apply nth_error_None in Ep. unfold out in Ha. rewrite Hno in Ha by lia. destruct a; discriminate. }
  destruct (C92_reports s0 hs i p Ep) as [E|(c & u & ds & ms & rest & ending & _ & _ & _ & E & L & R & En)]; fold out in E.
  { rewrite E in Ha. destruct a; discriminate. }
  assert (G : forall a t n f q, nth_error out a = Some (MBundle t n f q) -> exists k, a = S k /\ nth_error ms k = Some (MBundle t n f q)).
  { intros [|k] t n f q H; rewrite E in H; [discriminate|]. exists k. split; [reflexivity|]. cbn [nth_error] in H.
    destruct (Nat.lt_ge_cases k (length ms)); [rewrite nth_error_app1 in H; assumption|].
    rewrite nth_error_app2 in H by assumption. destruct En as [->|(-> & _)]; destruct (k - length ms) as [|[|]]; discriminate. }
  destruct (G a ta na fa pa Ha) as (ka & -> & Ka). destruct (G b tb nb fb pb Hb) as (kb & -> & Kb).
  destruct (R ka _ Ka) as (d & fs & ps & _ & Em & Sh). injection Em as _ _ <- _.
  destruct (R kb _ Kb) as (d' & fs' & ps' & _ & Em & Sh'). injection Em as _ _ <- _.
  destruct (shown _ _ _ r x Sh Hx) as [-> ->]. destruct (shown _ _ _ r y Sh' Hy) as [-> ->]. unfold summed. cbn [a_distinct a_cross].
  rewrite <- !firstn_map. split; apply sum_firstn_le; lia.
Qed.

(** Without a scene the answer is an error and no run is started. *)
Theorem C92_no_scene : forall p w, s_scene w = None ->
  s_tasks (react w (Run p)) = s_tasks w /\ s_sent (react w (Run p)) = s_sent w ++ [Msg None MError].
Proof. intros p w H. cbn. rewrite H. split; reflexivity. Qed.

(** ** Progress *)
Definition is_apply (h : happening scene params) : bool := match h with Apply _ => true | _ => false end.
Definition is_run (h : happening scene params) : bool := match h with Run _ => true | _ => false end.
Definition is_continue (i : nat) (h : happening scene params) : bool := match h with Continue j => Nat.eqb j i | _ => false end.
Definition turns (i : nat) (hs : list (happening scene params)) : nat := length (filter (is_continue i) hs).
(** how many more turns a task needs at most, when the scene is [s] *)
Definition need (s : scene) (t : task scene params) : nat :=
  match t with
  | Created p => length (stream s p) + 3
  | Announced p _ => length (stream s p) + 2
  | Tracing _ _ _ rest _ _ => length rest + 1
  | Ended | Crashed => 0
  end.
Definition finished (t : task scene params) : Prop := t = Ended \/ t = Crashed.
Lemma continue_need s stop t t' out : continue_task (Some s) stop t = (t', out) -> need s t' <= need s t - 1.
Proof.
  destruct t as [p|p c|p c u [|[d|] rest] tot sent| |]; cbn; intros E.
  all: try (injection E as <- <-; cbn; lia).
  destruct stop; [injection E as <- <-; cbn; lia|].
  destruct (same_shape scene specs c u); cbn [negb] in E; injection E as <- <-; cbn; lia.
Qed.
Lemma react_need s w h i t : s_scene w = Some s -> is_apply h = false -> nth_error (s_tasks w) i = Some t ->
  s_scene (react w h) = Some s /\ exists t', nth_error (s_tasks (react w h)) i = Some t' /\
    need s t' <= need s t - (if is_continue i h then 1 else 0).
Proof.
  intros Es Ha Ei. destruct h as [p| |s'|j]; [| |discriminate|]; cbn [LiveModel.react].
  - rewrite Es. cbn. split; [reflexivity|]. exists t. split; [|lia].
    rewrite nth_error_app1; [exact Ei|apply nth_error_Some; congruence].
  - cbn. split; [exact Es|]. exists t. split; [exact Ei|lia].
  - destruct (nth_error (s_tasks w) j) as [t0|] eqn:Ej.
    + rewrite Es. destruct (continue_task (Some s) (s_stop w) t0) as [t' out] eqn:Ec. cbn [s_scene s_tasks is_continue]. split; [reflexivity|].
      destruct (Nat.eqb_spec j i) as [->|N].
      * rewrite Ei in Ej. injection Ej as <-. exists t'. rewrite set_nth_at by (apply nth_error_Some; congruence). split; [reflexivity|].
        exact (continue_need s _ _ _ _ Ec).
      * exists t. rewrite set_nth_other by exact N. split; [exact Ei|lia].
    + split; [exact Es|]. exists t. split; [exact Ei|]. cbn. destruct (Nat.eqb_spec j i) as [->|]; [congruence|lia].
Qed.
Lemma happens_need s : forall hs w i t, s_scene w = Some s -> Forall (fun h => is_apply h = false) hs -> nth_error (s_tasks w) i = Some t ->
  exists t', nth_error (s_tasks (happens w hs)) i = Some t' /\ need s t' <= need s t - turns i hs.
Proof.
  induction hs as [|h hs IH]; intros w i t Es Hf Ei; [exists t; split; [exact Ei|cbn; lia]|].
  inversion Hf as [|? ? Hh Hf']; subst. destruct (react_need s w h i t Es Hh Ei) as (Es' & t1 & E1 & N1).
  destruct (IH _ i t1 Es' Hf' E1) as (t2 & E2 & N2). exists t2. split; [exact E2|]. unfold turns in *. cbn [filter].
  destruct (is_continue i h); cbn [length]; lia.
Qed.
Lemma need_zero s t : need s t = 0 -> finished t.
Proof. destruct t; cbn; intros H; try lia; [left|right]; reflexivity. Qed.

(** Every run comes to an end: with the scene left alone, it has ended (or died of an exception)
    after three turns more than its stream has bundles; what other runs do does not matter. *)
Theorem C92_runs_end : forall s0 before p after,
  Forall (fun h => is_apply h = false) (before ++ after) -> length (stream s0 p) + 3 <= turns (length (runs before)) after ->
  exists t, nth_error (s_tasks (happens (socket0 (Some s0)) (before ++ Run p :: after))) (length (runs before)) = Some t /\ finished t.
Proof.
  intros s0 before p after Hf Ht. apply Forall_app in Hf. destruct Hf as [Hb Ha].
  rewrite (happens_app scene params specs stream rays max_paths). destruct (in_order_always scene params specs stream rays max_paths s0 before) as ((s & Es & Hs) & _ & Hl & _).
  set (w := happens (socket0 (Some s0)) before) in *. clearbody w.
  assert (s = s0).
  { unfold scenes_of in Hs. destruct Hs as [->|Hs]; [reflexivity|]. exfalso. apply in_flat_map in Hs. destruct Hs as (h & Hh & Hs).
    rewrite Forall_forall in Hb. specialize (Hb h Hh). destruct h; cbn in *; try contradiction; discriminate. }
  subst s. change (happens w (Run p :: after)) with (happens (react w (Run p)) after).
  assert (E : react w (Run p) = Socket (Some s0) false (s_tasks w ++ [Created p]) (s_sent w)) by (cbn; rewrite Es; reflexivity). rewrite E.
  destruct (happens_need s0 after (Socket (Some s0) false (s_tasks w ++ [Created p]) (s_sent w)) (length (runs before)) (Created p) eq_refl Ha) as (t & Et & N).
  - cbn [s_tasks]. rewrite nth_error_app2 by lia. replace (length (runs before) - length (s_tasks w)) with 0 by lia. reflexivity.
  - exists t. split; [exact Et|]. apply (need_zero s0). cbn [need] in N. lia.
Qed.

(** ** C93 *)
Definition no_bundle (m : msg) : Prop := match m_content m with MBundle _ _ _ _ => False | _ => True end.
Lemma stopped_react w h : s_stop w = true -> is_run h = false -> s_stop (react w h) = true /\ exists l, s_sent (react w h) = s_sent w ++ l /\ Forall no_bundle l.
Proof.
  intros Hs Hr. destruct h as [p| |s|i]; [discriminate| | |]; cbn [LiveModel.react].
  - split; [reflexivity|]. exists []. now rewrite app_nil_r.
  - split; [exact Hs|]. exists []. now rewrite app_nil_r.
  - destruct (nth_error (s_tasks w) i) as [t|]; [|split; [exact Hs|exists []; now rewrite app_nil_r]].
    rewrite Hs. destruct (continue_task (s_scene w) true t) as [t' out] eqn:E. cbn. split; [reflexivity|]. exists (map (Msg (Some i)) out). split; [reflexivity|].
    destruct t as [p|p c|p c u [|[d|] rest] tot sent| |]; cbn in E; [destruct (s_scene w)..| | | | |]; injection E as <- <-; cbn; repeat constructor.
Qed.
(** After "stop", and until the next "run", no report is sent, whatever is running: each running
    task says "done" at its next turn. *)
Theorem C93_stop_partial : forall w hs, Forall (fun h => is_run h = false) hs ->
  exists l, s_sent (happens (react w Stop) hs) = s_sent w ++ l /\ Forall no_bundle l.
Proof.
  intros w hs Hf.
  assert (G : forall hs w, s_stop w = true -> Forall (fun h => is_run h = false) hs -> exists l, s_sent (happens w hs) = s_sent w ++ l /\ Forall no_bundle l).
  { clear. induction hs as [|h hs IH]; intros w Hs Hf; [exists []; split; [now rewrite app_nil_r|constructor]|].
    inversion Hf as [|? ? Hh Hf']; subst. destruct (stopped_react w h Hs Hh) as (Hs' & l & El & Fl). destruct (IH _ Hs' Hf') as (l' & El' & Fl').
    exists (l ++ l'). split; [|now apply Forall_app]. change (happens w (h :: hs)) with (happens (react w h) hs). rewrite El', El. now rewrite app_assoc. }
  destruct (G hs (react w Stop) eq_refl Hf) as (l & El & Fl). exists l. split; [exact El|exact Fl].
Qed.
Theorem C93_tasks_end_partial : forall w i t, nth_error (s_tasks w) i = Some t -> s_scene w <> None ->
  forall hs, Forall (fun h => is_run h = false) hs -> 3 <= turns i hs ->
  exists t', nth_error (s_tasks (happens (react w Stop) hs)) i = Some t' /\ finished t'.
Proof.
  intros w i t Ei Hs hs Hf Ht.
  set (need3 := fun t : task scene params => match t with Created _ => 3 | Announced _ _ => 2 | Tracing _ _ _ _ _ _ => 1 | _ => 0 end).
  assert (G : forall hs w t, s_stop w = true -> s_scene w <> None -> nth_error (s_tasks w) i = Some t -> Forall (fun h => is_run h = false) hs ->
    exists t', nth_error (s_tasks (happens w hs)) i = Some t' /\ need3 t' <= need3 t - turns i hs).
  { clear - need3. induction hs as [|h hs IH]; intros w t St Sc Ei Hf; [exists t; split; [exact Ei|cbn; lia]|].
    inversion Hf as [|? ? Hh Hf']; subst. change (happens w (h :: hs)) with (happens (react w h) hs).
    destruct (stopped_react w h St Hh) as (St' & _).
    assert (S1 : s_scene (react w h) <> None /\ exists t1, nth_error (s_tasks (react w h)) i = Some t1 /\ need3 t1 <= need3 t - (if is_continue i h then 1 else 0)).
    { destruct h as [p| |s|j]; [discriminate| | |]; cbn [LiveModel.react].
      - split; [exact Sc|]. exists t. split; [exact Ei|cbn; lia].
      - split; [discriminate|]. exists t. split; [exact Ei|cbn; lia].
      - destruct (nth_error (s_tasks w) j) as [t0|] eqn:Ej.
        + destruct (continue_task (s_scene w) (s_stop w) t0) as [t' out] eqn:Ec. cbn [s_scene s_tasks is_continue]. split; [exact Sc|].
          destruct (Nat.eqb_spec j i) as [->|N].
          * rewrite Ei in Ej. injection Ej as <-. exists t'. rewrite set_nth_at by (apply nth_error_Some; congruence). split; [reflexivity|].
            rewrite St in Ec. destruct (s_scene w) as [s|]; [|contradiction].
            destruct t as [p|p c|p c u [|[d|] rest] tot sent| |]; cbn in Ec; injection Ec as <- <-; cbn; lia.
          * exists t. rewrite set_nth_other by exact N. split; [exact Ei|lia].
        + split; [exact Sc|]. exists t. split; [exact Ei|]. cbn. destruct (Nat.eqb_spec j i) as [->|]; [congruence|lia]. }
    destruct S1 as (Sc1 & t1 & E1 & N1). destruct (IH _ t1 St' Sc1 E1 Hf') as (t2 & E2 & N2). exists t2. split; [exact E2|].
    unfold turns in *. cbn [filter]. destruct (is_continue i h); cbn [length]; lia. }
  destruct (G hs (react w Stop) t eq_refl Hs Ei Hf) as (t' & E' & N'). exists t'. split; [exact E'|].
  assert (need3 t <= 3) by (destruct t; cbn; lia). assert (need3 t' = 0) as Z by lia.
  destruct t'; cbn in Z; try discriminate; [now left|now right].
Qed.

(** The run button sends "stop" and then "run" (app.js 1299-1307).  If both are processed while
    the old run waits for a bundle, it never notices: it goes on reporting, after the "started"
    of the new run, and nothing in its messages tells that they are not of the new run. *)
Lemma stop_run_goes_on w i s p c u d rest tot sent q : s_scene w = Some s ->
  nth_error (s_tasks w) i = Some (Tracing p c u (Some d :: rest) tot sent) -> same_shape scene specs c u = true ->
  exists fs ps, s_sent (happens w [Stop; Run q; Continue (length (s_tasks w)); Continue i]) =
    s_sent w ++ [Msg (Some (length (s_tasks w))) (MStarted (rays q) (specs s)); Msg (Some i) (MBundle (bd_traced d) (rays p) fs ps)].
Proof.
  intros Es Ei Sh. unfold LiveModel.happens. cbn [fold_left LiveModel.react s_scene]. rewrite Es. cbn [s_tasks s_stop s_scene s_sent].
  rewrite nth_error_app2, Nat.sub_diag by lia. cbn [nth_error LiveModel.continue_task s_scene s_stop s_tasks s_sent].
  assert (L : i < length (s_tasks w)) by (apply nth_error_Some; congruence).
  rewrite set_nth_other by lia. rewrite nth_error_app1, Ei by exact L. cbn [LiveModel.continue_task]. rewrite Sh. cbn [negb map s_sent].
  do 2 eexists. rewrite <- app_assoc. reflexivity.
Qed.

(** ** C94 *)
Definition started (t : task scene params) : bool := match t with Created _ | Announced _ _ => false | _ => true end.
Lemma continue_started scn scn' stop t : started t = true -> continue_task scn stop t = continue_task scn' stop t /\
  started (fst (continue_task scn stop t)) = true.
Proof.
  destruct t as [p|p c|p c u [|[d|] rest] tot sent| |]; cbn; try discriminate; auto.
  intros _. split; [reflexivity|]. destruct stop; [reflexivity|]. destruct (same_shape scene specs c u); reflexivity.
Qed.
(** a task and its messages, seen alone *)
Lemma started_keeps s p i : forall hs w t, nth_error (s_tasks w) i = Some t -> started t = true ->
  follows scene params specs stream rays max_paths [s] True p t (sent_by i w) ->
  exists t', nth_error (s_tasks (happens w hs)) i = Some t' /\ started t' = true /\
    follows scene params specs stream rays max_paths [s] True p t' (sent_by i (happens w hs)).
Proof.
  induction hs as [|h hs IH]; intros w t Ei Hs F; [exists t; auto|].
  change (happens w (h :: hs)) with (happens (react w h) hs).
  destruct h as [q| |s'|j]; cbn [LiveModel.react].
  - destruct (s_scene w); apply (IH _ t).
    + cbn. rewrite nth_error_app1; [exact Ei|apply nth_error_Some; congruence].
    + exact Hs.
    + exact F.
    + exact Ei.
    + exact Hs.
    + unfold sent_by in *. cbn [s_sent]. rewrite filter_app. cbn. rewrite app_nil_r. exact F.
  - apply (IH _ t); assumption.
  - apply (IH _ t); assumption.
  - destruct (nth_error (s_tasks w) j) as [t0|] eqn:Ej; [|apply (IH _ t); assumption].
    destruct (continue_task (s_scene w) (s_stop w) t0) as [t' out] eqn:Ec. destruct (Nat.eq_dec j i) as [->|N].
    + rewrite Ei in Ej. injection Ej as <-. destruct (continue_started (s_scene w) (Some s) (s_stop w) t Hs) as [E1 E2]. apply (IH _ t').
      * cbn. apply set_nth_at. apply nth_error_Some. congruence.
      * rewrite Ec in E2. exact E2.
      * change (sent_by i (Socket (s_scene w) (s_stop w) (set_nth (s_tasks w) i t') (s_sent w ++ map (Msg (Some i)) out)))
          with (sent_by i (Socket (s_scene w) (s_stop w) (s_tasks w) (s_sent w ++ map (Msg (Some i)) out))).
        rewrite sent_snoc. refine (continue_follows scene params specs stream rays max_paths [s] True p t (sent_by i w) (Some s) (s_stop w) t' out F _ _ _).
        -- exists s. split; [reflexivity|now left].
        -- auto.
        -- rewrite <- E1. exact Ec.
    + apply (IH _ t).
      * cbn. rewrite set_nth_other by exact N. exact Ei.
      * exact Hs.
      * rewrite sent_other by exact N. exact F.
Qed.
(** A run whose start is not interrupted by a change of the document: it was created in
    [before ++ [Run p]], announced at its first turn and creates its stream at its second, and
    between these turns no document is applied.  Then it reports on the scene it announced, and
    on no other, whatever is applied later. *)
Theorem C94_one_scene_partial : forall s0 before p wait mid after s,
  let i := length (runs before) in
  turns i wait = 0 -> turns i mid = 0 -> Forall (fun h => is_apply h = false) mid ->
  s_scene (happens (socket0 (Some s0)) (before ++ Run p :: wait)) = Some s ->
  let w := happens (socket0 (Some s0)) (before ++ Run p :: wait ++ Continue i :: mid ++ Continue i :: after) in
  exists ds ms rest ending, stream s p = map Some ds ++ rest /\
    sent_by i w = MStarted (rays p) (specs s) :: ms ++ ending /\ length ms = length ds /\
    (forall k m, nth_error ms k = Some m -> exists d fs ps, nth_error ds k = Some d /\
       m = MBundle (bd_traced d) (rays p) fs ps /\ shows (specs s) (summed (firstn (S k) ds)) fs) /\
    (ending = [] \/ ending = [MDone]).
Proof.
  intros s0 before p wait mid after s i Hw Hm Ha Hs w.
  assert (Idle : forall hs w t, turns i hs = 0 -> nth_error (s_tasks w) i = Some t -> nth_error (s_tasks (happens w hs)) i = Some t /\ sent_by i (happens w hs) = sent_by i w).
  { clear. induction hs as [|h hs IH]; intros w t H Ei; [split; [exact Ei|reflexivity]|]. change (happens w (h :: hs)) with (happens (react w h) hs).
    unfold turns in H. cbn [filter] in H. destruct (is_continue i h) eqn:C; [discriminate|].
    assert (K : nth_error (s_tasks (react w h)) i = Some t /\ sent_by i (react w h) = sent_by i w).
    { destruct h as [q| |s'|j]; cbn [LiveModel.react]; try (split; [exact Ei|reflexivity]).
      - destruct (s_scene w); cbn.
        + split; [rewrite nth_error_app1; [exact Ei|apply nth_error_Some; congruence]|reflexivity].
        + split; [exact Ei|]. unfold sent_by. cbn [s_sent]. rewrite filter_app. cbn. now rewrite app_nil_r.
      - cbn in C. apply Nat.eqb_neq in C. destruct (nth_error (s_tasks w) j) as [t0|]; [|split; [exact Ei|reflexivity]].
        destruct (continue_task (s_scene w) (s_stop w) t0) as [t' out]. cbn [s_tasks]. rewrite set_nth_other by exact C. split; [exact Ei|].
        now rewrite sent_other by exact C. }
    destruct K as [K1 K2]. destruct (IH (react w h) t H K1) as [L1 L2]. split; [exact L1|congruence]. }
  assert (Same : forall hs w, Forall (fun h => is_apply h = false) hs -> s_scene (happens w hs) = s_scene w).
  { clear. induction hs as [|h hs IH]; intros w Hf; [reflexivity|]. inversion Hf; subst. change (happens w (h :: hs)) with (happens (react w h) hs).
    rewrite IH by assumption. destruct h as [q| |s'|j]; cbn [LiveModel.react]; try reflexivity; [destruct (s_scene w) eqn:E; cbn; auto|discriminate|].
    destruct (nth_error (s_tasks w) j) as [t0|]; [|reflexivity]. destruct (continue_task (s_scene w) (s_stop w) t0). reflexivity. }
  set (w1 := happens (socket0 (Some s0)) (before ++ [Run p])).
  assert (E1 : nth_error (s_tasks w1) i = Some (Created p) /\ sent_by i w1 = []).
  { destruct (in_order_always scene params specs stream rays max_paths s0 before) as ((s1 & Es & _) & _ & Hl & _ & Hno).
    unfold w1. rewrite happens_snoc. set (w0 := happens (socket0 (Some s0)) before) in *. clearbody w0. cbn [LiveModel.react]. rewrite Es. cbn [s_tasks]. split.
    - rewrite nth_error_app2 by (unfold i; lia). replace (i - length (s_tasks w0)) with 0 by (unfold i; lia). reflexivity.
    - apply (Hno i). unfold i. lia. }
  set (w2 := happens w1 wait). destruct (Idle wait w1 _ Hw (proj1 E1)) as [T2 S2]. fold w2 in T2, S2.
  assert (W2 : happens (socket0 (Some s0)) (before ++ Run p :: wait) = w2).
  { unfold w2, w1. rewrite <- (happens_app scene params specs stream rays max_paths). now rewrite <- app_assoc. }
  rewrite W2 in Hs. set (w3 := react w2 (Continue i)).
  assert (E3 : w3 = Socket (Some s) (s_stop w2) (set_nth (s_tasks w2) i (Announced p s)) (s_sent w2 ++ map (Msg (Some i)) [MStarted (rays p) (specs s)])).
  { unfold w3. cbn [LiveModel.react]. rewrite T2, Hs. reflexivity. }
  assert (L2 : i < length (s_tasks w2)) by (apply nth_error_Some; congruence).
  assert (T3 : nth_error (s_tasks w3) i = Some (Announced p s)) by (rewrite E3; cbn [s_tasks]; apply set_nth_at; exact L2).
  assert (S3 : sent_by i w3 = [MStarted (rays p) (specs s)]).
  { rewrite E3. change (sent_by i (Socket (Some s) (s_stop w2) (set_nth (s_tasks w2) i (Announced p s)) (s_sent w2 ++ map (Msg (Some i)) [MStarted (rays p) (specs s)])))
      with (sent_by i (Socket (s_scene w2) (s_stop w2) (s_tasks w2) (s_sent w2 ++ map (Msg (Some i)) [MStarted (rays p) (specs s)]))).
    rewrite sent_snoc, S2, (proj2 E1). reflexivity. }
  set (w4 := happens w3 mid). destruct (Idle mid w3 _ Hm T3) as [T4 S4]. fold w4 in T4, S4.
  assert (Sc4 : s_scene w4 = Some s) by (unfold w4; rewrite Same by exact Ha; rewrite E3; reflexivity).
  set (w5 := react w4 (Continue i)).
  assert (E5 : w5 = Socket (Some s) (s_stop w4) (set_nth (s_tasks w4) i (Tracing p s s (stream s p) acc0 0)) (s_sent w4 ++ map (Msg (Some i)) [])).
  { unfold w5. cbn [LiveModel.react]. rewrite T4, Sc4. reflexivity. }
  assert (L4 : i < length (s_tasks w4)) by (apply nth_error_Some; congruence).
  assert (T5 : nth_error (s_tasks w5) i = Some (Tracing p s s (stream s p) acc0 0)) by (rewrite E5; cbn [s_tasks]; apply set_nth_at; exact L4).
  assert (S5 : sent_by i w5 = [MStarted (rays p) (specs s)]).
  { rewrite E5. change (sent_by i _) with (sent_by i (Socket (s_scene w4) (s_stop w4) (s_tasks w4) (s_sent w4 ++ map (Msg (Some i)) []))). rewrite sent_snoc, S4, S3. reflexivity. }
  assert (Ew : w = happens w5 after).
  { unfold w. rewrite (app_comm_cons (wait ++ Continue i :: mid ++ Continue i :: after) before) || idtac.
    replace (before ++ Run p :: wait ++ Continue i :: mid ++ Continue i :: after) with ((before ++ Run p :: wait) ++ Continue i :: mid ++ Continue i :: after) by (now rewrite <- app_assoc).
    rewrite (happens_app scene params specs stream rays max_paths), W2. change (happens w2 (Continue i :: mid ++ Continue i :: after)) with (happens w3 (mid ++ Continue i :: after)).
    rewrite (happens_app scene params specs stream rays max_paths). reflexivity. }
  rewrite Ew. destruct (started_keeps s p i after w5 _ T5 eq_refl) as (t & T & St & F).
  { cbn. split; [reflexivity|]. split; [now left|]. split; [now left|]. exists [], []. split; [reflexivity|]. split; [exact S5|].
    split; [|split; [apply acc_eq_refl|split; [reflexivity|congruence]]]. split; [reflexivity|]. split; [intros [|k] m Hk; discriminate|cbn; lia]. }
  assert (Rep : forall c ds ms, reports scene params specs rays max_paths p c ds ms -> length ms = length ds /\
    forall k m, nth_error ms k = Some m -> exists d fs ps, nth_error ds k = Some d /\
       m = MBundle (bd_traced d) (rays p) fs ps /\ shows (specs c) (summed (firstn (S k) ds)) fs).
  { intros c ds ms (L & R & _). split; [exact L|]. intros k m Hk. destruct (R k m Hk) as (d & fs & ps & A & B & C & _). eauto 6. }
  destruct t as [q|q c|q c u rest tot sent| |]; [discriminate|discriminate| | |]; cbn [follows] in F.
  - destruct F as (_ & [<-|[]] & [<-|[]] & ds & ms & Hst & -> & R & _). exists ds, ms, rest, []. split; [exact Hst|]. rewrite app_nil_r. split; [reflexivity|].
    destruct (Rep s ds ms R). auto.
  - destruct F as (c & u & ds & ms & rest & [<-|[]] & [<-|[]] & Hst & -> & R & _). exists ds, ms, rest, [MDone]. split; [exact Hst|]. split; [reflexivity|].
    destruct (Rep s ds ms R). auto.
  - destruct F as (c & u & ds & ms & x & rest & [<-|[]] & [<-|[]] & Hst & -> & R & _). exists ds, ms, (x :: rest), []. split; [exact Hst|]. rewrite app_nil_r. split; [reflexivity|].
    destruct (Rep s ds ms R). auto.
Qed.

(** ** C95 *)
(** No run sends more than max_paths paths. *)
Theorem C95_at_most_max_paths : forall s0 hs i p, nth_error (runs hs) i = Some p ->
  list_sum (map (fun c => match c with MBundle _ _ _ ps => length ps | _ => 0 end) (sent_by i (happens (socket0 (Some s0)) hs))) <= max_paths p.
Proof.
  intros s0 hs i p Hp. destruct (in_order_always scene params specs stream rays max_paths s0 hs) as (_ & _ & Hl & Ht & _).
  set (w := happens (socket0 (Some s0)) hs) in *.
  destruct (nth_error (s_tasks w) i) as [t|] eqn:Ei.
  2:{ exfalso. apply nth_error_None in Ei. assert (i < length (runs hs)) by (apply nth_error_Some; congruence). lia. }
  destruct (Ht i t Ei) as (q & Hq & F). rewrite Hp in Hq. injection Hq as <-.
  change (fun c => match c with MBundle _ _ _ ps => length ps | _ => 0 end) with paths_in.
  destruct t as [q|q c|q c u rest tot sent| |]; cbn [follows] in F.
  - destruct F as (_ & ->). cbn. lia.
  - destruct F as (_ & _ & ->). cbn. lia.
  - destruct F as (_ & _ & _ & ds & ms & _ & -> & (_ & _ & R) & _). exact R.
  - destruct F as (c & u & ds & ms & rest & _ & _ & _ & -> & (_ & _ & R) & _).
    change (list_sum (map paths_in (ms ++ [MDone])) <= max_paths p). rewrite map_app, list_sum_app. cbn. lia.
  - destruct F as (c & u & ds & ms & x & rest & _ & _ & _ & -> & (_ & _ & R) & _). exact R.
Qed.
End Live.
Print Assumptions C92_reports.
Print Assumptions C92_counts_never_fall.
Print Assumptions C92_no_scene.
Print Assumptions C92_runs_end.
Print Assumptions C93_stop_partial.
Print Assumptions C93_tasks_end_partial.
Print Assumptions C94_one_scene_partial.
Print Assumptions C95_at_most_max_paths.

(** ** The engine behind the stream *)
(** The data of one bundle: simulate gives EngineResult(compiled, data, …) *)
Definition bundle_data (J : job) (x : (nat * nat) * (list (list nat) * memory)) : bdata :=
  let '((o, n), (threads, mem)) := x in
  BData (merged (length threads) mem) (n_recorded (bundle_job J o n)) (j_max_events J) (m_counts mem) (m_log mem) (o + n).
Definition engine_data (J : job) (bundle : nat) (execs : list (list (list nat) * memory)) : list bdata :=
  map (bundle_data J) (combine (stream_bundles J bundle) execs).

Lemma engine_sum J bundle execs : length (stream_bundles J bundle) = length execs ->
  acc_eq (summed (engine_data J bundle execs))
    (Acc (fun i => total_nat (fun A => a_distinct A i) execs) (fun i => total_nat (fun A => a_cross A i) execs)
         (fun i => fold_right Rplus 0%R (map (fun '(threads, mem) => a_sums (merged (length threads) mem) i) execs)) (fun i => total_nat (fun A => a_bins A i) execs)).
Proof.
  unfold engine_data. generalize (stream_bundles J bundle) as os. intros os L.
  assert (G : forall (T : Type) (f : acc -> T) os execs, length os = length execs ->
    map (fun d => f (bd_acc d)) (map (bundle_data J) (combine os execs)) = map (fun '(threads, mem) => f (merged (length threads) mem)) execs).
  { clear. intros T f. induction os as [|[o n] os IH]; intros [|[th mem] ex] L; cbn in *; try discriminate; [reflexivity|]. f_equal. apply IH. lia. }
  unfold summed, acc_eq. cbn [a_distinct a_cross a_sums a_bins]. unfold total_nat.
  repeat split; intros i; [rewrite (G nat (fun A => a_distinct A i) os execs L)|rewrite (G nat (fun A => a_cross A i) os execs L)|
    rewrite (G R (fun A => a_sums A i) os execs L)|rewrite (G nat (fun A => a_bins A i) os execs L)]; reflexivity.
Qed.
Lemma shows_eq rs A B fs : acc_eq A B -> shows rs A fs -> shows rs B fs.
Proof.
  intros (E1 & E2 & E3 & E4). unfold shows. destruct (kernel_tables rs) as [[ks rows] total]. intros (L & H). split; [exact L|].
  intros r k f Hk Hf. assert (E : engine_result rows k r B = engine_result rows k r A).
  { unfold engine_result. rewrite E1, E2. f_equal; [apply map_ext; intros i; now rewrite !E3|].
    apply map_ext. intros h. cbv zeta. symmetry. apply slice_ext. exact E4. }
  rewrite E. exact (H r k f Hk Hf).
Qed.
Lemma bundles_last bundle n : 1 <= bundle -> forall fuel traced, n - traced <= fuel -> traced < n ->
  exists l o m, bundles fuel traced n bundle = l ++ [(o, m)] /\ o + m = n.
Proof.
  intros Hb. induction fuel as [|fuel IH]; intros traced Hf Ht; [lia|]. cbn [bundles].
  destruct (Nat.ltb_spec traced n); [|lia].
  destruct (Nat.lt_ge_cases (traced + Nat.min bundle (n - traced)) n) as [L|G].
  - destruct (IH (traced + Nat.min bundle (n - traced)) ltac:(lia) L) as (l & o & m & E & S). rewrite E. exists ((traced, Nat.min bundle (n - traced)) :: l), o, m. split; [reflexivity|exact S].
  - exists [], traced, (Nat.min bundle (n - traced)). split; [|lia]. cbn [app]. f_equal.
    destruct fuel; [reflexivity|]. cbn [bundles]. destruct (Nat.ltb_spec (traced + Nat.min bundle (n - traced)) n); [lia|reflexivity].
Qed.

(** A run that says "done", without a stop and with the scene left alone: its last report
    covers all rays, and shows the results of one single simulate call on the same rays, however
    the work was divided into bundles and threads. *)
Theorem C92_final_report : forall (scene params : Type) (specs : scene -> list (nat * recorder)) stream (rays max_paths : params -> nat)
    J bundle execs threads M s0 hs i p,
  1 <= bundle -> (j_every J = 0 \/ Nat.divide (j_every J) bundle) -> 1 <= length (j_rays J) ->
  bundle_runs J bundle execs -> Permutation (concat threads) (seq 0 (length (j_rays J))) -> executes J threads M ->
  specs s0 = j_recorders J -> stream s0 p = map Some (engine_data J bundle execs) ->
  nth_error (runs hs) i = Some p -> ~ In Stop hs -> (forall s, ~ In (Apply s) hs) ->
  let out := sent_by i (happens scene params specs stream rays max_paths (socket0 (Some s0)) hs) in
  In MDone out ->
  exists pre fs ps, out = pre ++ [MBundle (length (j_rays J)) (rays p) fs ps; MDone] /\ shows (j_recorders J) (merged (length threads) M) fs.
Proof.
  intros scene params specs stream rays max_paths J bundle execs threads M s0 hs i p Hb He Hn Hr Hd Hx Hs Hst Hi Hstop Happ out Hdone.
  assert (Only : forall s, In s (scenes_of s0 hs) -> s = s0).
  { intros s [<-|H]; [reflexivity|]. exfalso. apply in_flat_map in H. destruct H as (h & Hh & H).
    destruct h as [?| |s'|?]; cbn in H; try contradiction. exact (Happ s' Hh). }
  destruct (C92_reports scene params specs stream rays max_paths s0 hs i p Hi) as [E|(c & u & ds & ms & rest & ending & Hc & Hu & St & E & L & R & En)]; fold out in E.
  { rewrite E in Hdone. destruct Hdone. }
  rewrite (Only c Hc) in *. rewrite (Only u Hu) in *. clear c u Hc Hu.
  assert (Hend : ending = [MDone] /\ rest = []).
  { destruct En as [->|(-> & [->|B])]; [exfalso|split; reflexivity|contradiction].
    rewrite E, app_nil_r in Hdone. destruct Hdone as [D|D]; [discriminate|]. apply In_nth_error in D. destruct D as [k D].
    destruct (R k _ D) as (? & ? & ? & _ & A & _). discriminate. }
  destruct Hend as [-> ->]. rewrite app_nil_r, Hst in St.
  assert (Eds : ds = engine_data J bundle execs).
  { clear - St. revert St. generalize (engine_data J bundle execs) as l. intros l. revert ds. induction l as [|a l IH]; intros [|b ds] St; cbn in St; try discriminate; [reflexivity|].
    injection St as -> St. f_equal. now apply IH. }
  assert (Lx : length (stream_bundles J bundle) = length execs) by (unfold bundle_runs in Hr; clear - Hr; induction Hr; cbn; lia).
  destruct (bundles_last bundle (length (j_rays J)) Hb (length (j_rays J)) 0 ltac:(lia) ltac:(lia)) as (l & o & m & El & Eo).
  assert (Ll : length (stream_bundles J bundle) = S (length l)) by (unfold stream_bundles; rewrite El, app_length; cbn; lia).
  assert (Lds : length ds = S (length l)) by (rewrite Eds; unfold engine_data; rewrite map_length, combine_length; lia).
  destruct (nth_error ms (length l)) as [last|] eqn:Em.
  2:{ apply nth_error_None in Em. lia. }
  destruct (R _ _ Em) as (d & fs & ps & Nd & -> & Sh).
  rewrite firstn_all2 in Sh by lia. rewrite Eds in Sh, Nd.
  assert (Tr : bd_traced d = length (j_rays J)).
  { unfold engine_data in Nd. rewrite nth_error_map in Nd. destruct (nth_error (combine (stream_bundles J bundle) execs) (length l)) as [[[o' n'] [th mem]]|] eqn:Ec; [|discriminate].
    injection Nd as <-. cbn [bd_traced bundle_data].
    assert (Q : forall (A B : Type) (la : list A) (lb : list B) k x y, nth_error (combine la lb) k = Some (x, y) -> nth_error la k = Some x).
    { clear. induction la as [|a la IH]; intros [|b lb] [|k] x y H; cbn in *; try discriminate; [now injection H as -> _|]. eapply IH; eassumption. }
    apply Q in Ec. unfold stream_bundles in Ec. rewrite El, nth_error_app2, Nat.sub_diag in Ec by lia. injection Ec as <- <-. exact Eo. }
  destruct (nth_error_split ms (length l) Em) as (m1 & m2 & Ems & Lm1).
  assert (m2 = []) as -> by (rewrite Ems, app_length in L; cbn in L; destruct m2; [reflexivity|cbn in L; lia]).
  exists (MStarted (rays p) (specs s0) :: m1), fs, ps. split.
  - rewrite E, Ems, Tr. cbn [app]. now rewrite <- app_assoc.
  - rewrite <- Hs. eapply shows_eq; [|exact Sh]. eapply acc_eq_trans; [apply engine_sum; exact Lx|].
    pose proof (C15_tallies_add_up_partial J bundle execs threads M Hb He Hr Hd Hx) as C.
    split; [|split; [|split]]; intros k; cbn [a_distinct a_cross a_sums a_bins]; destruct (C k) as (C1 & C2 & C3 & C4); congruence.
Qed.
Print Assumptions C92_final_report.

(** ** C95: what the paths are *)
(** The paths of a bundle are the histories EngineResult.histories gives, in order: of the first
    [limit] those with at least two events, vertex by vertex the positions and wavelengths of the
    rays, rounded. *)
Theorem C95_paths_are_histories : forall J threads M sources limit traced hist,
  Permutation (concat threads) (seq 0 (length (j_rays J))) -> executes J threads M ->
  (forall i r, nth_error (j_rays J) i = Some r -> exists l, source r = Light l /\ nth_error sources i = Some l) ->
  histories J sources M = Some hist ->
  extract_paths (BData (merged (length threads) M) (n_recorded J) (j_max_events J) (m_counts M) (m_log M) traced) limit =
  map (map (fun t => (vround (position (t_ray t)) 6, np_round (wavelength (t_ray t)) 2)))
      (filter (fun h => Nat.leb 2 (length h)) (firstn limit hist)).
Proof.
  intros J threads M sources limit traced hist Hd Hx Hsrc Hh.
  rewrite (C13_histories_decode J threads M sources Hd Hx Hsrc) in Hh. injection Hh as <-.
  unfold extract_paths. cbn [bd_recorded bd_counts].
  destruct (Nat.eq_dec (j_every J) 0) as [E0|E0].
  { unfold n_recorded, recorded_indices. rewrite E0. cbn. now rewrite firstn_nil. }
  rewrite recorded_slots by lia. rewrite !map_map, firstn_map.
  assert (Fs : firstn limit (seq 0 (n_recorded J)) = seq 0 (Nat.min (n_recorded J) limit)).
  { generalize (n_recorded J) as n. clear. intros n. generalize 0 as a. revert limit. induction n as [|n IH]; intros [|k] a; try reflexivity. cbn. now rewrite IH. }
  rewrite Fs.
  assert (G : forall l, (forall j, In j l -> j < n_recorded J) ->
    flat_map (fun j => if Nat.ltb (m_counts M j) 2 then [] else [path_of (BData (merged (length threads) M) (n_recorded J) (j_max_events J) (m_counts M) (m_log M) traced) j]) l =
    map (map (fun t => (vround (position (t_ray t)) 6, np_round (wavelength (t_ray t)) 2)))
      (filter (fun h => Nat.leb 2 (length h)) (map (fun x => map entry_of (log_of (run_ray J (x * j_every J)))) l))).
  2:{ apply G. intros j Hj. apply in_seq in Hj. lia. }
  induction l as [|j l IH]; intros Hl; [reflexivity|]. cbn [flat_map map filter].
  rewrite IH by (intros; apply Hl; now right). clear IH.
  destruct (slot_bound J j ltac:(lia) (Hl j (or_introl eq_refl))) as (Hr & Hb & Hq).
  assert (Hc : m_counts M j = length (log_of (run_ray J (j * j_every J)))).
  { rewrite <- Hq at 1. exact (slot_count J threads M _ Hd Hx Hr _ Hb). }
  rewrite map_length, <- Hc.
  destruct (Nat.ltb_spec (m_counts M j) 2) as [H|H]; destruct (Nat.leb_spec 2 (m_counts M j)) as [H'|H']; try lia; [reflexivity|].
  cbn [app map]. f_equal. unfold path_of. cbn [bd_counts bd_log bd_max_events]. rewrite map_map.
  assert (P : forall (log : list event) n, (forall k e, nth_error log k = Some e -> m_log M (j * j_max_events J + (n + k)) = row_of (j_scene J) e) ->
    map (fun k => (vround (w_position (m_log M (j * j_max_events J + k))) 6, np_round (w_wavelength (m_log M (j * j_max_events J + k))) 2)) (seq n (length log)) =
    map (fun x => (vround (position (t_ray (entry_of x))) 6, np_round (wavelength (t_ray (entry_of x))) 2)) log).
  { induction log as [|e log IH]; intros n Hk; [reflexivity|]. cbn [length seq map]. f_equal.
    - specialize (Hk 0 e eq_refl). rewrite Nat.add_0_r in Hk. rewrite Hk. reflexivity.
    - apply IH. intros k e' Hk'. specialize (Hk (S k) e' Hk'). rewrite <- Hk. f_equal. lia. }
  rewrite Hc. apply P. intros k e Hk. rewrite Nat.add_0_l. exact (slot_log J threads M _ k e Hd Hx Hr _ Hb Hk).
Qed.
Print Assumptions C95_paths_are_histories.

(** Every vertex is within half a millionth of the true position in each coordinate, every
    wavelength within 0.005 nm. *)
Theorem C95_rounding : forall v x,
  (Rabs (vx (vround v 6) - vx v) <= 5 / 10000000 /\ Rabs (vy (vround v 6) - vy v) <= 5 / 10000000 /\
   Rabs (vz (vround v 6) - vz v) <= 5 / 10000000 /\ Rabs (np_round x 2 - x) <= 5 / 1000)%R.
Proof.
  intros v x. unfold vround. cbn [vx vy vz].
  assert (E6 : (1 / 2 / 10 ^ 6 = 5 / 10000000)%R) by field. assert (E2 : (1 / 2 / 10 ^ 2 = 5 / 1000)%R) by field.
  rewrite <- E6, <- E2. repeat split; apply np_round_near.
Qed.
Print Assumptions C95_rounding.

(** ** Examples and counterexamples *)
(** Scenes are given by their recorders; two bundles, each of which counts 5 rays at the recorder
    in scene A and 7 in scene B; scene C has no recorder. *)
Definition scene_A : list (nat * recorder) := [(0, Recorder 0 Entering None 0 [])].
Definition scene_B : list (nat * recorder) := [(1, Recorder 1 Escaping None 0 [])].
Definition scene_C : list (nat * recorder) := [].
Definition demo_count (s : list (nat * recorder)) : nat := match s with (0, _) :: _ => 5 | _ => 7 end.
Definition demo_bundle (s : list (nat * recorder)) (traced : nat) : bdata :=
  BData (Acc (fun _ => demo_count s) (fun _ => demo_count s) (fun _ => 0%R) (fun _ => 0)) 0 8 (fun _ => 0) (fun _ => blank) traced.
Definition demo_stream (s : list (nat * recorder)) (p : nat) : list (option bdata) := [Some (demo_bundle s 10); Some (demo_bundle s 20)].
Definition demo := happens (list (nat * recorder)) nat (fun s => s) demo_stream (fun p => p) (fun _ => 2).
(** what the browser sees: 0 = started, 1 = bundle with the rays of the recorders, 2 = done *)
Definition view (w : socket (list (nat * recorder)) nat) : list (option nat * (nat * list nat)) :=
  map (fun m => (m_task m, match m_content m with MStarted _ rs => (0, map (fun x => rec_name (snd x)) rs)
                           | MBundle _ _ fs _ => (1, map f_rays fs) | MDone => (2, []) | MError => (3, []) end)) (s_sent w).

Example C92_example :
  view (demo (socket0 (Some scene_A)) (Run 20 :: repeat (Continue 0) 6)) =
    [(Some 0, (0, [0])); (Some 0, (1, [5])); (Some 0, (1, [10])); (Some 0, (2, []))] /\
  view (demo (socket0 None) [Run 20; Continue 0]) = [(None, (3, []))].
Proof. split; reflexivity. Qed.

(** Stop and run while the first run waits for its second bundle: after the "started" of the
    second run come 10 rays, the second report of the first run, and then 5, the first report of
    the second. *)
Theorem C93_stop_refuted : exists hs q hs',
  ~ In Stop hs' /\ (forall r, ~ In (Run r) hs') /\ s_tasks (demo (socket0 (Some scene_A)) hs) <> [] /\
  length (s_tasks (demo (socket0 (Some scene_A)) hs)) = 1 /\
  exists m, In m (skipn (length (s_sent (demo (socket0 (Some scene_A)) hs))) (s_sent (demo (socket0 (Some scene_A)) (hs ++ [Stop; Run q] ++ hs')))) /\
    m_task m = Some 0 /\ ~ no_bundle m /\
    skipn (length (s_sent (demo (socket0 (Some scene_A)) hs))) (view (demo (socket0 (Some scene_A)) (hs ++ [Stop; Run q] ++ hs'))) =
      [(Some 1, (0, [0])); (Some 0, (1, [10])); (Some 1, (1, [5]))].
Proof.
  exists [Run 20; Continue 0; Continue 0; Continue 0], 20, [Continue 1; Continue 1; Continue 0; Continue 1].
  split; [cbn; intuition discriminate|]. split; [intros r; cbn; intuition discriminate|]. split; [discriminate|]. split; [reflexivity|].
  eexists. split; [cbn; right; left; reflexivity|]. split; [reflexivity|]. split; [intros H; exact H|]. reflexivity.
Qed.
Print Assumptions C93_stop_refuted.
Example C93_example : view (demo (socket0 (Some scene_A)) ([Run 20; Continue 0; Continue 0; Continue 0; Stop] ++ repeat (Continue 0) 3)) =
  [(Some 0, (0, [0])); (Some 0, (1, [5])); (Some 0, (2, []))].
Proof. reflexivity. Qed.

(** A document applied between the announcement and the creation of the stream.  With tables of
    the same size the run reports the counts of the new scene under the names of the old one;
    otherwise it dies silently. *)
Theorem C94_one_scene_refuted :
  view (demo (socket0 (Some scene_A)) [Run 20; Continue 0; Apply scene_B; Continue 0; Continue 0]) = [(Some 0, (0, [0])); (Some 0, (1, [7]))] /\
  (exists d, hd_error (demo_stream scene_A 20) = Some (Some d) /\ a_distinct (bd_acc d) 0 <> 7) /\
  (let w := demo (socket0 (Some scene_A)) ([Run 20; Continue 0; Apply scene_C] ++ repeat (Continue 0) 4) in
   view w = [(Some 0, (0, [0]))] /\ s_tasks w = [Crashed]).
Proof.
  split; [reflexivity|]. split; [eexists; split; [reflexivity|discriminate]|]. split; reflexivity.
Qed.
Print Assumptions C94_one_scene_refuted.
Example C94_example :
  view (demo (socket0 (Some scene_A)) [Run 20; Continue 0; Continue 0; Apply scene_B; Continue 0; Continue 0; Continue 0]) =
    [(Some 0, (0, [0])); (Some 0, (1, [5])); (Some 0, (1, [10])); (Some 0, (2, []))].
Proof. reflexivity. Qed.

(** The bundle of BundleProps (three rays in an empty world, two recorded) gives two paths *)
Example C95_example : exists M, executes job3 [[1]; [2; 0]] M /\
  length (extract_paths (BData (merged 2 M) (n_recorded job3) (j_max_events job3) (m_counts M) (m_log M) 3) 5) = 2 /\
  length (extract_paths (BData (merged 2 M) (n_recorded job3) (j_max_events job3) (m_counts M) (m_log M) 3) 1) = 1.
Proof.
  destruct C12_C13_example as (M & X & P & _ & _ & _ & H). exists M. split; [exact X|].
  assert (Hsrc : forall i r, nth_error (j_rays job3) i = Some r -> exists l, source r = Light l /\ nth_error [0; 0; 0] i = Some l).
  { intros i r Hi. exists 0. destruct i as [|[|[|[|i]]]]; cbn in Hi; try discriminate; injection Hi as <-; split; reflexivity. }
  change (merged 2 M) with (merged (length [[1]; [2; 0]]) M).
  rewrite !(C95_paths_are_histories job3 [[1]; [2; 0]] M [0; 0; 0] _ 3 _ P X Hsrc H). split; reflexivity.
Qed.
