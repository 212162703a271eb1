(** Lemmas about the command line interface model. *)
From Coq Require Import Reals List Bool Arith ZArith Lia Permutation.
From Verif Require Import Base Vec TracerModel BundleModel BundleProofs TallyModel CliModel.
Import ListNotations.
Open Scope nat_scope.

(** ** global ids *)
Definition key (m : message) : nat * nat := (m_pid m, m_idx m).
Definition gid (l : list (nat * nat)) (k : nat * nat) : nat := match find_id k l with Some i => i | None => 0 end.

Lemma key_eqb_spec a b : key_eqb a b = true <-> a = b.
Proof. destruct a, b. unfold key_eqb. simpl. rewrite andb_true_iff, !Nat.eqb_eq. split; [intros []; congruence|intros [= -> ->]; auto]. Qed.

Lemma find_id_some k l i : find_id k l = Some i -> nth_error l i = Some k.
Proof.
  revert i. induction l as [|k' l IH]; intros i; simpl; [discriminate|].
  destruct (key_eqb k k') eqn:E; [intros [= <-]; apply key_eqb_spec in E; now subst|].
  destruct (find_id k l) as [j|] eqn:F; [|discriminate]. intros [= <-]. simpl. now apply IH.
Qed.
Lemma find_id_none k l : find_id k l = None <-> ~ In k l.
Proof.
  induction l as [|k' l IH]; simpl; [tauto|].
  destruct (key_eqb k k') eqn:E.
  - apply key_eqb_spec in E. subst. split; [discriminate|intros H; exfalso; apply H; now left].
  - assert (k' <> k) by (intros ->; rewrite (proj2 (key_eqb_spec k k) eq_refl) in E; discriminate).
    destruct (find_id k l); split; try discriminate; intuition congruence.
Qed.
Lemma find_id_app k l l' i : find_id k l = Some i -> find_id k (l ++ l') = Some i.
Proof.
  revert i. induction l as [|k' l IH]; intros i; simpl; [discriminate|].
  destruct (key_eqb k k'); [easy|]. destruct (find_id k l) as [j|]; [|discriminate]. intros [= <-]. now rewrite (IH j).
Qed.
Lemma find_id_new k l : ~ In k l -> find_id k (l ++ [k]) = Some (length l).
Proof.
  induction l as [|k' l IH]; intros H; simpl.
  - now rewrite (proj2 (key_eqb_spec k k) eq_refl).
  - destruct (key_eqb k k') eqn:E; [apply key_eqb_spec in E; subst; exfalso; apply H; now left|].
    rewrite IH; [easy|]. intros G. apply H. now right.
Qed.
Lemma gid_nth l k : In k l -> nth_error l (gid l k) = Some k.
Proof.
  intros H. unfold gid. destruct (find_id k l) as [i|] eqn:E; [now apply find_id_some|].
  apply find_id_none in E. easy.
Qed.
Lemma gid_inj l k k' : In k l -> In k' l -> gid l k = gid l k' -> k = k'.
Proof. intros H H' E. apply gid_nth in H, H'. congruence. Qed.
Lemma gid_lt l k : In k l -> gid l k < length l.
Proof. intros H. apply nth_error_Some. rewrite gid_nth by assumption. discriminate. Qed.
Lemma gid_app l l' k : In k l -> gid (l ++ l') k = gid l k.
Proof.
  intros H. unfold gid. destruct (find_id k l) as [i|] eqn:E; [now rewrite (find_id_app _ _ _ _ E)|].
  apply find_id_none in E. easy.
Qed.

(** ** rows written *)
Definition rrow (l : list (nat * nat)) (m : message) : ray_row := RayRow (gid l (key m)) (e_ray (m_event m)).
Definition erow (j : nat) (m : message) : event_row :=
  let e := m_event m in
  EventRow j (e_kind e) (e_comp e) (e_hit e) (e_container e) (e_adjacent e) None
    (option_map vx (e_normal e)) (option_map vy (e_normal e)) (option_map vz (e_normal e)).
Definition new_ids (l : list (nat * nat)) (m : message) := match find_id (key m) l with Some _ => l | None => l ++ [key m] end.

Lemma new_ids_in l m : In (key m) (new_ids l m).
Proof.
  unfold new_ids. destruct (find_id (key m) l) eqn:E; [|apply in_or_app; right; now left].
  apply find_id_some, nth_error_In in E. exact E.
Qed.
Lemma new_ids_gid l m k : In k l -> gid (new_ids l m) k = gid l k.
Proof. intros H. unfold new_ids. destruct (find_id (key m) l); [easy|now apply gid_app]. Qed.

Lemma handle_states_eq s m :
  let s1 := fst (register s m) in
  let l := new_ids (ids s) m in
  ids s1 = l /\ pending s1 = pending s /\ saved s1 = saved s /\
  exists s2 s3, handle_states s m = [s1; s2; s3; handle s m] /\ saved s2 = saved s /\ saved s3 = saved s /\
    ids (handle s m) = l /\ counts (handle s m) = counts s1 /\ completed (handle s m) = completed s1 /\ updates (handle s m) = updates s1 /\
    pending (handle s m) = saved (handle s m) /\
    saved (handle s m) = DB (ray_table (pending s) ++ [rrow l m]) (event_table (pending s) ++ [erow (S (length (ray_table (pending s)))) m]).
Proof.
  unfold handle, handle_states, register, new_ids, rrow, key. cbv zeta.
  destruct (if _ <? _ then _ else _) as [c u].
  assert (G : gid (match find_id (m_pid m, m_idx m) (ids s) with Some _ => ids s | None => ids s ++ [(m_pid m, m_idx m)] end) (m_pid m, m_idx m)
             = match find_id (m_pid m, m_idx m) (ids s) with Some id => id | None => length (ids s) end).
  { destruct (find_id (m_pid m, m_idx m) (ids s)) as [i|] eqn:E; unfold gid; [now rewrite E|].
    now rewrite find_id_new by now apply find_id_none. }
  rewrite G. clear G.
  destruct (find_id (m_pid m, m_idx m) (ids s)) as [i|]; simpl.
  all: split; [reflexivity|]; split; [reflexivity|]; split; [reflexivity|].
  all: eexists _, _; split; [reflexivity|]; simpl; unfold write_event, erow; destruct (e_normal (m_event m)); simpl; repeat split; reflexivity.
Qed.

Lemma handle_ids s m : ids (handle s m) = new_ids (ids s) m.
Proof. destruct (handle_states_eq s m) as (_ & _ & _ & s2 & s3 & _ & _ & _ & E & _). exact E. Qed.

Lemma monitor_snoc ms m : monitor_queue (ms ++ [m]) = handle (monitor_queue ms) m.
Proof. unfold monitor_queue. now rewrite fold_left_app. Qed.

Lemma seq_combine_snoc {A} a (l : list A) x : combine (seq a (S (length l))) (l ++ [x]) = combine (seq a (length l)) l ++ [(a + length l, x)].
Proof.
  revert a. induction l as [|y l IH]; intros a; [simpl; now rewrite Nat.add_0_r|].
  change (combine (seq a (S (length (y :: l)))) ((y :: l) ++ [x])) with ((a, y) :: combine (seq (S a) (S (length l))) (l ++ [x])).
  rewrite IH. simpl. now rewrite Nat.add_succ_r.
Qed.

(** The database after all messages *)
Lemma monitor_spec ms : let s := monitor_queue ms in
  NoDup (ids s) /\ (forall k, In k (ids s) <-> In k (map key ms)) /\
  pending s = saved s /\
  ray_table (saved s) = map (rrow (ids s)) ms /\
  event_table (saved s) = map (fun '(j, m) => erow j m) (combine (seq 1 (length ms)) ms).
Proof.
  induction ms as [|m ms IH] using rev_ind.
  - simpl. repeat split; try constructor; easy.
  - cbv zeta in *. rewrite monitor_snoc. destruct IH as (Hnd & Hin & Hp & Hr & He).
    set (s := monitor_queue ms) in *. clearbody s.
    destruct (handle_states_eq s m) as (_ & _ & _ & s2 & s3 & _ & _ & _ & Hi & _ & _ & _ & Hps & Hs).
    rewrite Hi, Hps, Hs. cbn [ray_table event_table]. rewrite Hp, Hr, He.
    split; [|split; [|split; [reflexivity|split]]].
    + unfold new_ids. destruct (find_id (key m) (ids s)) eqn:E; [easy|]. apply find_id_none in E.
      apply (Permutation_NoDup (l := key m :: ids s)); [apply Permutation_cons_append|]. now constructor.
    + intros k. rewrite map_app, in_app_iff, <- Hin. unfold new_ids. simpl.
      destruct (find_id (key m) (ids s)) as [i|] eqn:E.
      * apply find_id_some, nth_error_In in E. split; [tauto|]. intros [H|[<-|[]]]; assumption.
      * rewrite in_app_iff. simpl. tauto.
    + rewrite map_app. simpl. f_equal. apply map_ext_in. intros m' Hm. unfold rrow. f_equal. symmetry. apply new_ids_gid.
      apply Hin. now apply in_map.
    + rewrite app_length, Nat.add_comm. change (1 + length ms) with (S (length ms)). rewrite seq_combine_snoc, map_app, map_length. reflexivity.
Qed.

Lemma joined_snoc R E r e : ray_id e = S (length R) -> Forall (fun e' => 1 <= ray_id e' <= length R) E ->
  joined (DB (R ++ [r]) (E ++ [e])) = joined (DB R E) ++ [(r, e)].
Proof.
  intros He HE. unfold joined. cbn [ray_table event_table].
  rewrite app_length, Nat.add_comm. change (length [r] + length R) with (S (length R)). rewrite seq_combine_snoc, flat_map_app. f_equal.
  - rewrite !flat_map_concat_map. f_equal. apply map_ext_in. intros [i x] Hin. apply in_combine_l, in_seq in Hin.
    f_equal. rewrite filter_app. simpl. destruct (Nat.eqb_spec (ray_id e) i); [lia|]. apply app_nil_r.
  - simpl. rewrite app_nil_r, filter_app. simpl. rewrite He, Nat.eqb_refl.
    assert (Z : filter (fun e0 => ray_id e0 =? S (length R)) E = []).
    { induction HE as [|x l Hx Hl IH]; [reflexivity|]. simpl. destruct (Nat.eqb_spec (ray_id x) (S (length R))); [lia|exact IH]. }
    rewrite Z. reflexivity.
Qed.

Lemma joined_rows (f : message -> ray_row) ms :
  joined (DB (map f ms) (map (fun '(j, m) => erow j m) (combine (seq 1 (length ms)) ms)))
  = map (fun '(j, m) => (f m, erow j m)) (combine (seq 1 (length ms)) ms).
Proof.
  induction ms as [|m ms IH] using rev_ind; [reflexivity|].
  rewrite app_length, Nat.add_comm. change (length [m] + length ms) with (S (length ms)). rewrite seq_combine_snoc, !map_app. simpl map at 2 4 6.
  rewrite joined_snoc, IH; [reflexivity|simpl; now rewrite map_length|].
  rewrite map_length. apply Forall_forall. intros e' H. apply in_map_iff in H. destruct H as ([j m'] & <- & H).
  apply in_combine_l, in_seq in H. simpl. lia.
Qed.

Lemma joined_spec ms : let s := monitor_queue ms in
  joined (saved s) = map (fun '(j, m) => (rrow (ids s) m, erow j m)) (combine (seq 1 (length ms)) ms).
Proof.
  cbv zeta. destruct (monitor_spec ms) as (_ & _ & _ & Hr & He). rewrite <- (joined_rows (rrow (ids (monitor_queue ms))) ms), <- Hr, <- He.
  now destruct (saved (monitor_queue ms)).
Qed.

(** ** queries in terms of messages *)
(** [query_where] does not look at throw_id or ray_id *)
Definition counted (q : query) (node : nat) (f : filters) (e : event) : bool :=
  query_where q node f (rrow [] (Msg 0 0 0 e), erow 0 (Msg 0 0 0 e)).
Lemma counted_eq q node f l j m : query_where q node f (rrow l m, erow j m) = counted q node f (m_event m).
Proof. destruct q; reflexivity. Qed.

Lemma map_snd_combine_seq {A B} (f : A -> B) a (l : list A) : map (fun '(j, x) => f x) (combine (seq a (length l)) l) = map f l.
Proof. revert a. induction l as [|x l IH]; intros a; simpl; [reflexivity|]. now rewrite IH. Qed.


Lemma select_spec {A} dec (cols : ray_row -> A) q node f ms : let s := monitor_queue ms in
  select_distinct dec cols (query_where q node f) (saved s)
  = nodup dec (map (fun m => cols (rrow (ids s) m)) (filter (fun m => counted q node f (m_event m)) ms)).
Proof.
  cbv zeta. unfold select_distinct. f_equal. rewrite joined_spec. set (l := ids (monitor_queue ms)). clearbody l.
  generalize 1. induction ms as [|m ms IH]; intros a; [reflexivity|]. simpl. rewrite counted_eq.
  destruct (counted q node f (m_event m)); simpl; now rewrite IH.
Qed.

Definition key_eq_dec (a b : nat * nat) : {a = b} + {a <> b}.
Proof. decide equality; apply Nat.eq_dec. Defined.

Lemma nodup_map_length {A B} (da : forall x y : A, {x = y} + {x <> y}) (db : forall x y : B, {x = y} + {x <> y}) (g : A -> B) l :
  (forall x y, In x l -> In y l -> g x = g y -> x = y) -> length (nodup db (map g l)) = length (nodup da l).
Proof.
  induction l as [|x l IH]; intros H; [reflexivity|]. simpl.
  assert (IH' := IH (fun a b Ha Hb => H a b (or_intror Ha) (or_intror Hb))).
  destruct (in_dec db (g x) (map g l)) as [i|n]; destruct (in_dec da x l) as [i'|n']; simpl; try lia.
  - exfalso. apply n'. apply in_map_iff in i. destruct i as (y & E & Hy). rewrite (H x y (or_introl eq_refl) (or_intror Hy) (eq_sym E)). exact Hy.
  - exfalso. apply n. now apply in_map.
Qed.

(** A count is the number of (pid, idx) pairs with a matching message. *)
Lemma count_keys q node f ms :
  sql_count q node f (saved (monitor_queue ms)) = length (nodup key_eq_dec (map key (filter (fun m => counted q node f (m_event m)) ms))).
Proof.
  unfold sql_count. rewrite select_spec. set (l := ids (monitor_queue ms)).
  rewrite <- (nodup_map_length key_eq_dec Nat.eq_dec (gid l)).
  - now rewrite map_map.
  - intros x y Hx Hy. apply gid_inj; apply (proj1 (proj2 (monitor_spec ms))).
    + apply in_map_iff in Hx. destruct Hx as (m & <- & Hm). apply filter_In in Hm. now apply in_map.
    + apply in_map_iff in Hy. destruct Hy as (m & <- & Hm). apply filter_In in Hm. now apply in_map.
Qed.

Lemma nodup_same_length {A} (dec : forall x y : A, {x = y} + {x <> y}) l l' :
  (forall x, In x l <-> In x l') -> length (nodup dec l) = length (nodup dec l').
Proof.
  intros H. apply Nat.le_antisymm; apply NoDup_incl_length; try apply NoDup_nodup; intros x Hx; apply nodup_In in Hx; apply nodup_In; now apply H.
Qed.

(** ** what a message can be *)
Lemma in_combine_seq {A} a (l : list A) i x : In (i, x) (combine (seq a (length l)) l) <-> a <= i /\ nth_error l (i - a) = Some x.
Proof.
  revert a. induction l as [|y l IH]; intros a; simpl.
  - split; [easy|]. intros [_ H]. destruct (i - a); discriminate.
  - rewrite IH. split.
    + intros [[= <- <-]|[H1 H2]]; [now rewrite Nat.sub_diag|]. split; [lia|]. replace (i - a) with (S (i - S a)) by lia. exact H2.
    + intros [H1 H2]. destruct (i - a) as [|d] eqn:D; [left; injection H2 as <-; f_equal; lia|].
      right. split; [lia|]. replace (i - S a) with d by lia. exact H2.
Qed.
Lemma in_combine_seq0 {A} (l : list A) i x : In (i, x) (combine (seq 0 (length l)) l) <-> nth_error l i = Some x.
Proof. rewrite in_combine_seq, Nat.sub_0_r. intuition lia. Qed.

(** the history of ray [idx] of task [number] of process [pid] *)
Definition history_of (pool : list (list task)) (pid number idx : nat) (h : list event) : Prop :=
  exists tasks t, nth_error pool pid = Some tasks /\ nth_error tasks number = Some t /\ nth_error t idx = Some h.

Lemma received_in er pool ms : received er pool ms ->
  forall m, In m ms <-> exists h, history_of pool (m_pid m) (m_task m) (m_idx m) h /\ In (m_event m) (if er then filter is_end_ray h else h).
Proof.
  intros H m. apply interleave_perm in H.
  assert (E : In m ms <-> In m (concat (pool_messages er pool))).
  { split; intros G; [apply (Permutation_in _ (Permutation_sym H) G)|apply (Permutation_in _ H G)]. }
  rewrite E. clear H E. unfold pool_messages, process_messages, task_messages, history_of.
  rewrite <- flat_map_concat_map, in_flat_map. split.
  - intros ([pid tasks] & Hp & Hm). apply in_combine_seq0 in Hp. apply in_flat_map in Hm. destruct Hm as ([n t] & Hn & Hm).
    apply in_combine_seq0 in Hn. apply in_flat_map in Hm. destruct Hm as ([i h] & Hi & Hm). apply in_combine_seq0 in Hi.
    apply in_map_iff in Hm. destruct Hm as (e & <- & He). simpl. exists h. split; [exists tasks, t; auto|exact He].
  - intros (h & (tasks & t & Hp & Hn & Hi) & He).
    exists (m_pid m, tasks). split; [now apply in_combine_seq0|]. apply in_flat_map. exists (m_task m, t). split; [now apply in_combine_seq0|].
    apply in_flat_map. exists (m_idx m, h). split; [now apply in_combine_seq0|]. apply in_map_iff. exists (m_event m). split; [now destruct m|exact He].
Qed.

(** ** at most one task per process *)
Definition one_task (pool : list (list task)) : Prop := forall pid tasks, nth_error pool pid = Some tasks -> length tasks <= 1.

(** all rays with their keys *)
Definition pool_rays (pool : list (list task)) : list ((nat * nat) * list event) :=
  flat_map (fun '(pid, tasks) => flat_map (fun t => map (fun '(i, h) => ((pid, i), h)) (combine (seq 0 (length t)) t)) tasks)
           (combine (seq 0 (length pool)) pool).

Lemma map_flat_map {A B C} (g : B -> C) (f : A -> list B) l : map g (flat_map f l) = flat_map (fun x => map g (f x)) l.
Proof. induction l as [|x l IH]; simpl; [reflexivity|]. now rewrite map_app, IH. Qed.

Lemma pool_rays_histories pool : map snd (pool_rays pool) = concat (concat pool).
Proof.
  unfold pool_rays.
  enough (G : forall a, map snd (flat_map (fun '(pid, tasks) => flat_map (fun t : list (list event) => map (fun '(i, h) => ((pid, i), h)) (combine (seq 0 (length t)) t)) tasks)
    (combine (seq a (length pool)) pool)) = concat (concat pool)) by apply G.
  induction pool as [|tasks pool IH]; intros a; [reflexivity|].
  simpl. rewrite map_app, IH, concat_app. f_equal. clear IH. induction tasks as [|t tasks IH]; [reflexivity|].
  simpl. rewrite map_app, IH. f_equal. rewrite map_map. rewrite <- (map_id t) at 3.
  rewrite <- (map_snd_combine_seq (fun x => x) 0 t). apply map_ext. now intros [].
Qed.

Lemma in_pool_rays pool p i h : In ((p, i), h) (pool_rays pool) <-> exists n, history_of pool p n i h.
Proof.
  unfold pool_rays, history_of. rewrite in_flat_map. split.
  - intros ([pid tasks] & Hp & H). apply in_combine_seq0 in Hp. apply in_flat_map in H. destruct H as (t & Ht & H).
    apply in_map_iff in H. destruct H as ([i' h'] & [= <- <- <-] & H). apply in_combine_seq0 in H.
    apply In_nth_error in Ht. destruct Ht as (n & Hn). now exists n, tasks, t.
  - intros (n & tasks & t & Hp & Hn & Hi). exists (p, tasks). split; [now apply in_combine_seq0|].
    apply in_flat_map. exists t. split; [now apply nth_error_In in Hn|]. apply in_map_iff. exists (i, h). split; [easy|now apply in_combine_seq0].
Qed.

Lemma pool_rays_nodup pool : one_task pool -> NoDup (map fst (pool_rays pool)).
Proof.
  intros H1. unfold pool_rays. rewrite map_flat_map. apply nodup_flat_map.
  - apply NoDup_map_inv with (f := fst). 
    assert (E : forall a, map fst (combine (seq a (length pool)) pool) = seq a (length pool)).
    { clear. induction pool as [|x l IH]; intros a; simpl; [reflexivity|]. now rewrite IH. }
    rewrite E. apply seq_NoDup.
  - intros [pid tasks] Hp. apply in_combine_seq0 in Hp. apply H1 in Hp. destruct tasks as [|t [|? ?]]; simpl in Hp; [constructor| |lia].
    simpl. rewrite app_nil_r, map_map.
    assert (E : forall a, map (fun x : nat * list event => fst (let '(i, h) := x in ((pid, i), h))) (combine (seq a (length t)) t) = map (pair pid) (seq a (length t))).
    { clear. induction t as [|x l IH]; intros a; simpl; [reflexivity|]. now rewrite IH. }
    rewrite E. apply FinFun.Injective_map_NoDup; [intros x y G; congruence|apply seq_NoDup].
  - intros [p ts] [p' ts'] b Hp Hp' Hb Hb'. apply in_combine_seq0 in Hp, Hp'.
    assert (Q : forall q (us : list task), In b (map fst (flat_map (fun t => map (fun '(i, h) => ((q, i), h)) (combine (seq 0 (length t)) t)) us)) -> fst b = q).
    { intros q us G. apply in_map_iff in G. destruct G as (x & <- & G). apply in_flat_map in G. destruct G as (t & _ & G).
      apply in_map_iff in G. destruct G as ([i h] & <- & _). reflexivity. }
    apply Q in Hb, Hb'. subst p p'. congruence.
Qed.

Lemma one_task_number pool p n n' i h h' : one_task pool -> history_of pool p n i h -> history_of pool p n' i h' -> n = n' /\ h = h'.
Proof.
  intros H1 (ts & t & Hp & Hn & Hi) (ts' & t' & Hp' & Hn' & Hi'). assert (ts = ts') by congruence. subst ts'.
  apply H1 in Hp. assert (n < length ts) by (apply nth_error_Some; congruence). assert (n' < length ts) by (apply nth_error_Some; congruence).
  assert (n = n') by lia. subst n'. split; [reflexivity|congruence].
Qed.

(** number of distinct keys with a matching message = number of histories with a matching event *)
Lemma matching_keys er pool ms (P : event -> bool) : one_task pool -> received er pool ms ->
  (er = true -> forall e, P e = true -> is_end_ray e = true) ->
  length (nodup key_eq_dec (map key (filter (fun m => P (m_event m)) ms))) = length (filter (existsb P) (concat (concat pool))).
Proof.
  intros H1 Hr HP. rewrite <- pool_rays_histories.
  transitivity (length (map fst (filter (fun x => existsb P (snd x)) (pool_rays pool)))).
  - rewrite <- (nodup_fixed_point key_eq_dec (l := map fst (filter _ (pool_rays pool)))).
    + apply nodup_same_length. intros [p i]. rewrite !in_map_iff. split.
      * intros (m & [= <- <-] & Hm). apply filter_In in Hm. destruct Hm as [Hm Hp]. apply (received_in _ _ _ Hr) in Hm.
        destruct Hm as (h & Hh & He). exists ((m_pid m, m_idx m), h). split; [reflexivity|]. apply filter_In. split.
        { apply in_pool_rays. now exists (m_task m). }
        simpl. apply existsb_exists. exists (m_event m). split; [|exact Hp]. destruct er; [apply filter_In in He; tauto|exact He].
      * intros ([[p' i'] h] & [= -> ->] & H). apply filter_In in H. destruct H as [Hin He]. simpl in He. apply existsb_exists in He.
        destruct He as (e & He & Hp). apply in_pool_rays in Hin. destruct Hin as (n & Hin). exists (Msg p n i e). split; [reflexivity|].
        apply filter_In. split; [|exact Hp]. apply (received_in _ _ _ Hr). exists h. split; [exact Hin|].
        simpl. destruct er; [apply filter_In; auto|exact He].
    + pose proof (pool_rays_nodup pool H1) as N. clear - N. induction (pool_rays pool) as [|x l IH]; simpl; [constructor|].
      inversion N; subst. destruct (existsb P (snd x)); simpl; [|auto]. constructor; [|auto].
      intros G. apply H1. apply in_map_iff in G. destruct G as (y & E & G). apply filter_In in G. apply in_map_iff. exists y. tauto.
  - rewrite map_length. induction (pool_rays pool) as [|x l IH]; simpl; [reflexivity|]. destruct (existsb P (snd x)); simpl; now rewrite IH.
Qed.

Lemma counted_end q node f e : counted q node f e = true -> is_end_ray e = true.
Proof.
  unfold counted, is_end_ray, oeqb. destruct q; simpl; rewrite ?andb_true_iff; unfold kind_is, col_is; intros H; decompose [and] H; clear H;
    destruct (e_kind e); try discriminate; try reflexivity;
    destruct (e_hit e) as [a|]; try discriminate; destruct (e_adjacent e) as [b|]; try discriminate; try destruct (e_container e) as [c|]; try discriminate;
    rewrite ?Nat.eqb_eq in *; subst; rewrite ?Nat.eqb_refl; try reflexivity.
  destruct (node =? b); reflexivity.
Qed.

(** ** progress *)
Fixpoint dget (d : list (nat * nat)) (k : nat) : nat :=
  match d with [] => 0 | (k', v) :: rest => if Nat.eqb k' k then v else dget rest k end.
Lemma dget_set d k v k' : dget (dict_set d k v) k' = if Nat.eqb k k' then v else dget d k'.
Proof.
  induction d as [|[a b] d IH]; simpl; [reflexivity|]. destruct (Nat.eqb_spec a k) as [->|Ha]; simpl.
  - destruct (Nat.eqb_spec k k'); reflexivity.
  - rewrite IH. destruct (Nat.eqb_spec a k') as [->|]; [|reflexivity]. destruct (Nat.eqb_spec k k'); [congruence|reflexivity].
Qed.
Lemma dict_set_sum d k v : list_sum (map snd (dict_set d k v)) + dget d k = list_sum (map snd d) + v.
Proof.
  induction d as [|[a b] d IH]; simpl; [lia|]. destruct (Nat.eqb a k); simpl; lia.
Qed.

(** process [p] continues a ray or starts the next one *)
Fixpoint climbs (p c : nat) (l : list message) : Prop :=
  match l with
  | [] => True
  | m :: rest => m_pid m = p /\ (S (m_idx m) = c \/ m_idx m = c) /\ climbs p (S (m_idx m)) rest
  end.
Definition steady (s : monitor) : Prop :=
  completed s = length (ids s) /\ updates s = length (ids s) /\ list_sum (map snd (counts s)) = length (ids s) /\
  (forall p i, In (p, i) (ids s) <-> i < dget (counts s) p).

Lemma handle_steady s m : steady s -> (S (m_idx m) = dget (counts s) (m_pid m) \/ m_idx m = dget (counts s) (m_pid m)) ->
  steady (handle s m) /\ counts (handle s m) = dict_set (counts s) (m_pid m) (S (m_idx m)).
Proof.
  intros (E1 & E2 & E3 & E4) Hm.
  destruct (handle_states_eq s m) as (_ & _ & _ & s2 & s3 & _ & _ & _ & Hi & Hc & Hco & Hu & _).
  pose proof (dict_set_sum (counts s) (m_pid m) (S (m_idx m))) as Hsum.
  assert (Hct : counts (handle s m) = dict_set (counts s) (m_pid m) (S (m_idx m))).
  { rewrite Hc. unfold register. destruct (if _ <? _ then _ else _). now destruct (find_id _ _). }
  split; [|exact Hct].
  assert (R : (completed (handle s m), updates (handle s m)) =
      if completed s <? list_sum (map snd (dict_set (counts s) (m_pid m) (S (m_idx m)))) then (S (completed s), S (updates s)) else (completed s, updates s)).
  { rewrite Hco, Hu. unfold register. destruct (if _ <? _ then _ else _). now destruct (find_id _ _). }
  assert (Hnew : find_id (key m) (ids s) = None <-> m_idx m = dget (counts s) (m_pid m)).
  { rewrite find_id_none. unfold key. rewrite E4. lia. }
  unfold steady. rewrite Hi, Hct. unfold new_ids in *.
  destruct (find_id (key m) (ids s)) as [i|] eqn:F.
  - assert (Hn : S (m_idx m) = dget (counts s) (m_pid m)) by (destruct Hm as [Hm|Hm]; [exact Hm|apply Hnew in Hm; discriminate]).
    destruct (Nat.ltb_spec (completed s) (list_sum (map snd (dict_set (counts s) (m_pid m) (S (m_idx m)))))); [lia|]. injection R as -> ->.
    split; [lia|]. split; [lia|]. split; [lia|]. intros p j. rewrite E4, dget_set. destruct (Nat.eqb_spec (m_pid m) p) as [<-|]; [lia|tauto].
  - assert (Hn : m_idx m = dget (counts s) (m_pid m)) by now apply Hnew.
    rewrite app_length. simpl.
    destruct (Nat.ltb_spec (completed s) (list_sum (map snd (dict_set (counts s) (m_pid m) (S (m_idx m)))))); [|lia]. injection R as -> ->.
    split; [lia|]. split; [lia|]. split; [lia|]. intros p j. rewrite in_app_iff, E4, dget_set. unfold key. simpl.
    destruct (Nat.eqb_spec (m_pid m) p) as [<-|Hne].
    + split; [intros [G|[[= <-]|[]]]; lia|]. intros G. destruct (Nat.eq_dec j (m_idx m)) as [->|]; [right; now left|left; lia].
    + split; [intros [G|[G|[]]]; [exact G|injection G as G _; congruence]|tauto].
Qed.

Lemma interleave_steady ls ms : interleave ls ms -> forall s, steady s ->
  (forall p l, nth_error ls p = Some l -> climbs p (dget (counts s) p) l) ->
  forall k, steady (fold_left handle (firstn k ms) s).
Proof.
  induction 1 as [ls Hl|before x l after rest Hi IH]; intros s Hs Hc k.
  - rewrite firstn_nil. exact Hs.
  - destruct k as [|k]; [exact Hs|]. cbn [firstn fold_left].
    assert (Hx : climbs (length before) (dget (counts s) (length before)) (x :: l)).
    { apply Hc. rewrite nth_error_app2 by lia. now rewrite Nat.sub_diag. }
    destruct Hx as (Hp & Hm & Hl). rewrite <- Hp in Hm.
    destruct (handle_steady s x Hs Hm) as [Hs' Hct]. apply IH; [exact Hs'|].
    intros p l' Hn. rewrite Hct, dget_set, Hp. destruct (Nat.eqb_spec (length before) p) as [<-|Hne].
    + rewrite nth_error_app2, Nat.sub_diag in Hn by lia. injection Hn as <-. exact Hl.
    + apply Hc. destruct (Nat.lt_ge_cases p (length before)).
      * rewrite nth_error_app1 in Hn |- * by lia. exact Hn.
      * rewrite nth_error_app2 in Hn |- * by lia. destruct (p - length before) eqn:D; [lia|exact Hn].
Qed.

Lemma climbs_app p c l l' : climbs p c l -> climbs p (fold_left (fun _ m => S (m_idx m)) l c) l' -> climbs p c (l ++ l').
Proof. revert c. induction l as [|m l IH]; intros c; simpl; [auto|]. intros (H1 & H2 & H3) H4. auto. Qed.
Lemma climbs_map p n i (hs : list event) c : (S i = c \/ i = c) -> climbs p c (map (Msg p n i) hs).
Proof. revert c. induction hs as [|h hs IH]; intros c H; simpl; [exact I|]. repeat split; [exact H|]. apply IH. now left. Qed.
Lemma fold_last_map p n i (hs : list event) c : hs <> [] -> fold_left (fun _ m => S (m_idx m)) (map (Msg p n i) hs) c = S i.
Proof.
  intros H. destruct hs as [|h hs]; [easy|]. clear H. revert c h. induction hs as [|h' hs IH]; intros c h; [reflexivity|].
  change (map (Msg p n i) (h :: h' :: hs)) with (Msg p n i h :: map (Msg p n i) (h' :: hs)). cbn [fold_left]. apply IH.
Qed.

Lemma task_climbs (er : bool) p n (t : task) : Forall (fun h : list event => (if er then filter is_end_ray h else h) <> []) t -> climbs p 0 (task_messages er p n t).
Proof.
  intros H. unfold task_messages. enough (G : forall a, climbs p a (flat_map (fun '(idx, h) => map (Msg p n idx) (if er then filter is_end_ray h else h)) (combine (seq a (length t)) t))) by apply G.
  induction H as [|h t Hh Ht IH]; intros a; [exact I|]. simpl. apply climbs_app; [apply climbs_map; now right|].
  rewrite fold_last_map by exact Hh. apply IH.
Qed.

Lemma monitor0_steady : steady monitor0.
Proof. unfold steady. simpl. repeat split; try reflexivity; try easy; lia. Qed.

Lemma received_steady (er : bool) pool ms : one_task pool -> Forall (fun h : list event => (if er then filter is_end_ray h else h) <> []) (concat (concat pool)) ->
  received er pool ms -> forall k, steady (monitor_queue (firstn k ms)).
Proof.
  intros H1 Hne Hr k. unfold monitor_queue. apply (interleave_steady _ _ Hr); [apply monitor0_steady|].
  intros p l Hl. simpl. unfold pool_messages in Hl. rewrite nth_error_map in Hl.
  destruct (nth_error (combine (seq 0 (length pool)) pool) p) as [[p' ts]|] eqn:E; [|discriminate]. injection Hl as <-.
  assert (Hp : p' = p /\ nth_error pool p = Some ts).
  { assert (G : forall a q, nth_error (combine (seq a (length pool)) pool) q = Some (p', ts) -> p' = a + q /\ nth_error pool q = Some ts).
    { clear. induction pool as [|x l IH]; intros a q H; [destruct q; discriminate|]. destruct q as [|q]; simpl in H; [injection H as <- <-; split; [lia|reflexivity]|].
      apply IH in H. destruct H as [-> H]. split; [lia|exact H]. }
    now apply G in E. }
  destruct Hp as [-> Hp]. pose proof (H1 p ts Hp) as Hlen.
  destruct ts as [|t [|? ?]]; simpl in Hlen; [exact I| |lia]. unfold process_messages. simpl. rewrite app_nil_r. apply task_climbs.
  apply Forall_forall. intros h Hh. apply (proj1 (Forall_forall _ _) Hne). apply in_concat. exists t. split; [|exact Hh].
  apply in_concat. exists [t]. split; [now apply nth_error_In in Hp|now left].
Qed.
