(** C143: the histories that pvtrace-cli simulate draws while it runs. *)
From Coq Require Import Reals List Bool Arith Lia Permutation Sorted.
From Verif Require Import Base Vec TracerModel TracerProofs TracerProps BundleModel BundleProofs CliModel CliProofs CliProps DrawnModel.
Import ListNotations.
Open Scope nat_scope.

(** ** The dictionary *)
Lemma lookup_drop {A} k k' (d : list (nat * A)) : lookup k (drop k' d) = if Nat.eqb k' k then None else lookup k d.
Proof.
  induction d as [|[x v] d IH]; simpl; [now destruct (k' =? k)|].
  destruct (Nat.eqb_spec x k') as [->|N]; simpl.
  - rewrite IH. destruct (k' =? k); reflexivity.
  - rewrite IH. destruct (Nat.eqb_spec x k) as [->|]; [|reflexivity]. destruct (Nat.eqb_spec k' k); [congruence|reflexivity].
Qed.
Lemma lookup_assign {A} k k' v (d : list (nat * A)) : lookup k (assign k' v d) = if Nat.eqb k' k then Some v else lookup k d.
Proof. unfold assign. simpl. rewrite lookup_drop. destruct (k' =? k); reflexivity. Qed.

(** ** Messages of one throw, in order of arrival *)
Definition sent (ms : list message) (k : nat * nat) : list event := map m_event (filter (fun m => key_eqb (key m) k) ms).
Definition in_order (m m' : message) : Prop := m_pid m = m_pid m' -> m_idx m <= m_idx m'.
Definition ordered (ms : list message) : Prop := StronglySorted in_order ms.
Definition chosen (skip : nat) (ids : list (nat * nat)) (k : nat * nat) : bool := (S (gid ids k) mod skip =? 0) || (snd k =? 0).

Lemma sorted_snoc {A} (R : A -> A -> Prop) l x : StronglySorted R (l ++ [x]) -> StronglySorted R l /\ Forall (fun y => R y x) l.
Proof.
  induction l as [|a l IH]; simpl; intros H; [split; constructor|]. inversion H as [|? ? H1 H2]; subst. destruct (IH H1) as [S F].
  rewrite Forall_app in H2. destruct H2 as [H2 H3]. inversion H3; subst. split; constructor; auto.
Qed.
Lemma sent_snoc ms m k : sent (ms ++ [m]) k = if key_eqb (key m) k then sent ms k ++ [m_event m] else sent ms k.
Proof. unfold sent. rewrite filter_app, map_app. simpl. destruct (key_eqb (key m) k); simpl; [reflexivity|apply app_nil_r]. Qed.
Lemma sent_other ms m k : key m <> k -> sent (ms ++ [m]) k = sent ms k.
Proof. intros H. rewrite sent_snoc. destruct (key_eqb (key m) k) eqn:E; [apply key_eqb_spec in E; contradiction|reflexivity]. Qed.
Lemma sent_none ms k : ~ In k (map key ms) -> sent ms k = [].
Proof.
  intros H. unfold sent. replace (filter (fun m => key_eqb (key m) k) ms) with (@nil message); [reflexivity|].
  induction ms as [|m ms IH]; [reflexivity|]. simpl in *. destruct (key_eqb (key m) k) eqn:E; [apply key_eqb_spec in E; tauto|]. apply IH. tauto.
Qed.
(** the last throw of a process so far *)
Lemma latest ms pid : (forall m, In m ms -> m_pid m <> pid) \/
  exists m, In m ms /\ m_pid m = pid /\ forall m', In m' ms -> m_pid m' = pid -> m_idx m' <= m_idx m.
Proof.
  induction ms as [|x ms IH]; [left; intros m []|]. destruct (Nat.eq_dec (m_pid x) pid) as [E|N].
  - right. destruct IH as [H|(m & I & P & M)].
    + exists x. split; [now left|]. split; [exact E|]. intros m' [<-|I'] Q; [lia|exfalso; exact (H m' I' Q)].
    + destruct (le_lt_dec (m_idx x) (m_idx m)) as [L|L].
      * exists m. split; [now right|]. split; [exact P|]. intros m' [<-|I'] Q; [exact L|now apply M].
      * exists x. split; [now left|]. split; [exact E|]. intros m' [<-|I'] Q; [lia|]. specialize (M m' I' Q). lia.
  - destruct IH as [H|(m & I & P & M)].
    + left. intros m [<-|I]; [exact N|now apply H].
    + right. exists m. split; [now right|]. split; [exact P|]. intros m' [<-|I'] Q; [contradiction|now apply M].
Qed.

Record drawn_state (skip : nat) (ms : list message) (s : drawing) : Prop := {
  ds_nodup : NoDup (dr_ids s);
  ds_ids : forall k, In k (dr_ids s) <-> In k (map key ms);
  ds_idle : forall pid, (forall m, In m ms -> m_pid m <> pid) -> lookup pid (dr_open s) = None;
  ds_open : forall m, In m ms -> (forall m', In m' ms -> m_pid m' = m_pid m -> m_idx m' <= m_idx m) ->
    lookup (m_pid m) (dr_open s) = if chosen skip (dr_ids s) (key m) then Some (sent ms (key m)) else None;
  ds_drawn : exists ks, NoDup ks /\ dr_drawn s = map (sent ms) ks /\
    forall k, In k ks <-> In k (dr_ids s) /\ chosen skip (dr_ids s) k = true /\ 1 < length (sent ms k) /\
      exists m, In m ms /\ m_pid m = fst k /\ snd k < m_idx m }.

Lemma draw_ids skip ms : dr_ids (draw_run skip ms) = ids (monitor_queue ms).
Proof.
  induction ms as [|m ms IH] using rev_ind; [reflexivity|]. unfold draw_run. rewrite fold_left_app, monitor_snoc, handle_ids. simpl. fold (draw_run skip ms).
  unfold draw_message, new_ids. change (m_pid m, m_idx m) with (key m). rewrite <- IH. destruct (find_id (key m) (dr_ids (draw_run skip ms))); reflexivity.
Qed.

Lemma key_inv m k : key m = k -> m_pid m = fst k /\ m_idx m = snd k.
Proof. intros <-. now split. Qed.

Lemma draw_state skip ms : ordered ms -> drawn_state skip ms (draw_run skip ms).
Proof.
  induction ms as [|m ms IH] using rev_ind; intros O.
  { split; simpl; try easy; [constructor|]. exists []. split; [constructor|]. split; [reflexivity|]. simpl. intuition. }
  apply sorted_snoc in O. destruct O as [O F]. specialize (IH O). rewrite Forall_forall in F.
  assert (Ord : forall m', In m' ms -> m_pid m' = m_pid m -> m_idx m' <= m_idx m) by (intros m' I E; exact (F m' I E)). clear F.
  unfold draw_run in *. rewrite fold_left_app. cbn [fold_left]. set (s := fold_left (draw_message skip) ms drawing0) in *. clearbody s.
  destruct IH as [Nd Id Idle Op Dr]. unfold draw_message. change (m_pid m, m_idx m) with (key m).
  destruct (find_id (key m) (dr_ids s)) as [i|] eqn:Fi.
  - (* a further event of the throw under way *)
    pose proof (nth_error_In _ _ (find_id_some _ _ _ Fi)) as In0. pose proof (proj1 (Id _) In0) as In1. apply in_map_iff in In1. destruct In1 as (m0 & K0 & I0).
    assert (Mx : forall m', In m' ms -> m_pid m' = m_pid m0 -> m_idx m' <= m_idx m0).
    { destruct (key_inv m0 (key m) K0) as [A B]. simpl in A, B. intros m' I' E. rewrite B. apply Ord; [exact I'|congruence]. }
    pose proof (Op m0 I0 Mx) as L0. rewrite K0 in L0. destruct (key_inv m0 (key m) K0) as [A B]. simpl in A, B. rewrite A in L0.
    assert (Ids : forall k, In k (dr_ids s) <-> In k (map key (ms ++ [m]))).
    { intros k. rewrite map_app, in_app_iff, <- Id. simpl. split; [tauto|]. intros [H|[<-|[]]]; assumption. }
    assert (Open' : forall h, match lookup (m_pid m) (dr_open s) with Some h => assign (m_pid m) (h ++ [m_event m]) (dr_open s) | None => dr_open s end = h ->
       (forall pid, pid <> m_pid m -> lookup pid h = lookup pid (dr_open s)) /\
       lookup (m_pid m) h = if chosen skip (dr_ids s) (key m) then Some (sent (ms ++ [m]) (key m)) else None).
    { intros h <-. rewrite L0. rewrite sent_snoc, (proj2 (key_eqb_spec (key m) (key m)) eq_refl). destruct (chosen skip (dr_ids s) (key m)) eqn:C.
      - split; [intros pid Np; rewrite lookup_assign; destruct (Nat.eqb_spec (m_pid m) pid); [congruence|reflexivity]|].
        now rewrite lookup_assign, Nat.eqb_refl.
      - split; [reflexivity|exact L0]. }
    destruct (Open' _ eq_refl) as [Oo Om]. set (h := match lookup (m_pid m) (dr_open s) with Some _ => _ | None => _ end) in *. clearbody h. clear Open'.
    split; cbn [dr_ids dr_open dr_drawn]; auto.
    + intros pid H. rewrite Oo; [apply Idle; intros m' I'; apply H, in_or_app; now left|]. intros ->. apply (H m); [apply in_or_app; right; now left|reflexivity].
    + intros m1 I1 M1. destruct (Nat.eq_dec (m_pid m1) (m_pid m)) as [E|N].
      * assert (K : key m1 = key m).
        { apply in_app_or in I1. assert (Le : m_idx m <= m_idx m1) by (apply M1; [apply in_or_app; right; now left|now symmetry]).
          destruct I1 as [I1|[<-|[]]]; [|reflexivity]. pose proof (Ord m1 I1 E). unfold key. f_equal; [exact E|lia]. }
        rewrite E, K. exact Om.
      * rewrite Oo by exact N. apply in_app_or in I1. destruct I1 as [I1|[<-|[]]]; [|contradiction N; reflexivity].
        rewrite sent_other by (intros Q; apply N; apply (f_equal fst) in Q; simpl in Q; congruence).
        apply Op; [exact I1|]. intros m' I' E'. apply M1; [apply in_or_app; now left|exact E'].
    + destruct Dr as (ks & Nk & Dk & Hk). exists ks. split; [exact Nk|].
      assert (St : forall k, In k ks -> sent (ms ++ [m]) k = sent ms k).
      { intros k I. apply Hk in I. destruct I as (_ & _ & _ & m' & I' & P' & L'). apply sent_other. intros <-. simpl in *. pose proof (Ord m' I' P'). lia. }
      split; [rewrite Dk; apply map_ext_in; intros k I; symmetry; now apply St|].
      intros k. destruct (key_eqb (key m) k) eqn:E.
      * apply key_eqb_spec in E. subst k. split; intros H; exfalso.
        { apply Hk in H. destruct H as (_ & _ & _ & m' & I' & P' & L'). simpl in *. pose proof (Ord m' I' P'). lia. }
        { destruct H as (_ & _ & _ & m' & I' & P' & L'). simpl in *. apply in_app_or in I'. destruct I' as [I'|[<-|[]]]; [pose proof (Ord m' I' P')|]; lia. }
      * assert (Nk' : key m <> k) by (intros Q; rewrite (proj2 (key_eqb_spec _ _) Q) in E; discriminate). rewrite (sent_other ms m k Nk'), Hk.
        split; intros (H1 & H2 & H3 & m' & I' & P' & L'); (split; [exact H1|split; [exact H2|split; [exact H3|]]]).
        { exists m'. split; [apply in_or_app; now left|auto]. }
        { apply in_app_or in I'. destruct I' as [I'|[<-|[]]]; [now exists m'|]. exists m0. split; [exact I0|]. split; [congruence|lia]. }
  - (* the first event of a throw *)
    apply find_id_none in Fi. assert (New : ~ In (key m) (map key ms)) by (rewrite <- Id; exact Fi).
    set (ids' := dr_ids s ++ [key m]).
    assert (Nd' : NoDup ids').
    { unfold ids'. apply (Permutation_NoDup (l := key m :: dr_ids s)); [apply Permutation_cons_append|]. now constructor. }
    assert (Ids : forall k, In k ids' <-> In k (map key (ms ++ [m]))).
    { intros k. unfold ids'. rewrite map_app, !in_app_iff, <- Id. reflexivity. }
    assert (Lt : forall m', In m' ms -> m_pid m' = m_pid m -> m_idx m' < m_idx m).
    { intros m' I E. pose proof (Ord m' I E). assert (m_idx m' <> m_idx m); [|lia]. intros Q. apply New. replace (key m) with (key m') by (unfold key; congruence). now apply in_map. }
    assert (Ch : forall k, In k (dr_ids s) -> chosen skip ids' k = chosen skip (dr_ids s) k).
    { intros k I. unfold chosen, ids'. now rewrite gid_app. }
    assert (Cm : chosen skip ids' (key m) = ((length ids' mod skip =? 0) || (m_idx m =? 0))).
    { unfold chosen, ids'. unfold gid. rewrite find_id_new by exact Fi. rewrite app_length. simpl. now rewrite Nat.add_1_r. }
    assert (Gt : forall k, In k (dr_ids s) -> fst k = m_pid m -> snd k < m_idx m).
    { intros k I E. apply Id in I. apply in_map_iff in I. destruct I as (m' & <- & I'). simpl in *. now apply Lt. }
    set (opened := if (length ids' mod skip =? 0) || (m_idx m =? 0) then assign (m_pid m) [] (dr_open s) else drop (m_pid m) (dr_open s)).
    assert (Open' : (forall pid, pid <> m_pid m -> lookup pid (match lookup (m_pid m) opened with Some h => assign (m_pid m) (h ++ [m_event m]) opened | None => opened end) = lookup pid (dr_open s)) /\
       lookup (m_pid m) (match lookup (m_pid m) opened with Some h => assign (m_pid m) (h ++ [m_event m]) opened | None => opened end) =
         if chosen skip ids' (key m) then Some (sent (ms ++ [m]) (key m)) else None).
    { rewrite Cm, sent_snoc, (proj2 (key_eqb_spec (key m) (key m)) eq_refl), (sent_none ms (key m) New). unfold opened.
      destruct ((length ids' mod skip =? 0) || (m_idx m =? 0)).
      - rewrite lookup_assign, Nat.eqb_refl. split; [intros pid N|]; rewrite !lookup_assign; [destruct (Nat.eqb_spec (m_pid m) pid); [congruence|reflexivity]|].
        now rewrite Nat.eqb_refl.
      - rewrite lookup_drop, Nat.eqb_refl. split; [intros pid N|]; rewrite lookup_drop; [destruct (Nat.eqb_spec (m_pid m) pid); [congruence|reflexivity]|].
        now rewrite Nat.eqb_refl. }
    set (op := match lookup (m_pid m) opened with Some _ => _ | None => _ end) in *. clearbody op. destruct Open' as [Oo Om]. clear opened.
    assert (So : forall k, In k (dr_ids s) -> sent (ms ++ [m]) k = sent ms k) by (intros k I; apply sent_other; intros <-; contradiction).
    split; cbn [dr_ids dr_open dr_drawn]; auto.
    + intros pid H. rewrite Oo; [apply Idle; intros m' I'; apply H, in_or_app; now left|]. intros ->. apply (H m); [apply in_or_app; right; now left|reflexivity].
    + intros m1 I1 M1. destruct (Nat.eq_dec (m_pid m1) (m_pid m)) as [E|N].
      * assert (K : key m1 = key m).
        { apply in_app_or in I1. assert (Le : m_idx m <= m_idx m1) by (apply M1; [apply in_or_app; right; now left|now symmetry]).
          destruct I1 as [I1|[<-|[]]]; [|reflexivity]. pose proof (Lt m1 I1 E). lia. }
        rewrite E, K. exact Om.
      * rewrite Oo by exact N. apply in_app_or in I1. destruct I1 as [I1|[<-|[]]]; [|contradiction N; reflexivity].
        assert (Ik : In (key m1) (dr_ids s)) by (apply Id; now apply in_map).
        rewrite (So _ Ik), (Ch _ Ik). apply Op; [exact I1|]. intros m' I' E'. apply M1; [apply in_or_app; now left|exact E'].
    + destruct Dr as (ks & Nk & Dk & Hk). destruct (latest ms (m_pid m)) as [Hn|(m1 & I1 & P1 & M1)].
      * rewrite (Idle _ Hn). exists ks. split; [exact Nk|]. split; [rewrite Dk; apply map_ext_in; intros k I; symmetry; apply So; now apply Hk in I|].
        intros k. rewrite Hk. split.
        { intros (H1 & H2 & H3 & m' & I' & P' & L'). rewrite (So k H1), (Ch k H1). split; [apply in_or_app; now left|]. split; [exact H2|]. split; [exact H3|].
          exists m'. split; [apply in_or_app; now left|auto]. }
        { intros (H1 & H2 & H3 & m' & I' & P' & L'). apply in_app_or in H1. destruct H1 as [H1|[<-|[]]].
          - rewrite (So k H1), (Ch k H1) in *. split; [exact H1|]. split; [exact H2|]. split; [exact H3|]. apply in_app_or in I'. destruct I' as [I'|[<-|[]]]; [now exists m'|].
            exfalso. apply Id in H1. apply in_map_iff in H1. destruct H1 as (m2 & <- & I2). apply (Hn m2 I2). simpl in *. congruence.
          - exfalso. simpl in *. apply in_app_or in I'. destruct I' as [I'|[<-|[]]]; [pose proof (Lt m' I' P')|]; lia. }
      * pose proof (Op m1 I1 ltac:(intros m' I' E'; apply M1; [exact I'|congruence])) as L1. rewrite P1 in L1. rewrite L1.
        assert (Ik : In (key m1) (dr_ids s)) by (apply Id; now apply in_map).
        assert (Nin : ~ In (key m1) ks).
        { intros Q. apply Hk in Q. destruct Q as (_ & _ & _ & m' & I' & P' & L'). simpl in *. pose proof (M1 m' I' ltac:(congruence)). lia. }
        set (add := if chosen skip (dr_ids s) (key m1) then 1 <? length (sent ms (key m1)) else false).
        exists (if add then ks ++ [key m1] else ks). split; [|split].
        { destruct add; [|exact Nk]. apply (Permutation_NoDup (l := key m1 :: ks)); [apply Permutation_cons_append|]. now constructor. }
        { assert (Mo : map (sent (ms ++ [m])) ks = map (sent ms) ks) by (apply map_ext_in; intros k I; apply So; now apply Hk in I).
          unfold add. destruct (chosen skip (dr_ids s) (key m1)); [|now rewrite Mo].
          destruct (1 <? length (sent ms (key m1))); [|now rewrite Mo]. rewrite map_app, Mo, Dk. simpl. now rewrite (So _ Ik). }
        { assert (Hadd : add = true <-> chosen skip (dr_ids s) (key m1) = true /\ 1 < length (sent ms (key m1))).
          { unfold add. destruct (chosen skip (dr_ids s) (key m1)); [rewrite Nat.ltb_lt; tauto|]. split; [discriminate|intros [Q _]; discriminate]. }
          assert (Hks : forall k, In k (if add then ks ++ [key m1] else ks) <-> In k ks \/ (add = true /\ k = key m1)).
          { intros k. destruct add; [rewrite in_app_iff; simpl; intuition|intuition discriminate]. }
          intros k. rewrite Hks, Hk, Hadd. split.
          - intros [(H1 & H2 & H3 & m' & I' & P' & L')|((H2 & H3) & ->)].
            + rewrite (So k H1), (Ch k H1). split; [apply in_or_app; now left|]. split; [exact H2|]. split; [exact H3|].
              exists m'. split; [apply in_or_app; now left|auto].
            + rewrite (So _ Ik), (Ch _ Ik). split; [apply in_or_app; now left|]. split; [exact H2|]. split; [exact H3|].
              exists m. split; [apply in_or_app; right; now left|]. split; [now symmetry|]. simpl. now apply Lt.
          - intros (H1 & H2 & H3 & m' & I' & P' & L'). apply in_app_or in H1. destruct H1 as [H1|[<-|[]]].
            + rewrite (So k H1), (Ch k H1) in *. apply in_app_or in I'. destruct I' as [I'|[<-|[]]]; [left; split; [exact H1|]; split; [exact H2|]; split; [exact H3|]; now exists m'|].
              (* k belongs to this process: it is its last throw or an earlier one *)
              pose proof H1 as H0. apply Id in H0. apply in_map_iff in H0. destruct H0 as (m2 & <- & I2). simpl in P', L'.
              destruct (Nat.eq_dec (m_idx m2) (m_idx m1)) as [Q|Q].
              * right. assert (Kq : key m2 = key m1) by (unfold key; congruence). rewrite Kq in *. auto.
              * left. split; [exact H1|]. split; [exact H2|]. split; [exact H3|]. exists m1. split; [exact I1|]. split; [simpl; congruence|].
                simpl. pose proof (M1 m2 I2 ltac:(congruence)). lia.
            + exfalso. simpl in *. apply in_app_or in I'. destruct I' as [I'|[<-|[]]]; [pose proof (Lt m' I' P')|]; lia. }
Qed.

(** ** Messages of a pool whose processes run one task each *)
Lemma interleave_pids (ls : list (list message)) l : interleave ls l ->
  (forall i x m, nth_error ls i = Some x -> In m x -> m_pid m = i) ->
  (forall x, In x ls -> StronglySorted in_order x) ->
  ordered l /\ (forall m, In m l -> exists x, nth_error ls (m_pid m) = Some x /\ In m x) /\
  forall i x, nth_error ls i = Some x -> filter (fun m => Nat.eqb (m_pid m) i) l = x.
Proof.
  induction 1 as [ls F|before x l after rest H IH]; intros P S.
  - split; [constructor|]. split; [intros m []|]. intros i x E. rewrite Forall_forall in F. simpl. apply F. eapply nth_error_In, E.
  - assert (Nx : nth_error (before ++ (x :: l) :: after) (length before) = Some (x :: l)) by (rewrite nth_error_app2, Nat.sub_diag by lia; reflexivity).
    assert (Px : m_pid x = length before) by (apply (P _ _ x Nx); now left).
    assert (Nr : forall i, i <> length before -> nth_error (before ++ l :: after) i = nth_error (before ++ (x :: l) :: after) i).
    { intros i N. destruct (le_lt_dec (length before) i) as [L|L].
      - rewrite !nth_error_app2 by lia. destruct (i - length before) eqn:Q; [lia|reflexivity].
      - rewrite !nth_error_app1 by lia. reflexivity. }
    assert (Nl : nth_error (before ++ l :: after) (length before) = Some l) by (rewrite nth_error_app2, Nat.sub_diag by lia; reflexivity).
    destruct IH as (O & Im & Fi).
    { intros i y m E I. destruct (Nat.eq_dec i (length before)) as [->|N].
      - rewrite Nl in E. injection E as <-. apply (P _ _ m Nx). now right.
      - rewrite (Nr i N) in E. now apply (P i y m E). }
    { intros y I. apply in_app_or in I. destruct I as [I|[<-|I]].
      - apply S, in_or_app. now left.
      - assert (Q : StronglySorted in_order (x :: l)) by (apply S, in_or_app; right; now left). now inversion Q.
      - apply S, in_or_app. right. now right. }
    split; [|split].
    + constructor; [exact O|]. apply Forall_forall. intros m I. destruct (Im m I) as (y & Ey & Iy). intros Ep.
      rewrite Px in Ep. rewrite <- Ep, Nl in Ey. injection Ey as <-.
      assert (Q : StronglySorted in_order (x :: l)) by (apply S, in_or_app; right; now left). inversion Q as [|? ? _ Q2]; subst. rewrite Forall_forall in Q2. apply Q2; [exact Iy|congruence].
    + intros m [<-|I]; [exists (x :: l); rewrite Px; split; [exact Nx|now left]|]. destruct (Im m I) as (y & Ey & Iy).
      destruct (Nat.eq_dec (m_pid m) (length before)) as [E|N].
      * rewrite E in Ey |- *. rewrite Nl in Ey. injection Ey as <-. exists (x :: l). split; [exact Nx|now right].
      * exists y. rewrite <- (Nr _ N). now split.
    + intros i y E. simpl. destruct (Nat.eqb_spec (m_pid x) i) as [Q|Q].
      * rewrite Px in Q. subst i. rewrite Nx in E. injection E as <-. f_equal. exact (Fi _ _ Nl).
      * apply Fi. rewrite Nr; [exact E|congruence].
Qed.

(** what a process sends of a history *)
Definition shown (end_rays : bool) (h : list event) : list event := if end_rays then filter is_end_ray h else h.

Lemma task_sorted er pid n t : forall a, StronglySorted in_order (flat_map (fun '(idx, h) => map (Msg pid n idx) (shown er h)) (combine (seq a (length t)) t)).
Proof.
  induction t as [|h t IH]; intros a; [constructor|]. simpl.
  assert (G : forall l, StronglySorted in_order (map (Msg pid n a) l ++ flat_map (fun '(idx, h) => map (Msg pid n idx) (shown er h)) (combine (seq (S a) (length t)) t))).
  { induction l as [|e l IHl]; [apply IH|]. simpl. constructor; [exact IHl|]. apply Forall_forall. intros m I _. apply in_app_or in I. destruct I as [I|I].
    - apply in_map_iff in I. destruct I as (e' & <- & _). apply le_n.
    - apply in_flat_map in I. destruct I as ([i g] & I & J). apply in_combine_l, in_seq in I. apply in_map_iff in J. destruct J as (e' & <- & _). simpl. lia. }
  apply G.
Qed.
Lemma filter_all {A} (f : A -> bool) l : (forall x, In x l -> f x = true) -> filter f l = l.
Proof. induction l as [|x l IH]; intros H; [reflexivity|]. simpl. rewrite (H x (or_introl eq_refl)). f_equal. apply IH. intros y I. apply H. now right. Qed.
Lemma filter_none {A} (f : A -> bool) l : (forall x, In x l -> f x = false) -> filter f l = [].
Proof. induction l as [|x l IH]; intros H; [reflexivity|]. simpl. rewrite (H x (or_introl eq_refl)). apply IH. intros y I. apply H. now right. Qed.
Lemma task_sent er pid n t : forall a i h, nth_error t i = Some h ->
  filter (fun m => Nat.eqb (m_idx m) (a + i)) (flat_map (fun '(idx, h) => map (Msg pid n idx) (shown er h)) (combine (seq a (length t)) t)) = map (Msg pid n (a + i)) (shown er h).
Proof.
  induction t as [|g t IH]; intros a i h E; [destruct i; discriminate|]. simpl. rewrite filter_app. destruct i as [|i].
  - injection E as ->. rewrite Nat.add_0_r. rewrite filter_all, filter_none; [apply app_nil_r| |].
    + intros m I. apply in_flat_map in I. destruct I as ([j g] & I & J). apply in_combine_l, in_seq in I. apply in_map_iff in J. destruct J as (e' & <- & _). simpl. apply Nat.eqb_neq. lia.
    + intros m I. apply in_map_iff in I. destruct I as (e' & <- & _). simpl. apply Nat.eqb_refl.
  - rewrite filter_none; [|intros m I; apply in_map_iff in I; destruct I as (e' & <- & _); simpl; apply Nat.eqb_neq; lia].
    simpl. rewrite Nat.add_succ_r. change (S (a + i)) with (S a + i). now apply IH.
Qed.

Lemma pool_nth er pool i : nth_error (pool_messages er pool) i = option_map (process_messages er i) (nth_error pool i).
Proof.
  unfold pool_messages. assert (G : forall a, nth_error (map (fun '(pid, tasks) => process_messages er pid tasks) (combine (seq a (length pool)) pool)) i = option_map (process_messages er (a + i)) (nth_error pool i)).
  { revert i. induction pool as [|p pool IH]; intros i a; [destruct i; reflexivity|]. destruct i as [|i]; simpl; [now rewrite Nat.add_0_r|].
    rewrite (IH i (S a)). simpl. now rewrite Nat.add_succ_r. }
  apply G.
Qed.
Lemma one_process er pid tasks : length tasks <= 1 ->
  process_messages er pid tasks = match tasks with [] => [] | t :: _ => flat_map (fun '(idx, h) => map (Msg pid 0 idx) (shown er h)) (combine (seq 0 (length t)) t) end.
Proof. destruct tasks as [|t [|? ?]]; simpl; intros H; try lia; [reflexivity|]. unfold process_messages, task_messages. simpl. apply app_nil_r. Qed.
Lemma filter_filter {A} (f g : A -> bool) l : filter f (filter g l) = filter (fun x => g x && f x) l.
Proof. induction l as [|x l IH]; [reflexivity|]. simpl. destruct (g x); simpl; [destruct (f x); now rewrite IH|exact IH]. Qed.

Lemma pool_ordered er pool ms : one_task pool -> received er pool ms ->
  ordered ms /\ forall pid idx h, history_of pool pid 0 idx h -> sent ms (pid, idx) = shown er h.
Proof.
  intros O R. destruct (interleave_pids _ _ R) as (Or & _ & Fi).
  - intros i x m E I. rewrite pool_nth in E. destruct (nth_error pool i) as [tasks|] eqn:T; [|discriminate]. injection E as <-.
    rewrite one_process in I by (apply (O _ _ T)). destruct tasks as [|t ts]; [destruct I|]. apply in_flat_map in I. destruct I as ([j h] & _ & I). apply in_map_iff in I. now destruct I as (e & <- & _).
  - intros x I. apply In_nth_error in I. destruct I as (i & E). rewrite pool_nth in E. destruct (nth_error pool i) as [tasks|] eqn:T; [|discriminate]. injection E as <-.
    rewrite one_process by (apply (O _ _ T)). destruct tasks as [|t ts]; [constructor|apply task_sorted].
  - split; [exact Or|]. intros pid idx h (tasks & t & T & N & Hh).
    assert (E : nth_error (pool_messages er pool) pid = Some (process_messages er pid tasks)) by (rewrite pool_nth, T; reflexivity).
    specialize (Fi _ _ E). rewrite one_process in Fi by (apply (O _ _ T)). destruct tasks as [|t' ts]; [discriminate|]. injection N as ->.
    unfold sent. transitivity (map m_event (filter (fun m => Nat.eqb (m_idx m) idx) (filter (fun m => Nat.eqb (m_pid m) pid) ms))).
    + rewrite filter_filter. reflexivity.
    + rewrite Fi. pose proof (task_sent er pid 0 t 0 idx h Hh) as Ts. cbn [Nat.add] in Ts. rewrite Ts, map_map. apply map_id.
Qed.

(** ** C143 *)
(** The throw with this number (its throw_id in the database) *)
Definition throw_number (ms : list message) (k : nat * nat) (n : nat) : Prop := nth_error (ids (monitor_queue ms)) n = Some k.

(** When each process runs one task: every drawn history is all that was sent of one throw; a
    throw is drawn at most once; it is drawn exactly if it is the first of its process or its
    count is a multiple of --render-every, at least two of its events were sent, and its
    process went on to another throw. *)
Theorem C143_drawn_partial : forall skip end_rays pool ms, 1 <= skip ->
  one_task pool -> Forall traced (concat (concat pool)) -> received end_rays pool ms ->
  exists ks, NoDup ks /\
    Forall2 (fun k d => exists h, history_of pool (fst k) 0 (snd k) h /\ d = if end_rays then filter is_end_ray h else h) ks (drawn_histories skip ms) /\
    forall pid idx h, history_of pool pid 0 idx h ->
      (In (pid, idx) ks <->
        (idx = 0 \/ exists n c, throw_number ms (pid, idx) n /\ n + 1 = c * skip) /\
        2 <= length (if end_rays then filter is_end_ray h else h) /\
        exists h', history_of pool pid 0 (idx + 1) h').
Proof.
  intros skip er pool ms Sk O Tr R. destruct (pool_ordered er pool ms O R) as (Or & Se). fold (shown er) in *.
  destruct (draw_state skip ms Or) as [Nd Id _ _ (ks & Nk & Dk & Hk)].
  pose proof (received_in er pool ms R) as Rin.
  assert (T0 : forall pid n idx h, history_of pool pid n idx h -> n = 0).
  { intros pid n idx h (tasks & t & T & N & _). pose proof (O _ _ T). assert (n < length tasks) by (apply nth_error_Some; congruence). lia. }
  assert (Ids : forall k, In k (dr_ids (draw_run skip ms)) <-> exists h, history_of pool (fst k) 0 (snd k) h).
  { intros k. rewrite Id, in_map_iff. split.
    - intros (m & <- & I). apply Rin in I. destruct I as (h & Hh & _). pose proof (T0 _ _ _ _ Hh) as Z. rewrite Z in Hh. now exists h.
    - intros (h & Hh). assert (Th : traced h).
      { rewrite Forall_forall in Tr. apply Tr. destruct Hh as (tasks & t & T & N & Q). apply in_concat. exists t. split; [|eapply nth_error_In, Q].
        apply in_concat. exists tasks. split; eapply nth_error_In; eassumption. }
      pose proof (traced_sends er h Th) as Ne. destruct (if er then filter is_end_ray h else h) as [|e l] eqn:El; [contradiction|].
      exists (Msg (fst k) 0 (snd k) e). split; [destruct k; reflexivity|]. apply Rin. exists h. simpl. split; [exact Hh|]. rewrite El. now left. }
  exists ks. split; [exact Nk|]. split.
  - unfold drawn_histories. rewrite Dk. assert (G : forall k, In k ks -> exists h, history_of pool (fst k) 0 (snd k) h) by (intros k I; apply Ids; now apply Hk in I).
    clear - Se G. induction ks as [|k ks IH]; [constructor|]. simpl. constructor; [|apply IH; intros k' I; apply G; now right].
    destruct (G k (or_introl eq_refl)) as (h & Hh). exists h. split; [exact Hh|]. fold (shown er h). rewrite <- (Se _ _ _ Hh). now destruct k.
  - intros pid idx h Hh. fold (shown er h). rewrite Hk, (Se pid idx h Hh).
    assert (Ik : In (pid, idx) (dr_ids (draw_run skip ms))) by (apply Ids; now exists h).
    assert (Ch : chosen skip (dr_ids (draw_run skip ms)) (pid, idx) = true <-> idx = 0 \/ exists n c, throw_number ms (pid, idx) n /\ n + 1 = c * skip).
    { unfold chosen. rewrite orb_true_iff, !Nat.eqb_eq. unfold throw_number. rewrite <- (draw_ids skip ms). simpl snd.
      pose proof (gid_nth _ _ Ik) as G. split.
      - intros [D|Z]; [right|now left]. exists (gid (dr_ids (draw_run skip ms)) (pid, idx)), (S (gid (dr_ids (draw_run skip ms)) (pid, idx)) / skip).
        split; [exact G|]. pose proof (Nat.div_mod (S (gid (dr_ids (draw_run skip ms)) (pid, idx))) skip ltac:(lia)). lia.
      - intros [Z|(n & c & N & C)]; [now right|left]. assert (n = gid (dr_ids (draw_run skip ms)) (pid, idx)).
        { apply (proj1 (NoDup_nth_error _) Nd); [apply nth_error_Some; congruence|congruence]. }
        subst n. rewrite <- Nat.add_1_r, C. apply Nat.mod_mul. lia. }
    rewrite Ch. split.
    + intros (_ & H2 & H3 & m & I & P & L). split; [exact H2|]. split; [exact H3|]. simpl in P, L. apply Rin in I. destruct I as (h' & Hh' & _).
      pose proof (T0 _ _ _ _ Hh') as Z. rewrite Z, P in Hh'. destruct Hh' as (tasks & t & T & N & Q).
      assert (Lt : idx + 1 < length t) by (assert (m_idx m < length t) by (apply nth_error_Some; congruence); lia).
      apply nth_error_Some in Lt. destruct (nth_error t (idx + 1)) as [h1|] eqn:E1; [|contradiction]. exists h1, tasks, t. auto.
    + intros (H2 & H3 & h' & Hh'). split; [exact Ik|]. split; [exact H2|]. split; [exact H3|].
      assert (I' : In (pid, idx + 1) (dr_ids (draw_run skip ms))) by (apply Ids; now exists h'). apply Id, in_map_iff in I'. destruct I' as (m & Km & I').
      exists m. destruct (key_inv m _ Km) as [A B]. simpl in A, B. split; [exact I'|]. simpl. split; [exact A|lia].
Qed.
Print Assumptions C143_drawn_partial.

(** Two runs of the tracer: a photon that crosses the glass ball of C01 and one absorbed in the
    cloudy ball of C77. *)
Lemma crossing : exists h, traced h /\ kinds h = [GENERATE; TRANSMIT; EXIT].
Proof.
  destruct (glass_history None ltac:(discriminate)) as (e1 & e2 & E & K1 & _ & K2 & _). eexists. split.
  - do 7 eexists. rewrite E. reflexivity.
  - unfold kinds. cbn [fst map]. now rewrite K1, K2.
Qed.
Lemma absorbed : exists h, traced h /\ kinds h = [GENERATE; ABSORB; NONRADIATIVE].
Proof.
  destruct C77_example as (_ & _ & K). eexists. split; [|exact K]. do 7 eexists. reflexivity.
Qed.
Lemma one_task_single ts : one_task [[ts]].
Proof. intros [|p] tasks E; [injection E as <-; simpl; lia|destruct p; discriminate]. Qed.

Lemma three (h : list event) a b c : kinds h = [a; b; c] -> exists x y z, h = [x; y; z] /\ e_kind x = a /\ e_kind y = b /\ e_kind z = c.
Proof. destruct h as [|x [|y [|z [|? ?]]]]; try discriminate. intros [= <- <- <-]. now exists x, y, z. Qed.

(** Three throws by one process: with --render-every 2 the first two are drawn, with 3 the first
    only; the last is not drawn. *)
Example C143_example : exists h1 h2 h3, Forall traced (concat (concat [[[h1; h2; h3]]])) /\ h1 <> h2 /\ one_task [[[h1; h2; h3]]] /\
  received false [[[h1; h2; h3]]] (in_turn false [[[h1; h2; h3]]]) /\ drawn_histories 2 (in_turn false [[[h1; h2; h3]]]) = [h1; h2] /\
  drawn_histories 3 (in_turn false [[[h1; h2; h3]]]) = [h1].
Proof.
  destruct crossing as (h1 & T1 & K1). destruct absorbed as (h2 & T2 & K2). exists h1, h2, h1.
  split; [repeat constructor; assumption|]. split; [intros <-; congruence|]. split; [apply one_task_single|]. split; [apply in_turn_received|].
  destruct (three _ _ _ _ K1) as (x & y & z & -> & _). destruct (three _ _ _ _ K2) as (x' & y' & z' & -> & _). split; reflexivity.
Qed.

(** --render-every 1 does not draw every ray: the last ray of a process never is, so a run of
    one ray draws nothing. *)
Theorem C143_last_ray_refuted : exists pool ms h, one_task pool /\ Forall traced (concat (concat pool)) /\ received false pool ms /\
  history_of pool 0 0 0 h /\ 2 <= length h /\ drawn_histories 1 ms = [].
Proof.
  destruct crossing as (h & T & K). exists [[[h]]], (in_turn false [[[h]]]), h.
  split; [apply one_task_single|]. split; [repeat constructor; assumption|]. split; [apply in_turn_received|].
  split; [now exists [[h]], [h]|]. destruct (three _ _ _ _ K) as (x & y & z & -> & _). split; [simpl; lia|reflexivity].
Qed.
Print Assumptions C143_last_ray_refuted.

(** With --end-rays what is drawn is not the path of the ray: the absorption is left out. *)
Theorem C143_end_rays_refuted : exists pool ms h d, one_task pool /\ Forall traced (concat (concat pool)) /\ received true pool ms /\
  history_of pool 0 0 0 h /\ drawn_histories 1 ms = [d] /\ kinds h = [GENERATE; ABSORB; NONRADIATIVE] /\ kinds d = [GENERATE; NONRADIATIVE].
Proof.
  destruct absorbed as (h & T & K). exists [[[h; h]]], (in_turn true [[[h; h]]]), h.
  destruct (three _ _ _ _ K) as (x & y & z & -> & Kx & Ky & Kz). exists [x; z].
  split; [apply one_task_single|]. split; [repeat constructor; assumption|]. split; [apply in_turn_received|].
  split; [now exists [[[x; y; z]; [x; y; z]]], [[x; y; z]; [x; y; z]]|].
  assert (Ef : filter is_end_ray [x; y; z] = [x; z]) by (simpl; unfold is_end_ray; now rewrite Kx, Ky, Kz).
  split; [|split; [exact K|unfold kinds; simpl; now rewrite Kx, Kz]].
  unfold in_turn, pool_messages, process_messages, task_messages. cbn [combine seq length flat_map map app]. rewrite Ef. reflexivity.
Qed.
Print Assumptions C143_end_rays_refuted.

(** A process that runs two tasks numbers the throws of both from 0, so the last throw of the
    first task can be drawn joined to a throw of the second. *)
Theorem C143_reused_process_refuted : exists pool ms d, Forall traced (concat (concat pool)) /\ received false pool ms /\
  drawn_histories 1 ms = [d] /\ forall pid number idx h, history_of pool pid number idx h -> d <> h.
Proof.
  destruct crossing as (h1 & T1 & K1). destruct absorbed as (h2 & T2 & K2).
  exists [[[h1]; [h2; h2]]], (in_turn false [[[h1]; [h2; h2]]]).
  destruct (three _ _ _ _ K1) as (x & y & z & -> & _). destruct (three _ _ _ _ K2) as (x' & y' & z' & -> & _).
  exists [x; y; z; x'; y'; z']. split; [repeat constructor; assumption|]. split; [apply in_turn_received|]. split; [reflexivity|].
  intros pid number idx h (tasks & t & E1 & E2 & E3) <-. destruct pid as [|pid]; [|destruct pid; discriminate]. injection E1 as <-.
  destruct number as [|[|number]]; [| |destruct number; discriminate]; injection E2 as <-; destruct idx as [|[|idx]]; try discriminate; destruct idx; discriminate.
Qed.
Print Assumptions C143_reused_process_refuted.
