(** A small program logic for MemModel.v and the accesses of each function. *)
From Coq Require Import ZArith List Bool Lia.
From Verif Require Import MemModel.
Import ListNotations.
Open Scope Z_scope.

(** Tables are only read; the other arrays are written to. *)
Definition writable (a : array) : bool :=
  match a with
  | hit_t | hit_node | node_hits | node_min_t | ts | cand | rseen
  | distinct | cross | sums | bins
  | ev_kind | ev_hit | ev_container | ev_adjacent | ev_component | ev_source
  | ev_position | ev_direction | ev_normal | ev_wavelength | ev_travelled | ev_duration
  | pos_work | dir_work | counts => true
  | _ => false
  end.
(** The cells that ray [i] on thread [tid] uses.  Any cell of tables and local arrays. *)
Definition mine (s : setting) (tid ray : Z) (a : array) (i : Z) : Prop :=
  let row := 0 < record_every s /\ ray mod record_every s = 0 in
  let q := ray / record_every s in
  match a with
  | distinct | cross => tid * n_recorders s <= i < (tid + 1) * n_recorders s
  | sums => tid * n_recorders s * 8 <= i < (tid + 1) * n_recorders s * 8
  | bins => tid * total_bins s <= i < (tid + 1) * total_bins s
  | ev_position | ev_direction | ev_normal => row /\ q * max_events s * 3 <= i < (q + 1) * max_events s * 3
  | ev_kind | ev_hit | ev_container | ev_adjacent | ev_component | ev_source
  | ev_wavelength | ev_travelled | ev_duration => row /\ q * max_events s <= i < (q + 1) * max_events s
  | pos_work | dir_work => ray * 3 <= i < ray * 3 + 3
  | counts => row /\ i = q
  | _ => True
  end.

Section Logic.
Variables (mem : memory) (own : array -> Z -> Prop).
Definition inside (x : access) : Prop :=
  0 <= x_index x < m_len mem (x_array x) /\ own (x_array x) (x_index x) /\ (x_write x = true -> writable (x_array x) = true).
(** Run from any trace that stays inside, [m] stays inside and returns a value in [Q]. *)
Definition safe {A} (m : prog A) (Q : A -> Prop) : Prop :=
  forall o s, Forall inside (fst s) -> Forall inside (fst (snd (m o s))) /\ Q (fst (m o s)).

Lemma safe_ret {A} (a : A) (Q : A -> Prop) : Q a -> safe (ret a) Q.
Proof. intros H o s Hs. auto. Qed.
Lemma safe_bind {A B} (m : prog A) (f : A -> prog B) Q P :
  safe m Q -> (forall a, Q a -> safe (f a) P) -> safe (bind m f) P.
Proof.
  intros Hm Hf o s Hs. unfold bind. destruct (m o s) as [a s'] eqn:E. pose proof (Hm o s Hs) as [H1 H2]. rewrite E in H1, H2. exact (Hf a H2 o s' H1).
Qed.
Lemma safe_weak {A} (m : prog A) (Q P : A -> Prop) : safe m Q -> (forall a, Q a -> P a) -> safe m P.
Proof. intros H K o s Hs. destruct (H o s Hs). auto. Qed.
Lemma safe_touch a i : 0 <= i < m_len mem a -> own a i -> safe (touch a i) (fun _ => True).
Proof. intros H K o s Hs. split; [|exact I]. constructor; auto. split; [exact H|]. split; [exact K|discriminate]. Qed.
Lemma safe_store a i : 0 <= i < m_len mem a -> own a i -> writable a = true -> safe (store a i) (fun _ => True).
Proof. intros H K E o s Hs. split; [|exact I]. constructor; auto. split; [exact H|]. split; [exact K|auto]. Qed.
Lemma safe_ask : safe ask (fun _ => True).
Proof. intros o s Hs. auto. Qed.
Lemma safe_cast : safe cast (fun _ => True).
Proof. intros o s Hs. auto. Qed.
Lemma safe_read a i : 0 <= i < m_len mem a -> own a i -> safe (read mem a i) (fun v => v = m_int mem a i).
Proof. intros H K. eapply safe_bind; [now apply safe_touch|]. intros _ _. now apply safe_ret. Qed.
Lemma safe_for {A B} (l : list A) (f : A -> B -> prog B) (Inv : B -> Prop) b :
  Inv b -> (forall x b, In x l -> Inv b -> safe (f x b) Inv) -> safe (for_each l f b) Inv.
Proof.
  revert b. induction l as [|x l IH]; intros b Hb H; simpl; [now apply safe_ret|].
  eapply safe_bind; [apply H; [now left|exact Hb]|]. intros b' Hb'. apply IH; auto. intros y c Hy. apply H. now right.
Qed.
Lemma safe_touches a l : (forall i, own a i) -> Forall (fun i => 0 <= i < m_len mem a) l -> safe (touches a l) (fun _ => True).
Proof. intros K H. apply safe_for; auto. intros i b Hi _. apply safe_touch; auto. rewrite Forall_forall in H. auto. Qed.
Lemma safe_stores a l : writable a = true -> Forall (fun i => 0 <= i < m_len mem a /\ own a i) l -> safe (stores a l) (fun _ => True).
Proof. intros E H. apply safe_for; auto. intros i b Hi _. rewrite Forall_forall in H. destruct (H i Hi). now apply safe_store. Qed.
Lemma safe_if {A} (c : bool) (m1 m2 : prog A) Q : (c = true -> safe m1 Q) -> (c = false -> safe m2 Q) -> safe (if c then m1 else m2) Q.
Proof. destruct c; auto. Qed.
Lemma safe_true {A} (m : prog A) Q : safe m Q -> safe m (fun _ => True).
Proof. intros H. eapply safe_weak; eauto. Qed.
Lemma in_range i a b : In i (range a b) <-> a <= i < b.
Proof.
  unfold range. rewrite in_map_iff. split.
  - intros (k & <- & Hk). apply in_seq in Hk. lia.
  - intros H. exists (Z.to_nat (i - a)). rewrite in_seq. lia.
Qed.
End Logic.

Ltac blia := cbv beta in *; lia.
Ltac bnia := cbv beta in *; nia.
Ltac own := solve [exact I | auto].
Ltac sstep :=
  match goal with
  | |- safe _ _ (bind (touch _ _) _) _ => eapply safe_bind; [apply safe_touch; [|try own]|intros _ _]
  | |- safe _ _ (bind (store _ _) _) _ => eapply safe_bind; [apply safe_store; [|try own|try solve [reflexivity | assumption]]|intros _ _]
  | |- safe _ _ (bind ask _) _ => eapply safe_bind; [apply safe_ask|intros ? _]
  | |- safe _ _ (bind cast _) _ => eapply safe_bind; [apply safe_cast|intros ? _]
  | |- safe _ _ (bind (read _ _ _) _) _ => eapply safe_bind; [apply safe_read; [|try own]|intros ? ->]
  | |- safe _ _ (ret _) _ => apply safe_ret
  | |- safe _ _ (touch _ _) _ => apply safe_touch; [|try own]
  | |- safe _ _ (store _ _) _ => apply safe_store; [|try own|try solve [reflexivity | assumption]]
  | |- safe _ _ ask _ => apply safe_ask
  | |- safe _ _ (if ?c then _ else _) _ => apply safe_if; intros ?
  end.

(** What the kernel relies on: the arrays have the sizes that trace_bundle allocates, and the
    tables refer to rows that exist. *)
Record well_formed (mem : memory) (s : setting) (nthr nrays : Z) : Prop := WF {
  wf_nodes : 0 <= n_nodes s <= MAX_NODES;
  wf_local : m_len mem hit_t = MAX_HITS /\ m_len mem hit_node = MAX_HITS /\ m_len mem node_hits = MAX_NODES /\
             m_len mem node_min_t = MAX_NODES /\ m_len mem ts = 8 /\ m_len mem cand = 4 /\ m_len mem rseen = MAX_RECORDERS;
  wf_node_tables : m_len mem geom_type = n_nodes s /\ m_len mem geom_params = n_nodes s * 4 /\ m_len mem l2w = n_nodes s * 16 /\
             m_len mem w2l = n_nodes s * 16 /\ m_len mem nidx = n_nodes s /\ m_len mem surf_type = n_nodes s /\
             m_len mem comp_start = n_nodes s /\ m_len mem comp_count = n_nodes s;
  wf_comp_tables : let n := m_len mem comp_type in m_len mem comp_qy = n /\ m_len mem comp_tau_rad = n /\ m_len mem comp_tau_nr = n /\
             m_len mem comp_phase_type = n /\ m_len mem comp_phase_param = n /\ m_len mem abs_start = n /\ m_len mem abs_n = n /\
             m_len mem ems_start = n /\ m_len mem ems_n = n;
  wf_spectra : m_len mem abs_y = m_len mem abs_x /\ m_len mem ems_cdf = m_len mem ems_x;
  wf_comps : forall node, 0 <= node < n_nodes s ->
             0 <= m_int mem comp_start node /\ m_int mem comp_start node + m_int mem comp_count node <= m_len mem comp_type;
  wf_abs : forall c, 0 <= c < m_len mem comp_type ->
             0 <= m_int mem abs_start c /\ 1 <= m_int mem abs_n c /\ m_int mem abs_start c + m_int mem abs_n c <= m_len mem abs_x;
  wf_ems : forall c, 0 <= c < m_len mem comp_type -> m_int mem comp_type c = 2 ->
             0 <= m_int mem ems_start c /\ 1 <= m_int mem ems_n c /\ m_int mem ems_start c + m_int mem ems_n c <= m_len mem ems_x;
  wf_recorders : 0 <= n_recorders s <= MAX_RECORDERS;
  wf_rec_tables : m_len mem rec_node = n_recorders s /\ m_len mem rec_event = n_recorders s /\ m_len mem rec_has_facet = n_recorders s /\
             n_recorders s * 3 <= m_len mem rec_facet /\ m_len mem rec_atol = n_recorders s /\ m_len mem rec_hist_start = n_recorders s /\
             m_len mem rec_hist_n = n_recorders s;
  wf_hist_tables : let n := m_len mem h_na in m_len mem h_prop_a = n /\ m_len mem h_prop_b = n /\ m_len mem h_nb = n /\ m_len mem h_lo_a = n /\
             m_len mem h_hi_a = n /\ m_len mem h_lo_b = n /\ m_len mem h_hi_b = n /\ m_len mem h_offset = n;
  wf_hists : forall r, 0 <= r < n_recorders s ->
             0 <= m_int mem rec_hist_start r /\ m_int mem rec_hist_start r + m_int mem rec_hist_n r <= m_len mem h_na;
  wf_rows : forall h, 0 <= h < m_len mem h_na -> 0 <= m_int mem h_offset h /\
             (m_int mem h_prop_b h < 0 -> m_int mem h_offset h + m_int mem h_na h <= total_bins s) /\
             (0 <= m_int mem h_prop_b h -> m_int mem h_offset h + m_int mem h_na h * m_int mem h_nb h <= total_bins s);
  wf_bins : 0 <= total_bins s;
  wf_acc : n_recorders s * nthr <= m_len mem distinct /\ n_recorders s * nthr <= m_len mem cross /\
           n_recorders s * nthr * 8 <= m_len mem sums /\ total_bins s * nthr <= m_len mem bins;
  wf_events : 0 <= (if 0 <? record_every s then (nrays + record_every s - 1) / record_every s else 0) * max_events s;
  wf_log : let n_recorded := if 0 <? record_every s then (nrays + record_every s - 1) / record_every s else 0 in
           let rows := n_recorded * max_events s in
           m_len mem ev_kind = rows /\ m_len mem ev_hit = rows /\ m_len mem ev_container = rows /\ m_len mem ev_adjacent = rows /\
           m_len mem ev_component = rows /\ m_len mem ev_source = rows /\ m_len mem ev_position = rows * 3 /\ m_len mem ev_direction = rows * 3 /\
           m_len mem ev_normal = rows * 3 /\ m_len mem ev_wavelength = rows /\ m_len mem ev_travelled = rows /\ m_len mem ev_duration = rows /\
           n_recorded <= m_len mem counts;
  wf_work : m_len mem pos_work = nrays * 3 /\ m_len mem dir_work = nrays * 3 /\ m_len mem wav_work = nrays }.

Section Kernel.
Variables (mem : memory) (s : setting) (nthr nrays tid ray : Z).
Hypothesis W : well_formed mem s nthr nrays.
Hypothesis Ht : 0 <= tid < nthr.
Notation Safe := (safe mem (mine s tid ray)).

Lemma range_forall a b (P : Z -> Prop) : (forall i, a <= i < b -> P i) -> Forall P (range a b).
Proof. intros H. apply Forall_forall. intros i Hi. apply H. now apply in_range. Qed.

Lemma safe_transform_point a node : 0 <= node < n_nodes s -> (forall i, mine s tid ray a i) -> m_len mem a = n_nodes s * 16 -> Safe (transform_point a node) (fun _ => True).
Proof.
  intros H K E. apply safe_touches; [exact K|]. rewrite E. apply Forall_forall. intros i Hi. apply in_flat_map in Hi as (x & Hx & Hi).
  apply in_map_iff in Hi as (y & <- & Hy). apply in_range in Hx, Hy. blia.
Qed.
Lemma safe_transform_vector a node : 0 <= node < n_nodes s -> (forall i, mine s tid ray a i) -> m_len mem a = n_nodes s * 16 -> Safe (transform_vector a node) (fun _ => True).
Proof.
  intros H K E. apply safe_touches; [exact K|]. rewrite E. apply Forall_forall. intros i Hi. apply in_flat_map in Hi as (x & Hx & Hi).
  apply in_map_iff in Hi as (y & <- & Hy). apply in_range in Hx, Hy. blia.
Qed.

Lemma shiftr_mid lo hi : 1 < hi - lo -> lo < Z.shiftr (lo + hi) 1 < hi.
Proof. intros H. rewrite Z.shiftr_div_pow2 by blia. change (2 ^ 1) with 2. assert (lo + 1 <= (lo + hi) / 2) by (apply Z.div_le_lower_bound; blia). split; [blia|apply Z.div_lt_upper_bound; blia]. Qed.

Lemma safe_search fuel xs p n lo hi : (forall i, mine s tid ray xs i) -> 0 <= p -> p + n <= m_len mem xs -> 0 <= lo -> lo < hi -> hi <= n - 1 ->
  (hi - lo <= Z.of_nat fuel)%Z ->
  Safe (search fuel xs p lo hi) (fun r => lo <= fst r < snd r /\ snd r <= hi /\ snd r - fst r <= 1).
Proof.
  revert lo hi. induction fuel as [|f IH]; intros lo hi Hx Hp Hl H0 H1 H2 Hf; simpl; [blia|].
  apply safe_if; intros E.
  - apply Z.ltb_lt in E. pose proof (shiftr_mid lo hi E) as Hm. set (mid := Z.shiftr _ _) in *. clearbody mid.
    sstep; [blia|]. sstep. apply safe_if; intros _.
    + eapply safe_weak; [apply IH; first [exact Hx|blia]|]. simpl. intros rr Hrr. blia.
    + eapply safe_weak; [apply IH; first [exact Hx|blia]|]. simpl. intros rr Hrr. blia.
  - apply Z.ltb_ge in E. apply safe_ret. cbv beta in *; intros; simpl in *; blia.
Qed.
Lemma safe_interp xs ys p n : (forall i, mine s tid ray xs i) -> (forall i, mine s tid ray ys i) -> 0 <= p -> 1 <= n -> p + n <= m_len mem xs -> m_len mem ys = m_len mem xs ->
  Safe (interp_clamped xs ys p n) (fun _ => True).
Proof.
  intros Hx Hy Hp Hn Hl E. unfold interp_clamped. apply safe_if; intros Hc; [sstep; blia|]. apply Z.eqb_neq in Hc.
  sstep; [blia|]. sstep. sstep; [sstep; blia|]. sstep; [blia|]. sstep. sstep; [sstep; blia|].
  eapply safe_bind; [apply (safe_search _ xs p n); first [exact Hx|blia]|]. intros [lo hi] (K1 & K2 & K3). simpl in *.
  sstep; [blia|]. sstep; [blia|]. sstep. sstep; [sstep; blia|]. sstep; [blia|]. sstep; [blia|]. sstep; [blia|]. sstep. blia.
Qed.

Lemma safe_push a n k : (forall i, mine s tid ray a i) -> writable a = true -> 0 <= n < k -> k <= m_len mem a -> Safe (push a n) (fun m => n <= m <= n + 1).
Proof. intros Ha Hw H1 H2. unfold push. sstep. sstep; [sstep; [blia|]|]; sstep; blia. Qed.
Lemma params_axes node : 0 <= node < n_nodes s -> Forall (fun i => 0 <= i < m_len mem geom_params) (map (fun axis => node * 4 + axis) (range 0 3)).
Proof.
  intros H. apply Forall_forall. intros i Hi. apply in_map_iff in Hi as (x & <- & Hx). apply in_range in Hx.
  destruct (wf_node_tables _ _ _ _ W) as (_ & -> & _). blia.
Qed.
Lemma safe_intersect_node node : 0 <= node < n_nodes s -> Safe (intersect_node mem node) (fun n => 0 <= n <= 4).
Proof.
  intros H. destruct (wf_node_tables _ _ _ _ W) as (E1 & E2 & _). destruct (wf_local _ _ _ _ W) as (_ & _ & _ & _ & Ets & Ec & _).
  unfold intersect_node. sstep; [blia|]. sstep; [|sstep].
  - unfold intersect_box. eapply safe_bind; [apply safe_touches; [exact (fun _ => I)|now apply params_axes]|]. intros _ _. sstep. sstep; [sstep; blia|]. sstep. sstep; [sstep; blia|].
    eapply safe_bind; [apply (safe_push ts 0 1); first [exact (fun _ => I)|reflexivity|blia]|]. intros n Hn. cbv beta in Hn. eapply safe_weak; [apply (safe_push ts n 8); first [exact (fun _ => I)|reflexivity|blia]|]. cbv beta in *; intros; simpl in *; blia.
  - unfold intersect_sphere. sstep; [blia|]. sstep. sstep; [sstep; blia|].
    eapply safe_bind; [apply (safe_push ts 0 1); first [exact (fun _ => I)|reflexivity|blia]|]. intros n Hn. cbv beta in Hn. eapply safe_weak; [apply (safe_push ts n 8); first [exact (fun _ => I)|reflexivity|blia]|]. cbv beta in *; intros; simpl in *; blia.
  - unfold intersect_cylinder. sstep; [blia|]. sstep; [blia|]. sstep.
    apply safe_bind with (Q := fun n => 0 <= n <= 2).
    { sstep; [|sstep; blia]. sstep. sstep; [|sstep; blia].
      eapply safe_bind; [apply (safe_push cand 0 1); first [exact (fun _ => I)|reflexivity|blia]|]. intros n Hn. cbv beta in Hn. eapply safe_weak; [apply (safe_push cand n 4); first [exact (fun _ => I)|reflexivity|blia]|]. cbv beta in *; intros; simpl in *; blia. }
    intros n Hn. sstep. apply safe_bind with (Q := fun n => 0 <= n <= 4).
    { sstep; [|sstep; blia]. eapply safe_bind; [apply (safe_push cand n 4); first [exact (fun _ => I)|reflexivity|blia]|]. intros m Hm. cbv beta in Hm. eapply safe_weak; [apply (safe_push cand m 4); first [exact (fun _ => I)|reflexivity|blia]|]. cbv beta in *; intros; simpl in *; blia. }
    intros m Hm.
    (* ts[n] with n <= i *)
    assert (G : forall l b, Forall (fun i => 0 <= i < 4) l -> 0 <= b -> b + Z.of_nat (length l) <= 4 ->
              Safe (for_each l (fun i n => touch cand i ;;; push ts n) b) (fun n => 0 <= n <= 4)).
    { induction l as [|i l IH]; intros b Hl Hb Hle; simpl.
      - apply safe_ret. simpl in Hle. blia.
      - inversion Hl as [|? ? Hi Hl']; subst. simpl length in Hle. eapply safe_bind.
        + sstep; [blia|]. apply (safe_push ts b 8); first [exact (fun _ => I)|reflexivity|blia].
        + intros b' Hb'. apply IH; auto; blia. }
    apply G; [|blia|]. { apply range_forall. blia. }
    unfold range. rewrite map_length, seq_length. blia.
Qed.
Lemma safe_local_normal node : 0 <= node < n_nodes s -> Safe (local_normal mem node) (fun _ => True).
Proof.
  intros H. destruct (wf_node_tables _ _ _ _ W) as (E1 & E2 & _). unfold local_normal. sstep; [blia|]. sstep; [apply safe_touches; [exact (fun _ => I)|now apply params_axes]|].
  sstep; [now sstep|]. sstep. blia.
Qed.

Lemma safe_tally_row h : 0 <= h < m_len mem h_na -> Safe (tally_row mem s tid h) (fun _ => True).
Proof.
  intros Hh. pose proof (wf_hist_tables _ _ _ _ W) as K. cbv zeta in K. destruct K as (E1 & E2 & E3 & E4 & E5 & E6 & E7 & E8).
  destruct (wf_rows _ _ _ _ W h Hh) as (R1 & R2 & R3). destruct (wf_acc _ _ _ _ W) as (_ & _ & _ & A). pose proof (wf_bins _ _ _ _ W) as B.
  unfold tally_row. do 3 (sstep; [blia|]). sstep; [blia|]. sstep. sstep; [now sstep|].
  match goal with E : (_ || _) = false |- _ => apply orb_false_iff in E as [Ea Eb]; apply Z.ltb_ge in Ea; apply Z.leb_gt in Eb end.
  sstep; [blia|]. sstep; [blia|].
  assert (G : forall k, 0 <= k < total_bins s -> 0 <= tid * total_bins s + k < m_len mem bins).
  { intros k Hk. split; [bnia|]. assert (tid * total_bins s + k < total_bins s * nthr) by bnia. blia. }
  assert (G' : forall k, 0 <= k < total_bins s -> mine s tid ray bins (tid * total_bins s + k)) by (intros k Hk; unfold mine; blia).
  sstep.
  - match goal with E : (_ <? 0) = true |- _ => apply Z.ltb_lt in E; specialize (R2 E) end. sstep; [apply G; blia|apply G'; blia].
  - match goal with E : (_ <? 0) = false |- _ => apply Z.ltb_ge in E; specialize (R3 E) end.
    sstep; [blia|]. sstep; [blia|]. sstep; [blia|]. sstep. sstep; [now sstep|].
    match goal with E : (_ || _) = false |- _ => apply orb_false_iff in E as [Ec Ed]; apply Z.ltb_ge in Ec; apply Z.leb_gt in Ed end.
    sstep; [apply G; bnia|apply G'; bnia].
Qed.
Lemma safe_tally facet : Safe (tally mem s tid facet) (fun _ => True).
Proof.
  apply safe_for; auto. intros r [] Hr _. apply in_range in Hr.
  destruct (wf_rec_tables _ _ _ _ W) as (E1 & E2 & E3 & E4 & E5 & E6 & E7). destruct (wf_acc _ _ _ _ W) as (A1 & A2 & A3 & _).
  destruct (wf_local _ _ _ _ W) as (_ & _ & _ & _ & _ & _ & Es). pose proof (wf_recorders _ _ _ _ W) as HR. destruct (wf_hists _ _ _ _ W r Hr) as [K1 K2].
  assert (G : 0 <= tid * n_recorders s + r < n_recorders s * nthr) by bnia.
  assert (G' : tid * n_recorders s <= tid * n_recorders s + r < (tid + 1) * n_recorders s) by blia.
  unfold tally_recorder. do 2 (sstep; [blia|]). sstep. sstep; [now sstep|]. sstep; [blia|]. sstep.
  apply safe_bind with (Q := fun _ => True).
  { sstep; [|now sstep]. sstep; [|now sstep]. eapply safe_bind; [apply safe_touches; [exact (fun _ => I)|]; repeat constructor; blia|]. intros _ _. sstep; [blia|]. sstep. }
  intros off _. sstep; [now sstep|]. sstep; [blia|]. sstep; [blia|]. sstep. sstep; [now sstep|]. sstep; [blia|]. sstep; [blia|].
  eapply safe_bind.
  { apply safe_stores; [reflexivity|]. apply Forall_forall. intros i Hi. apply in_map_iff in Hi as (k & <- & Hk). apply in_range in Hk.
    split; [bnia|unfold mine; blia]. }
  intros _ _. sstep; [blia|]. sstep; [blia|]. apply safe_for; auto. intros h [] Hh _. apply in_range in Hh. apply safe_tally_row; blia.
Qed.

(** rows of the log that belong to the ray *)
Definition base_ok (base : Z) : Prop :=
  base < 0 \/ (0 <= base /\ base + max_events s <= m_len mem ev_kind /\
               (0 < record_every s /\ ray mod record_every s = 0) /\ base = ray / record_every s * max_events s).
Lemma safe_record base count : base_ok base -> 0 <= count -> Safe (record s base count) (fun c => 0 <= c).
Proof.
  intros Hb Hc. pose proof (wf_log _ _ _ _ W) as K. cbv zeta in K. set (rows := _ * max_events s) in K. clearbody rows.
  destruct K as (E1 & E2 & E3 & E4 & E5 & E6 & E7 & E8 & E9 & E10 & E11 & E12 & _).
  unfold record. sstep; [now sstep|].
  match goal with E : (_ || _) = false |- _ => apply orb_false_iff in E as [Ea Eb]; apply Z.ltb_ge in Ea; apply Z.leb_gt in Eb end.
  destruct Hb as [Hb|(Hb1 & Hb2 & Hr & Hb3)]; [blia|].
  assert (G : Forall (fun i => 0 <= i < rows * 3 /\ ((0 < record_every s /\ ray mod record_every s = 0) /\
    ray / record_every s * max_events s * 3 <= i < (ray / record_every s + 1) * max_events s * 3)) (row3 (base + count))).
  { apply Forall_forall. intros i Hi. apply in_map_iff in Hi as (k & <- & Hk). apply in_range in Hk. split; [blia|]. split; [exact Hr|]. blia. }
  assert (G' : (0 < record_every s /\ ray mod record_every s = 0) /\
    ray / record_every s * max_events s <= base + count < (ray / record_every s + 1) * max_events s) by (split; [exact Hr|blia]).
  do 6 (sstep; [blia|]).
  eapply safe_bind; [apply safe_stores; [reflexivity|]; rewrite E7; exact G|]. intros _ _.
  eapply safe_bind; [apply safe_stores; [reflexivity|]; rewrite E8; exact G|]. intros _ _.
  eapply safe_bind; [apply safe_stores; [reflexivity|]; rewrite E9; exact G|]. intros _ _.
  do 3 (sstep; [blia|]). sstep. blia.
Qed.

Definition nodes_ok (l : list Z) : Prop := Forall (fun n => 0 <= n < n_nodes s) l.
Lemma safe_find_hits : Safe (find_hits mem s) (fun r => nodes_ok (fst r) /\ Z.of_nat (length (fst r)) <= MAX_HITS).
Proof.
  destruct (wf_local _ _ _ _ W) as (L1 & L2 & L3 & L4 & L5 & _). pose proof (wf_nodes _ _ _ _ W) as HN. destruct (wf_node_tables _ _ _ _ W) as (_ & _ & _ & Ew & _).
  apply safe_for. { split; [constructor|]. unfold MAX_HITS. cbv beta in *; intros; simpl in *; blia. }
  intros node acc Hn Hacc. apply in_range in Hn.
  sstep; [blia|]. sstep; [blia|]. eapply safe_bind; [apply safe_transform_point; [assumption|exact (fun _ => I)|assumption]|]. intros _ _. eapply safe_bind; [apply safe_transform_vector; [assumption|exact (fun _ => I)|assumption]|]. intros _ _.
  eapply safe_bind; [now apply safe_intersect_node|]. intros nlocal Hnl. cbv beta in Hnl.
  apply safe_for; [exact Hacc|]. intros k [hits nh] Hk [H1 H2]. apply in_range in Hk. simpl in H1, H2.
  apply safe_bind with (Q := fun h => nodes_ok h /\ Z.of_nat (length h) <= MAX_HITS).
  { sstep.
    - match goal with E : (_ <? _) = true |- _ => apply Z.ltb_lt in E end. sstep; [blia|]. sstep; [blia|]. sstep; [blia|]. sstep. split.
      + apply Forall_app. split; [exact H1|]. constructor; [exact Hn|constructor].
      + rewrite app_length. cbv beta in *; intros; simpl in *; blia.
    - sstep. auto. }
  intros h Hh. do 4 (sstep; [blia|]). sstep.
  eapply safe_bind with (Q := fun _ => True); [sstep; [sstep; blia|now sstep]|]. intros _ _. sstep. exact Hh.
Qed.
Lemma safe_find_first n : 0 < n <= MAX_HITS -> Safe (find_first n) (fun f => 0 <= f < n).
Proof.
  intros H. destruct (wf_local _ _ _ _ W) as (L1 & _). apply safe_for; [blia|]. intros i f Hi Hf. apply in_range in Hi.
  sstep; [blia|]. sstep; [blia|]. sstep. sstep. destruct a; blia.
Qed.
Lemma safe_find_second n f : n <= MAX_HITS -> 0 <= f < n -> Safe (find_second n f) (fun x => x < n /\ (2 <= n -> 0 <= x)).
Proof.
  intros H Hf. destruct (wf_local _ _ _ _ W) as (L1 & _). unfold find_second.
  assert (G : forall l b, Forall (fun i => 0 <= i < n) l -> -1 <= b < n ->
    Safe (for_each l (fun i second => if i =? f then ret second else if second <? 0 then ret i
      else touch hit_t i ;;; touch hit_t second ;;; c <- ask ;; ret (if c : bool then i else second)) b)
      (fun x => -1 <= x < n /\ ((exists i, In i l /\ i <> f) \/ 0 <= b -> 0 <= x))).
  { induction l as [|i l IH]; intros b Hl Hb; simpl.
    - apply safe_ret. split; [blia|]. intros [(i & [] & _)|K]; blia.
    - inversion Hl as [|? ? Hi Hl']; subst. destruct (i =? f) eqn:Ei.
      + apply Z.eqb_eq in Ei. eapply safe_bind; [apply safe_ret with (Q := fun x => x = b); reflexivity|]. intros b' ->.
        eapply safe_weak; [apply IH; auto|]. simpl. intros x (K1 & K2). split; [exact K1|]. intros [(j & [J|J] & Hj)|K]; [congruence| |]; apply K2; eauto.
      + apply Z.eqb_neq in Ei. eapply safe_bind with (Q := fun x => 0 <= x < n).
        * sstep. { sstep. blia. } match goal with E : (_ <? 0) = false |- _ => apply Z.ltb_ge in E end. sstep; [blia|]. sstep; [blia|]. sstep. sstep. destruct a; blia.
        * intros b' Hb'. eapply safe_weak; [apply IH; [auto|blia]|]. simpl. intros x (K1 & K2). split; [exact K1|]. intros _. apply K2. right. blia. }
  eapply safe_weak; [apply G; [apply range_forall; blia|blia]|]. simpl. intros x (K1 & K2). split; [blia|]. intros Hn. apply K2. left.
  exists (if f =? 0 then 1 else 0). split; [apply in_range|]; destruct (f =? 0) eqn:E; (apply Z.eqb_eq in E || apply Z.eqb_neq in E); blia.
Qed.
Lemma safe_find_container nh : Safe (find_container s nh) (fun c => c < n_nodes s).
Proof.
  destruct (wf_local _ _ _ _ W) as (_ & _ & L3 & L4 & _). pose proof (wf_nodes _ _ _ _ W) as HN.
  apply safe_for; [blia|]. intros node c Hn Hc. apply in_range in Hn. sstep; [blia|]. sstep; [|now sstep]. sstep; [blia|]. sstep. sstep; [sstep; [blia|]; sstep; blia|now sstep].
Qed.

Lemma safe_coefficient c : 0 <= c < m_len mem comp_type -> Safe (coefficient mem c) (fun _ => True).
Proof.
  intros H. pose proof (wf_comp_tables _ _ _ _ W) as K. cbv zeta in K. destruct K as (_ & _ & _ & _ & _ & E1 & E2 & _).
  destruct (wf_abs _ _ _ _ W c H) as (A1 & A2 & A3). destruct (wf_spectra _ _ _ _ W) as [Es _].
  unfold coefficient. sstep; [blia|]. sstep; [blia|]. apply safe_interp; first [exact (fun _ => I)|blia].
Qed.
Definition comps_ok (cbase ccount : Z) : Prop := 0 <= cbase /\ cbase + ccount <= m_len mem comp_type.
Lemma safe_absorbed_before cbase ccount : comps_ok cbase ccount -> Safe (absorbed_before mem cbase ccount) (fun b => b = true -> 0 < ccount).
Proof.
  intros [H1 H2]. unfold absorbed_before. eapply safe_bind with (Q := fun _ => True).
  { apply safe_for; auto. intros k [] Hk _. apply in_range in Hk. apply safe_coefficient. blia. }
  intros _ _. eapply safe_bind with (Q := fun b => b = true -> 0 < ccount).
  { sstep. { match goal with E : (_ <? _) = true |- _ => apply Z.ltb_lt in E end. eapply safe_weak; [apply safe_ask|]. auto. } sstep. discriminate. }
  intros b Hb. sstep; [|sstep; discriminate]. eapply safe_weak; [apply safe_ask|]. auto.
Qed.
Lemma safe_select cbase ccount : comps_ok cbase ccount -> 0 < ccount ->
  Safe (select_component mem cbase ccount) (fun c => 0 <= c < m_len mem comp_type).
Proof.
  intros [H1 H2] H3. unfold select_component. eapply safe_bind with (Q := fun r : Z * bool => 0 <= fst r < m_len mem comp_type).
  { apply safe_for; [simpl; blia|]. intros k [c found] Hk Hc. apply in_range in Hk. simpl in Hc. sstep; [now sstep|].
    eapply safe_bind; [apply safe_coefficient; blia|]. intros _ _. sstep. sstep. destruct a; simpl; blia. }
  intros r Hr. now sstep.
Qed.

Definition going_on (r : option Z) : Prop := match r with Some n => 0 <= n | None => True end.
Lemma safe_tally_at node facet : 0 <= node < n_nodes s ->
  Safe (if 0 <? n_recorders s then transform_point w2l node ;;; tally mem s tid facet else ret tt) (fun _ => True).
Proof.
  intros Hn. destruct (wf_node_tables _ _ _ _ W) as (_ & _ & _ & Ew & _). sstep; [|now sstep].
  eapply safe_bind; [apply safe_transform_point; [assumption|exact (fun _ => I)|assumption]|]. intros _ _. now apply safe_tally.
Qed.
Lemma safe_absorb base container cbase ccount nevents :
  base_ok base -> 0 <= container < n_nodes s -> comps_ok cbase ccount -> 0 < ccount -> 0 <= nevents ->
  Safe (absorb mem s tid base container cbase ccount nevents) going_on.
Proof.
  intros Hb Hc Hk Hk0 Hn. pose proof (wf_comp_tables _ _ _ _ W) as K. cbv zeta in K. destruct K as (E1 & E2 & E3 & E4 & E5 & _ & _ & E8 & E9).
  unfold absorb. eapply safe_bind; [now apply safe_select|]. intros comp Hcomp. cbv beta in Hcomp. eapply safe_bind; [now apply safe_record|]. intros n Hn'. cbv beta in Hn'.
  sstep; [blia|]. eapply safe_bind with (Q := fun _ => True). { sstep; [sstep; [blia|]; sstep|now sstep]. }
  intros radiative _. sstep.
  - sstep; [blia|]. sstep; [blia|]. eapply safe_bind with (Q := fun _ => True).
    { sstep; [|now sstep]. match goal with E : (_ =? 2) = true |- _ => apply Z.eqb_eq in E; destruct (wf_ems _ _ _ _ W comp Hcomp E) as (A1 & A2 & A3) end.
      destruct (wf_spectra _ _ _ _ W) as [_ Es]. sstep; [blia|]. sstep; [blia|].
      eapply safe_bind with (Q := fun _ => True). { sstep; [now sstep|]. apply safe_interp; first [exact (fun _ => I)|blia]. }
      intros _ _. eapply safe_bind; [apply safe_interp; first [exact (fun _ => I)|blia]|]. intros _ _. sstep; [blia|]. sstep. sstep; [sstep; blia|now sstep]. }
    intros _ _. eapply safe_bind; [now apply safe_record|]. intros m Hm. cbv beta in Hm. sstep. exact Hm.
  - sstep; [blia|]. sstep. eapply safe_bind with (Q := fun _ => True). { sstep; [sstep; blia|now sstep]. }
    intros _ _. eapply safe_bind; [now apply safe_record|]. intros _ _. eapply safe_bind; [now apply safe_tally_at|]. intros _ _. sstep. exact I.
Qed.
Lemma safe_surface base hit container adjacent nevents :
  base_ok base -> 0 <= hit < n_nodes s -> 0 <= container < n_nodes s -> adjacent < n_nodes s -> 0 <= nevents ->
  Safe (surface mem s tid base hit container adjacent nevents) going_on.
Proof.
  intros Hb Hh Hc Ha Hn. destruct (wf_node_tables _ _ _ _ W) as (_ & _ & El & Ew & En & Es & _).
  unfold surface. sstep. { eapply safe_bind; [now apply safe_record|]. intros _ _. sstep. exact I. }
  match goal with E : (_ <? 0) = false |- _ => apply Z.ltb_ge in E end.
  eapply safe_bind; [apply safe_transform_point; [assumption|exact (fun _ => I)|assumption]|]. intros _ _. eapply safe_bind; [now apply safe_local_normal|]. intros _ _.
  eapply safe_bind; [apply safe_transform_vector; [assumption|exact (fun _ => I)|assumption]|]. intros _ _. sstep; [blia|].
  eapply safe_bind with (Q := fun _ => True). { sstep; [sstep; [blia|]; sstep; blia|now sstep]. }
  intros _ _. sstep. sstep.
  - eapply safe_bind; [now apply safe_record|]. intros n Hn'. cbv beta in Hn'. eapply safe_bind with (Q := fun _ => True). { sstep; [now apply safe_tally|now sstep]. }
    intros _ _. sstep. exact Hn'.
  - sstep; [blia|]. eapply safe_bind; [now apply safe_record|]. intros n Hn'. cbv beta in Hn'. eapply safe_bind with (Q := fun _ => True). { sstep; [now apply safe_tally|now sstep]. }
    intros _ _. sstep. exact Hn'.
Qed.

Lemma nth_node l i : nodes_ok l -> 0 <= i < Z.of_nat (length l) -> 0 <= nth (Z.to_nat i) l 0 < n_nodes s.
Proof. intros H Hi. unfold nodes_ok in H. rewrite Forall_forall in H. apply H, nth_In. blia. Qed.
Lemma safe_pass base count nevents : base_ok base -> 0 <= nevents ->
  Safe (pass mem s tid base count nevents) going_on.
Proof.
  intros Hb Hn. destruct (wf_node_tables _ _ _ _ W) as (_ & _ & El & Ew & En & _ & E7 & E8). destruct (wf_local _ _ _ _ W) as (L1 & L2 & _).
  unfold pass. eapply safe_bind; [apply safe_find_hits|]. intros [hits nh] [H1 H2]. simpl in H1, H2. cbv zeta.
  set (n := Z.of_nat (length hits)) in *. assert (Hn0 : 0 <= n) by blia. sstep; [sstep; exact I|].
  match goal with E : (_ =? 0) = false |- _ => apply Z.eqb_neq in E end.
  eapply safe_bind; [apply safe_find_first; blia|]. intros first Hf. cbv beta in Hf. eapply safe_bind; [now apply safe_find_second|]. intros second [Hs1 Hs2].
  sstep; [blia|]. sstep; [blia|].
  pose proof (nth_node hits first H1 Hf) as Hhit. set (hit := nth (Z.to_nat first) hits 0) in *. clearbody hit.
  apply safe_bind with (Q := fun ca : Z * Z => 0 <= fst ca < n_nodes s /\ snd ca < n_nodes s).
  { sstep. { sstep. cbv beta in *; intros; simpl in *; blia. } match goal with E : (_ =? 1) = false |- _ => apply Z.eqb_neq in E end. specialize (Hs2 ltac:(blia)).
    eapply safe_bind; [apply safe_find_container|]. intros c Hc. cbv beta in Hc.
    set (c' := if c <? 0 then hit else c). assert (Hc' : 0 <= c' < n_nodes s) by (unfold c'; destruct (c <? 0) eqn:E; [blia|apply Z.ltb_ge in E; blia]). clearbody c'.
    sstep; [|sstep; simpl; blia]. sstep; [blia|]. sstep. simpl. pose proof (nth_node hits second H1 ltac:(blia)). blia. }
  intros [container adjacent] [Hc Ha]. simpl in Hc, Ha. sstep.
  { eapply safe_bind; [now apply safe_record|]. intros _ _. eapply safe_bind; [now apply safe_tally_at|]. intros _ _. sstep. exact I. }
  sstep; [blia|]. sstep.
  { eapply safe_bind; [now apply safe_record|]. intros _ _. eapply safe_bind with (Q := fun _ => True).
    - sstep; [|now sstep]. eapply safe_bind; [apply safe_transform_point; [assumption|exact (fun _ => I)|assumption]|]. intros _ _. eapply safe_bind; [now apply safe_local_normal|]. intros _ _.
      eapply safe_bind; [apply safe_transform_vector; [assumption|exact (fun _ => I)|assumption]|]. intros _ _. now apply safe_tally.
    - intros _ _. sstep. exact I. }
  sstep; [blia|]. sstep; [blia|]. pose proof (wf_comps _ _ _ _ W container Hc) as Hk.
  eapply safe_bind; [now apply safe_absorbed_before|]. intros b Hbt. cbv beta in Hbt. sstep.
  - apply safe_absorb; auto.
  - now apply safe_surface.
Qed.
Lemma safe_loop fuel base : base_ok base -> forall count nevents, 0 <= nevents ->
  Safe (loop fuel mem s tid base count nevents) (fun n => 0 <= n).
Proof.
  intros Hb. induction fuel as [|f IH]; intros count nevents Hn; simpl; [now sstep|]. sstep; [now apply safe_record|].
  eapply safe_bind; [now apply safe_pass|]. intros [m|] Hm; [now apply IH|now sstep].
Qed.
Lemma safe_trace_ray fuel : 0 <= ray < nrays -> Safe (trace_ray fuel mem s tid ray) (fun _ => True).
Proof.
  intros Hi. destruct (wf_work _ _ _ _ W) as (E1 & E2 & E3). pose proof (wf_log _ _ _ _ W) as K. cbv zeta in K. pose proof (wf_events _ _ _ _ W) as HE.
  assert (Hrow : Forall (fun j => 0 <= j < nrays * 3 /\ (ray * 3 <= j < ray * 3 + 3)) (row3 ray)).
  { apply Forall_forall. intros j Hj. apply in_map_iff in Hj as (k & <- & Hk). apply in_range in Hk. blia. }
  unfold trace_ray. cbv zeta. set (base := if _ && _ then _ else _).
  assert (Hb : base_ok base /\ (0 <= base -> 0 <= ray / record_every s < m_len mem counts)).
  { unfold base. destruct ((0 <? record_every s) && (ray mod record_every s =? 0)) eqn:E; [|split; [left; blia|blia]].
    apply andb_true_iff in E as [Ea Eb]. rewrite Ea in K, HE. apply Z.ltb_lt in Ea. apply Z.eqb_eq in Eb.
    set (nr := (nrays + record_every s - 1) / record_every s) in *.
    assert (Hq : 0 <= ray / record_every s) by (apply Z.div_pos; blia).
    assert (Hlt : ray / record_every s + 1 <= nr).
    { unfold nr. replace (ray / record_every s + 1) with ((ray + 1 * record_every s) / record_every s) by (rewrite Z.div_add by blia; reflexivity).
      assert (ray + 1 * record_every s <= nrays - 1 + record_every s) by blia. apply Z.div_le_mono; blia. }
    assert (Hme : 0 <= max_events s) by bnia.
    destruct K as (K1 & _ & _ & _ & _ & _ & _ & _ & _ & _ & _ & _ & K13). split; [|blia]. right. rewrite K1. split; [bnia|]. split; [|split; [split; assumption|reflexivity]].
    replace (ray / record_every s * max_events s + max_events s) with ((ray / record_every s + 1) * max_events s) by ring. bnia. }
  destruct Hb as [Hb Hcount]. clearbody base.
  eapply safe_bind; [apply safe_stores; [reflexivity|]; rewrite E1; exact Hrow|]. intros _ _. eapply safe_bind; [apply safe_stores; [reflexivity|]; rewrite E2; exact Hrow|]. intros _ _.
  sstep; [blia|]. eapply safe_bind with (Q := fun _ => True).
  - unfold trace_one. destruct (wf_local _ _ _ _ W) as (_ & _ & _ & _ & _ & _ & Es). pose proof (wf_recorders _ _ _ _ W) as HR.
    eapply safe_bind; [apply safe_stores; [reflexivity|]; apply range_forall; intros; split; [blia|exact I]|]. intros _ _. eapply safe_bind; [apply safe_record; [exact Hb|blia]|]. intros n Hn. cbv beta in Hn.
    eapply safe_true. now apply safe_loop.
  - intros _ _. sstep; [|now sstep]. match goal with E : (0 <=? _) = true |- _ => apply Z.leb_le in E end. sstep; [auto|].
    destruct Hb as [Hb|(_ & _ & Hr & _)]; [blia|]. split; [exact Hr|reflexivity].
Qed.
End Kernel.
