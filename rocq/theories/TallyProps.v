(** C17 - C22: recorders. *)
From Coq Require Import Reals Lra Psatz ZArith List Bool Arith Lia.
From Verif Require Import Base Vec Interp DistModel MaterialModel OpticsModel PhaseModel TransformModel TransformProofs GeomModel GeomProofs
  TracerModel TracerProofs TracerProps KernelModel KernelProofs KernelProps LogProofs LogProps TallyModel TallyProofs.
Import ListNotations.
Open Scope R_scope.

(** ** C17 *)
(** What a recorder on [node] counts, in words of recorder.py 46-54. *)
Definition selected (s : selector) (node : nat) (e : event) : Prop :=
  match s with
  | Entering => e_kind e = TRANSMIT /\ e_hit e = Some node /\ e_adjacent e = Some node
  | Escaping => e_kind e = TRANSMIT /\ e_hit e = Some node /\ e_container e = Some node
  | Reflected => e_kind e = REFLECT /\ e_hit e = Some node /\ e_adjacent e = Some node
  | Lost => e_kind e = NONRADIATIVE /\ e_container e = Some node
  | Reacted => e_kind e = REACT /\ e_container e = Some node
  | Killed => e_kind e = KILL /\ e_container e = Some node
  | Exit => e_kind e = EXIT /\ e_hit e = Some node
  end.
Definition on_facet (r : recorder) (normal : option vec) : Prop :=
  forall f, rec_facet r = Some f -> exists n, normal = Some n /\
    Rabs (vx f - vx n) <= rec_atol r /\ Rabs (vy f - vy n) <= rec_atol r /\ Rabs (vz f - vz n) <= rec_atol r.

Lemma opt_eqb_spec a n : opt_eqb a n = true <-> a = Some n.
Proof. destruct a; simpl; [rewrite Nat.eqb_eq; split; congruence|split; discriminate]. Qed.

Lemma matches_spec s node e : matches s node e = true <-> selected s node e.
Proof.
  unfold matches, selected. destruct (e_kind e), s; rewrite ?andb_true_iff, ?opt_eqb_spec; try (split; [discriminate|intros H; decompose [and] H; discriminate]);
    try (split; [intros H; repeat split; tauto|tauto]).
  - destruct (opt_eqb (e_hit e) node) eqn:E; [apply opt_eqb_spec in E; rewrite opt_eqb_spec; tauto|]. split; [discriminate|].
    intros (_ & H & _). apply opt_eqb_spec in H. congruence.
  - destruct (opt_eqb (e_hit e) node) eqn:E; [apply opt_eqb_spec in E; rewrite opt_eqb_spec; tauto|]. split; [discriminate|].
    intros (_ & H & _). apply opt_eqb_spec in H. congruence.
  - destruct (opt_eqb (e_hit e) node); split; try discriminate; intros H; decompose [and] H; discriminate.
  - destruct (opt_eqb (e_hit e) node); split; try discriminate; intros H; decompose [and] H; discriminate.
  - destruct (opt_eqb (e_hit e) node); split; try discriminate; intros H; decompose [and] H; discriminate.
  - destruct (opt_eqb (e_hit e) node); split; try discriminate; intros H; decompose [and] H; discriminate.
  - destruct (opt_eqb (e_hit e) node); split; try discriminate; intros H; decompose [and] H; discriminate.
Qed.

Lemma facet_spec r normal : facet_ok r normal = true <-> on_facet r normal.
Proof.
  unfold facet_ok, on_facet. destruct (rec_facet r) as [f|].
  - destruct normal as [n|].
    + rewrite negb_true_iff. unfold facet_off. rewrite !orb_false_iff, !Rltb_false. split.
      * intros [[H1 H2] H3] f' [= <-]. exists n. repeat split; lra.
      * intros H. destruct (H f eq_refl) as (n' & [= <-] & H1 & H2 & H3). repeat split; lra.
    + split; [discriminate|]. intros H. destruct (H f eq_refl) as (n & Hn & _). discriminate.
  - split; [intros _ f H; discriminate|reflexivity].
Qed.

Lemma slot_matches_spec T node r e : slot_matches T node r e = true <-> selected (rec_event r) node e /\ on_facet r (event_normal T node e).
Proof. unfold slot_matches. now rewrite andb_true_iff, matches_spec, facet_spec. Qed.

Lemma matching_ext T node r matching :
  (forall e, matching e = true <-> selected (rec_event r) node e /\ on_facet r (event_normal T node e)) ->
  forall e, matching e = slot_matches T node r e.
Proof. intros H e. apply eq_true_iff_eq. now rewrite H, slot_matches_spec. Qed.

Lemma filter_length {A} (P : A -> bool) l : (length (filter P l) <= length l)%nat.
Proof. induction l as [|x l IH]; simpl; [lia|]. destruct (P x); simpl; lia. Qed.

Lemma count_any {A} (P : A -> bool) ls : (length (filter (existsb P) ls) <= length (filter P (concat ls)))%nat.
Proof.
  induction ls as [|l ls IH]; [simpl; lia|]. simpl. rewrite filter_app, app_length.
  destruct (existsb P l) eqn:E; simpl; [|lia]. apply existsb_exists in E. destruct E as (x & Hin & Hx).
  assert (In x (filter P l)) by now apply filter_In. destruct (filter P l); [easy|]. simpl. lia.
Qed.

Lemma flat_map_length {A B} (f : A -> list B) l : length (flat_map f l) = list_sum (map (fun x => length (f x)) l).
Proof. induction l as [|x l IH]; [reflexivity|]. simpl. now rewrite app_length, IH. Qed.
Lemma filter_concat_length {A} (P : A -> bool) ls : length (filter P (concat ls)) = list_sum (map (fun l => length (filter P l)) ls).
Proof. induction ls as [|l ls IH]; [reflexivity|]. simpl. now rewrite filter_app, app_length, IH. Qed.

(** rays = number of histories with a matching event; crossings = number of matching
    events. *)
Theorem C17_recorder_counts : forall T rs histories node r s matching,
  NoDup (map (fun p => rec_name (snd p)) rs) -> In (node, r, s) (tally_histories T rs histories) ->
  (forall e, matching e = true <-> selected (rec_event r) node e /\ on_facet r (event_normal T node e)) ->
  s_rays s = length (filter (existsb matching) histories) /\
  s_cross s = length (filter matching (concat histories)) /\
  (s_rays s <= s_cross s)%nat /\ (s_rays s <= length histories)%nat.
Proof.
  intros T rs hs node r s matching Hnd Hin Hm. rewrite tally_histories_spec in Hin by assumption.
  apply in_map_iff in Hin. destruct Hin as ([n' r'] & E & Hin). injection E as -> -> <-.
  pose proof (matching_ext T node r matching Hm) as Hx.
  destruct (slot_result T node r hs) as (E1 & E2 & _). cbv zeta in *.
  assert (A1 : s_rays (slot_histories T node r hs (new_state r)) = length (filter (existsb matching) hs)).
  { rewrite E1, recorded_length. f_equal. apply filter_ext. intros h. induction h as [|e h IH]; [reflexivity|]. simpl. now rewrite IH, Hx. }
  assert (A2 : s_cross (slot_histories T node r hs (new_state r)) = length (filter matching (concat hs))).
  { rewrite E2, flat_map_length, filter_concat_length. f_equal. apply map_ext. intros h. rewrite match_values_length. f_equal.
    apply filter_ext. intros e. symmetry. apply Hx. }
  rewrite A1, A2. split; [reflexivity|]. split; [reflexivity|]. split; [apply count_any|apply filter_length].
Qed.
Print Assumptions C17_recorder_counts.

(** Every recorder has exactly one result, whatever the other recorders are. *)
Theorem C17_one_result_per_recorder : forall T rs histories, NoDup (map (fun p => rec_name (snd p)) rs) ->
  map fst (tally_histories T rs histories) = rs /\
  (forall node r, In (node, r) rs -> exists s, In (node, r, s) (tally_histories T rs histories) /\ In (node, r, s) (tally_histories T [(node, r)] histories)).
Proof.
  intros T rs hs Hnd. rewrite tally_histories_spec by assumption. split.
  - rewrite map_map. rewrite <- (map_id rs) at 2. apply map_ext. now intros [? ?].
  - intros node r Hin. exists (slot_histories T node r hs (new_state r)). split.
    + apply in_map_iff. now exists (node, r).
    + rewrite tally_histories_spec by (constructor; [easy|constructor]). now left.
Qed.
Print Assumptions C17_one_result_per_recorder.

(** The kernel: [rays] are the tally calls of each ray. *)
Theorem C17_kernel_counts : forall rs ks rows total r node rc k rays matching,
  kernel_tables rs = (ks, rows, total) -> nth_error rs r = Some (node, rc) -> nth_error ks r = Some k ->
  (forall c, matching c = true <-> tc_node c = node /\ tc_sel c = rec_event rc /\ on_facet rc (tc_normal c)) ->
  let x := engine_result rows k r (fold_left (fun A calls => tally_ray rows ks calls A) rays acc0) in
  r_rays x = length (filter (existsb matching) rays) /\
  r_cross x = length (filter matching (concat rays)) /\
  (r_rays x <= r_cross x)%nat /\ (r_rays x <= length rays)%nat.
Proof.
  intros rs ks rows total r node rc k rays matching E Hr Hk Hm x.
  assert (Hx : forall c, call_matches k c = matching c).
  { intros c. apply eq_true_iff_eq. rewrite Hm. unfold call_matches.
    destruct (tables_ok rs ks rows total E) as (_ & _ & _ & Hks & _). specialize (Hks r node rc Hr). rewrite Hk in Hks. injection Hks as ->. simpl.
    rewrite !andb_true_iff, facet_spec, Nat.eqb_eq. assert (Hs : selector_eqb (rec_event rc) (tc_sel c) = true <-> tc_sel c = rec_event rc).
    { destruct (rec_event rc), (tc_sel c); simpl; split; intro; congruence || reflexivity. }
    rewrite Hs. intuition. }
  unfold x. rewrite (engine_result_spec rs ks rows total r node rc k rays E Hr Hk). cbn [r_rays r_cross].
  assert (A1 : length (k_recorded k rays) = length (filter (existsb matching) rays)).
  { unfold k_recorded. rewrite firsts_length, filter_map_length. f_equal. apply filter_ext. intros calls.
    unfold call_hits. induction calls as [|c calls IH]; [reflexivity|]. simpl. rewrite Hx. destruct (matching c); [reflexivity|]. exact IH. }
  assert (A2 : length (flat_map (call_hits k) rays) = length (filter matching (concat rays))).
  { rewrite flat_map_length, filter_concat_length. f_equal. apply map_ext. intros calls. unfold call_hits. rewrite map_length. f_equal. now apply filter_ext. }
  rewrite A1, A2. split; [reflexivity|]. split; [reflexivity|]. split; [apply count_any|apply filter_length].
Qed.
Print Assumptions C17_kernel_counts.

(** ** C18 *)
(** What tally_histories needs to know about the scene is what the kernel uses. *)
Definition same_scene (T : tscene) (K : kscene) (log : list event) : Prop :=
  (forall n p, t_w2l T n p = to_point (k_w2l K n) p) /\
  (forall e n, In e log -> e_kind e = EXIT -> e_hit e = Some n ->
     t_normal T n (position (e_ray e)) = to_vector (k_l2w K n) (local_normal (k_shape K n) (to_point (k_w2l K n) (position (e_ray e))))).

(** No surface event has the same node on both sides, and no ray was dropped at a
    surface with nothing behind it (C07 gives this for well-nested scenes). *)
Definition two_sided (e : event) : Prop :=
  ((e_kind e = TRANSMIT \/ e_kind e = REFLECT) -> e_container e <> e_adjacent e) /\
  (e_kind e = KILL -> e_hit e = None).

Lemma k_next_hit_sides K p d hit c a t : k_next_hit K p d = Some (hit, c, Some a, t) -> c <> hit -> a = hit.
Proof.
  unfold k_next_hit. cbv zeta. destruct (hit_table K p d) as [|x l]; [discriminate|]. set (h := x :: l). clearbody h.
  destruct (Nat.eqb (length h) 1); [discriminate|].
  set (c' := match k_container K p d with Some c0 => c0 | None => n_at h (k_first h) end). clearbody c'.
  intros H Hne. injection H as H1 H2 H3 H4. subst hit c. destruct (Nat.eqb_spec c' (n_at h (k_first h))); [contradiction|]. now subst.
Qed.

Lemma k_angle_incidence n d : k_angle n d = incidence_angle d n.
Proof.
  unfold k_angle, incidence_angle. cbv zeta. rewrite (dot_comm d n).
  assert (E : dot (if Rltb (dot n d) 0 then vneg n else n) d = Rabs (dot n d)).
  { destruct (Rltb (dot n d) 0) eqn:L.
    - apply Rltb_true in L. rewrite Rabs_left by assumption. unfold dot, vneg. simpl. ring.
    - apply Rltb_false in L. now rewrite Rabs_right by lra. }
  rewrite E. pose proof (Rabs_pos (dot n d)). f_equal. destruct (Rltb 1 (Rabs (dot n d))) eqn:L.
  - apply Rltb_true in L. rewrite Rmin_right; lra.
  - apply Rltb_false in L. rewrite (proj2 (Rltb_false _ (-1))) by lra. rewrite Rmin_left; lra.
Qed.
Lemma k_exit_incidence n d : k_exit_angle n d = incidence_angle d n.
Proof.
  unfold k_exit_angle, incidence_angle. cbv zeta. rewrite (dot_comm d n). f_equal. destruct (Rltb 1 (Rabs (dot n d))) eqn:L.
  - apply Rltb_true in L. rewrite Rmin_right; lra.
  - apply Rltb_false in L. rewrite Rmin_left; lra.
Qed.

Lemma tally_of_values T K s n normal angle r : (forall n p, t_w2l T n p = to_point (k_w2l K n) p) ->
  call_values (tally_of K s n normal angle r) = Values (wavelength r) angle (duration r) (travelled r) (t_w2l T n (position r)).
Proof. intros H. unfold call_values, tally_of. simpl. now rewrite H. Qed.

(** one call against one event *)
Lemma agree_one T K node rc s n normal angle prev e :
  (forall n p, t_w2l T n p = to_point (k_w2l K n) p) ->
  (forall sel, matches sel node e = Nat.eqb node n && selector_eqb sel s) ->
  (n = node -> event_normal T node e = normal /\ v_angle (event_values T node (Some prev) e) = angle) ->
  forall k, kr_node k = node -> kr_rec k = rc ->
  match_values T node rc (Some prev) [e] = call_hits k [tally_of K s n normal angle (e_ray e)].
Proof.
  intros Hw Hm Hn k Hk Hr. simpl. rewrite app_nil_r. unfold call_hits, slot_matches. simpl. unfold call_matches. rewrite Hk, Hr, Hm.
  change (tc_node (tally_of K s n normal angle (e_ray e))) with n. change (tc_sel (tally_of K s n normal angle (e_ray e))) with s.
  change (tc_normal (tally_of K s n normal angle (e_ray e))) with normal.
  destruct (Nat.eqb_spec node n) as [->|]; [|reflexivity]. destruct (Hn eq_refl) as [-> Ha]. simpl.
  destruct (selector_eqb (rec_event rc) s && facet_ok rc normal); [|reflexivity]. simpl.
  rewrite (tally_of_values T) by assumption. rewrite <- Ha. reflexivity.
Qed.

Lemma no_match T node rc prev e : (forall sel, matches sel node e = false) -> match_values T node rc prev [e] = [].
Proof. intros H. simpl. unfold slot_matches. now rewrite H. Qed.

Lemma mv_app T node rc prev a b : match_values T node rc prev (a ++ b) =
  match_values T node rc prev a ++ match_values T node rc (match rev a with [] => prev | e :: _ => Some (e_ray e) end) b.
Proof.
  revert prev. induction a as [|e a IH]; intros prev; [reflexivity|]. simpl. rewrite IH, <- app_assoc. do 2 f_equal.
  destruct (rev a) eqn:E; reflexivity.
Qed.

Lemma pass_tally T K node rc k ms m u count r prev : kr_node k = node -> kr_rec k = rc -> direction prev = direction r ->
  (forall n p, t_w2l T n p = to_point (k_w2l K n) p) ->
  match k_pass K ms m u count r with
  | KNan => True
  | KStop evs ts => Forall two_sided evs -> same_scene T K evs -> match_values T node rc (Some prev) evs = call_hits k ts
  | KContinue evs ts r' => exists l e, evs = l ++ [e] /\ direction (e_ray e) = direction r' /\
      (Forall two_sided evs -> match_values T node rc (Some prev) evs = call_hits k ts)
  end.
Proof.
  intros Hk Hr Hd Hw. unfold k_pass. destruct (k_next_hit K (position r) (direction r)) as [[[[hit c] a] t0]|] eqn:En; [|intros _ _; reflexivity].
  destruct (Nat.ltb ms count).
  { intros _ _. apply agree_one with (T := T); auto.
    intros sel. unfold matches. simpl. destruct sel; simpl; rewrite ?andb_false_r, ?andb_true_r; auto. apply Nat.eqb_sym. }
  destruct (Nat.eqb hit (k_root K)).
  { intros _ [_ Hs]. apply agree_one with (T := T); auto.
    - intros sel. unfold matches. simpl. destruct sel; simpl; rewrite ?andb_false_r, ?andb_true_r; auto. apply Nat.eqb_sym.
    - intros <-. unfold event_values, event_normal. cbn [e_kind e_normal e_ray v_angle].
      pose proof (Hs _ hit (or_introl eq_refl) eq_refl eq_refl) as Hn. cbn [e_ray] in Hn. rewrite Hn. split; [reflexivity|]. now rewrite k_exit_incidence. }
  assert (Hsurf : match k_surface K u hit c a t0 r with
    | KNan => True
    | KStop evs ts => Forall two_sided evs -> same_scene T K evs -> match_values T node rc (Some prev) evs = call_hits k ts
    | KContinue evs ts r' => exists l e, evs = l ++ [e] /\ direction (e_ray e) = direction r' /\
        (Forall two_sided evs -> match_values T node rc (Some prev) evs = call_hits k ts)
    end).
  { unfold k_surface. cbv zeta. set (r1 := k_propagate r t0 (k_idx K c)).
    assert (Hd1 : direction r1 = direction r) by reflexivity. clearbody r1.
    destruct a as [b|].
    2:{ intros Hf _. inversion Hf as [|? ? [_ H] _]; subst. discriminate (H eq_refl). }
    set (nrm := to_vector (k_l2w K hit) _). clearbody nrm.
    assert (Hb : c <> hit -> b = hit) by (intros; eapply k_next_hit_sides; eassumption).
    destruct (if k_fresnel K hit then _ else Some 0) as [refl|]; [|exact I].
    destruct (k_is_reflected refl (u_surf u)).
    - exists [], (Event REFLECT (with_direction r1 (k_specular_reflect (direction r1) nrm)) (Some hit) (Some c) (Some b) None (Some nrm)).
      split; [reflexivity|]. split; [reflexivity|]. intros Hf. inversion Hf as [|? ? [H _] _]; subst.
      specialize (H (or_intror eq_refl)). cbn [e_container e_adjacent] in H.
      destruct (Nat.eqb_spec c hit) as [->|Hne].
      + apply no_match. intros sel. unfold matches. simpl. destruct sel; auto. apply andb_false_iff.
        destruct (Nat.eqb_spec hit (kr_node k)) as [->|]; [right|now left]. apply Nat.eqb_neq. congruence.
      + apply agree_one with (T := T); auto.
        * intros sel. unfold matches. simpl. rewrite (Hb Hne). destruct sel; simpl; rewrite ?andb_false_r, ?andb_true_r; auto.
          rewrite andb_diag. apply Nat.eqb_sym.
        * intros _. split; [reflexivity|]. unfold event_values, event_normal. simpl. now rewrite Hd, <- Hd1, k_angle_incidence.
    - destruct (if k_fresnel K hit then _ else Some (direction r1)) as [d|]; [|exact I].
      exists [], (Event TRANSMIT (with_direction r1 d) (Some hit) (Some c) (Some b) None (Some nrm)).
      split; [reflexivity|]. split; [reflexivity|]. intros Hf. inversion Hf as [|? ? [H _] _]; subst.
      specialize (H (or_introl eq_refl)). cbn [e_container e_adjacent] in H.
      apply agree_one with (T := T); auto.
      + intros sel. unfold matches. simpl. rewrite (Nat.eqb_sym (kr_node k) hit).
        destruct (Nat.eqb_spec hit (kr_node k)) as [->|]; [|reflexivity].
        destruct (Nat.eqb_spec c (kr_node k)) as [->|Hne].
        * destruct sel; simpl; auto; try apply Nat.eqb_refl; apply Nat.eqb_neq; congruence.
        * rewrite (Hb Hne). destruct sel; simpl; auto; try apply Nat.eqb_refl; now apply Nat.eqb_neq.
      + intros _. split; [reflexivity|]. unfold event_values, event_normal. simpl. now rewrite Hd, <- Hd1, k_angle_incidence. }
  destruct (k_depth _ _) as [x|]; [|exact Hsurf]. destruct (Rltb x t0); [|exact Hsurf].
  unfold k_absorb. cbv zeta. set (r1 := k_propagate r x (k_idx K c)). clearbody r1.
  destruct (nth_error (k_comps K c) _) as [[cm ph]|]; [|exact I]. set (kk := k_select _ _). clearbody kk.
  assert (Ha : forall prev e, e_kind e = ABSORB \/ e_kind e = EMIT \/ e_kind e = SCATTER -> match_values T node rc prev [e] = []).
  { intros p e He. apply no_match. intros s. unfold matches. destruct He as [->|[->| ->]]; reflexivity. }
  assert (Hpair : forall e1 e2, e_kind e1 = ABSORB -> e_kind e2 = EMIT \/ e_kind e2 = SCATTER -> match_values T node rc (Some prev) [e1; e2] = call_hits k []).
  { intros e1 e2 H1 H2. change [e1; e2] with ([e1] ++ [e2]). rewrite mv_app.
    rewrite (Ha (Some prev) e1 (or_introl H1)). rewrite (Ha _ e2 (or_intror H2)). reflexivity. }
  destruct (k_is_radiative (c_kind cm) (c_qy cm) (u_rad u)).
  - destruct (c_kind cm); try (destruct (c_ems cm); [exact I|]).
    all: do 2 eexists; split; [change (?a :: ?b :: []) with ([a] ++ [b]); reflexivity|]; split; [reflexivity|]; intros _; apply Hpair; cbn [e_kind]; auto.
  - assert (Hend : forall kd s e2, (kd = REACT /\ s = Reacted) \/ (kd = NONRADIATIVE /\ s = Lost) -> e_kind e2 = kd -> e_container e2 = Some c -> e_normal e2 = None ->
      match_values T node rc (Some prev) [Event ABSORB r1 None (Some c) None (Some kk) None; e2] = call_hits k [tally_of K s c None 0 (e_ray e2)]).
    { intros kd s e2 Hks H1 H2 H3. change [?a; e2] with ([a] ++ [e2]). rewrite mv_app. rewrite (Ha (Some prev) (Event ABSORB r1 None (Some c) None (Some kk) None) (or_introl eq_refl)).
      simpl app. simpl rev. cbv iota. apply agree_one with (T := T); auto.
      - intros sel. unfold matches. rewrite H1, H2. destruct Hks as [[-> ->]|[-> ->]]; destruct sel; simpl; rewrite ?andb_false_r, ?andb_true_r; auto; apply Nat.eqb_sym.
      - intros _. unfold event_values, event_normal. rewrite H1, H3. destruct Hks as [[-> _]|[-> _]]; split; reflexivity. }
    destruct (c_kind cm); cbv beta iota zeta; intros _ _;
      match goal with |- match_values _ _ _ _ [_; ?e] = _ =>
        first [ exact (Hend NONRADIATIVE Lost e (or_intror (conj eq_refl eq_refl)) eq_refl eq_refl eq_refl)
              | exact (Hend REACT Reacted e (or_introl (conj eq_refl eq_refl)) eq_refl eq_refl eq_refl) ] end.
Qed.

Lemma same_scene_part T K a b : same_scene T K b -> (forall e, In e a -> In e b) -> same_scene T K a.
Proof. intros [H1 H2] Hin. split; [exact H1|]. intros e n He. apply H2. now apply Hin. Qed.

Lemma loop_tally T K node rc k b ms m us : kr_node k = node -> kr_rec k = rc -> (forall n p, t_w2l T n p = to_point (k_w2l K n) p) ->
  forall fuel count log r prev log' ts st, direction prev = direction r ->
  k_loop fuel K (Some b) ms m us count log r = (log', ts, st) ->
  exists evs, log' = log ++ evs /\ (Forall two_sided evs -> same_scene T K evs -> match_values T node rc (Some prev) evs = call_hits k ts).
Proof.
  intros Hk Hr Hw. induction fuel as [|fuel IH]; intros count log r prev log' ts st Hd E.
  - simpl in E. injection E as <- <- <-. exists []. split; [now rewrite app_nil_r|reflexivity].
  - cbn [k_loop] in E. destruct (budget_spent (Some b) log) eqn:Eb.
    + injection E as <- <- <-. unfold record. destruct (Nat.leb b (length log)).
      * exists []. split; [now rewrite app_nil_r|reflexivity].
      * eexists. split; [reflexivity|]. intros _ _. apply no_match. intros sel. unfold matches. destruct sel; reflexivity.
    + simpl in Eb. apply Nat.leb_gt in Eb. pose proof (k_pass_shape K ms m (us (S count)) (S count) r) as Hs.
      pose proof (pass_tally T K node rc k ms m (us (S count)) (S count) r prev Hk Hr Hd Hw) as Hp.
      destruct (k_pass K ms m (us (S count)) (S count) r) as [evs1 ts1|evs1 ts1 r'|].
      * injection E as <- <- <-. rewrite fill_log by lia. exists evs1. split; [reflexivity|exact Hp].
      * rewrite fill_log in E by lia. destruct (k_loop fuel K (Some b) ms m us (S count) (log ++ evs1) r') as [[l2 t2] s2] eqn:E2.
        injection E as <- <- <-. destruct Hp as (l & e & El & Hdir & Hp).
        destruct (IH _ _ _ (e_ray e) _ _ _ Hdir E2) as (evs2 & -> & H2).
        exists (evs1 ++ evs2). split; [now rewrite app_assoc|]. intros Hf Hsc. apply Forall_app in Hf. destruct Hf as [F1 F2].
        rewrite mv_app, (Hp F1), El, rev_app_distr. simpl. rewrite H2; [|assumption|].
        -- unfold call_hits. now rewrite filter_app, map_app.
        -- eapply same_scene_part; [exact Hsc|]. intros x Hx. apply in_or_app. now right.
      * injection E as <- <- <-. exists []. split; [now rewrite app_nil_r|reflexivity].
Qed.

Lemma trace_tally T K node rc k fuel b ms m us r log ts st : kr_node k = node -> kr_rec k = rc -> (1 <= b)%nat ->
  trace_one fuel K (Some b) ms m us r = (log, ts, st) -> same_scene T K log -> Forall two_sided log ->
  match_values T node rc None log = call_hits k ts.
Proof.
  intros Hk Hr Hb E Hs Hf. unfold trace_one in E.
  assert (G : record (Some b) [] (Event GENERATE r None None None None None) = [Event GENERATE r None None None None None]).
  { unfold record. simpl. destruct b; [lia|reflexivity]. }
  rewrite G in E. destruct (loop_tally T K node rc k b ms m us Hk Hr (proj1 Hs) fuel 0 _ r r log ts st eq_refl E) as (evs & -> & H).
  rewrite mv_app. simpl rev. cbv iota. rewrite no_match by reflexivity. cbn [app e_ray]. apply H.
  - apply Forall_app in Hf. apply Hf.
  - eapply same_scene_part; [exact Hs|]. intros x Hx. apply in_or_app. now right.
Qed.

(** One ray of a bundle: its fuel, draws and starting ray. *)
Record task := Task { tk_fuel : nat; tk_draws : nat -> draws; tk_ray : ray }.
Definition run_task (K : kscene) (budget : option nat) (ms : nat) (m : emit_method) (t : task) :=
  trace_one (tk_fuel t) K budget ms m (tk_draws t) (tk_ray t).

(** The result of every recorder (rays, crossings, moments and bins) is the one that
    tally_histories computes from the logged histories, also for rays cut short by the
    event budget. *)
Theorem C18_tallies_agree_partial : forall T K rs ks rows total r node rc k max_events ms m tasks s,
  NoDup (map (fun p => rec_name (snd p)) rs) ->
  kernel_tables rs = (ks, rows, total) -> nth_error rs r = Some (node, rc) -> nth_error ks r = Some k ->
  (1 <= max_events)%nat ->
  let runs := map (run_task K (Some max_events) ms m) tasks in
  (forall x, In x runs -> same_scene T K (log_of x) /\ Forall two_sided (log_of x)) ->
  In (node, rc, s) (tally_histories T rs (map log_of runs)) ->
  engine_result rows k r (fold_left (fun A calls => tally_ray rows ks calls A) (map tallies_of runs) acc0) = state_result s.
Proof.
  intros T K rs ks rows total r node rc k b ms m tasks s Hnd Et Hr Hk Hb runs Hall Hin.
  rewrite (engine_result_spec rs ks rows total r node rc k _ Et Hr Hk).
  destruct (tables_ok rs ks rows total Et) as (_ & _ & _ & Hks & _). specialize (Hks r node rc Hr). rewrite Hk in Hks. injection Hks as ->.
  set (k := KRec node rc _ _) in *.
  assert (Hv : map (match_values T node rc None) (map log_of runs) = map (call_hits k) (map tallies_of runs)).
  { rewrite !map_map. apply map_ext_in. intros x Hx. destruct (Hall x Hx) as [Hs Hf].
    unfold runs in Hx. apply in_map_iff in Hx. destruct Hx as (t & Ex & _).
    destruct x as [[log ts] st]. unfold run_task in Ex.
    now apply (trace_tally T K node rc k (tk_fuel t) b ms m (tk_draws t) (tk_ray t) log ts st). }
  rewrite tally_histories_spec in Hin by assumption. apply in_map_iff in Hin. destruct Hin as ([n' r'] & E & Hin). injection E as -> -> <-.
  destruct (slot_result T node rc (map log_of runs)) as (E1 & E2 & E3 & E4). unfold state_result. rewrite E1, E2, E3, E4, acc_moments, acc_bins.
  unfold recorded. rewrite Hv. fold (k_recorded k (map tallies_of runs)). f_equal.
  rewrite !flat_map_concat_map. now rewrite Hv.
Qed.
Print Assumptions C18_tallies_agree_partial.

(** A ray inside an object that lies outside the world is killed at its surface.  The log
    has a KILL in that object, which tally_histories counts; the kernel does not. *)
Definition k_outside : kscene :=
  KScene 2 0 (fun n => match n with O => rid | _ => Rigid mid (V 100 0 0) end) (fun n => match n with O => rid | _ => Rigid mid (V (-100) 0 0) end)
    (fun n => match n with O => Sphere 10 | _ => Sphere 1 end) (fun _ => 1) (fun _ => false) (fun _ => []).
Definition outside_ray : ray := Ray (V 100 0 0) (V 1 0 0) 555 0 0 (Light 0).
Lemma k_outside_hit : k_next_hit k_outside (V 100 0 0) (V 1 0 0) = Some (1%nat, 1%nat, None, 1).
Proof.
  assert (H0 : node_ts k_outside (V 100 0 0) (V 1 0 0) 0 = []).
  { unfold node_ts. cbn [k_shape k_outside k_w2l]. rewrite to_point_rid, to_vector_rid. cbn [intersect_node].
    unfold k_intersect_sphere, dot; cbn [vx vy vz]. cbv zeta.
    match goal with |- context [Rltb ?a 0] => replace a with (20 * 20) by ring end.
    rewrite sqrt_square by lra. rewrite (proj2 (Rltb_false _ 0)) by lra.
    pose proof EPS_pos. rewrite !(proj2 (Rltb_false EPS_ZERO _)) by lra. reflexivity. }
  assert (H1 : node_ts k_outside (V 100 0 0) (V 1 0 0) 1 = [1]).
  { unfold node_ts. cbn [k_shape k_outside k_w2l]. replace (to_point (Rigid mid (V (-100) 0 0)) (V 100 0 0)) with (V 0 0 0).
    2:{ unfold to_point, mvec, dot, vadd, mid; simpl. f_equal; ring. }
    replace (to_vector (Rigid mid (V (-100) 0 0)) (V 1 0 0)) with (V 1 0 0).
    2:{ unfold to_vector, mvec, dot, mid; simpl. f_equal; ring. }
    cbn [intersect_node]. apply k_axis_sphere. lra. }
  unfold k_next_hit, hit_table, all_hits. cbn [k_nodes k_outside seq flat_map]. rewrite H0, H1. reflexivity.
Qed.
Theorem C18_tallies_agree_refuted : exists T K rs ks rows total r node rc k max_events ms m tasks s,
  let runs := map (run_task K (Some max_events) ms m) tasks in
  NoDup (map (fun p => rec_name (snd p)) rs) /\
  kernel_tables rs = (ks, rows, total) /\ nth_error rs r = Some (node, rc) /\ nth_error ks r = Some k /\
  (100 <= max_events)%nat /\ (forall x, In x runs -> same_scene T K (log_of x) /\ status_of x = KDone) /\
  In (node, rc, s) (tally_histories T rs (map log_of runs)) /\
  r_rays (engine_result rows k r (fold_left (fun A calls => tally_ray rows ks calls A) (map tallies_of runs) acc0)) = 0%nat /\ s_rays s = 1%nat.
Proof.
  set (T := TScene (fun n => to_point (k_w2l k_outside n)) (fun _ p => p)).
  set (rc := Recorder 0 Killed None 0 []). set (tk := Task 2 (fun _ => mid_draws) outside_ray).
  assert (E : run_task k_outside (Some 100%nat) 50 KT tk =
    ([Event GENERATE outside_ray None None None None None;
      Event KILL (k_propagate outside_ray 1 1) (Some 1%nat) (Some 1%nat) None None None], [], KDone)).
  { unfold run_task, trace_one. cbn [tk_fuel tk_ray tk_draws tk k_loop]. cbn [record length Nat.leb app budget_spent Nat.add].
    unfold k_pass. change (position outside_ray) with (V 100 0 0). change (direction outside_ray) with (V 1 0 0). rewrite k_outside_hit.
    cbn [Nat.ltb Nat.leb Nat.eqb k_root k_outside k_comps map]. 
    assert (Hd : k_depth (k_total [] (wavelength outside_ray)) (u_depth mid_draws) = Infinite).
    { unfold k_depth, k_total. simpl. rewrite (proj2 (Rltb_false _ _)); [reflexivity|]. unfold alpha_tol. lra. }
    rewrite Hd. unfold k_surface. reflexivity. }
  exists T, k_outside, [(1%nat, rc)], [KRec 1 rc 0 0], [], 0%nat, 0%nat, 1%nat, rc, (KRec 1 rc 0 0), 100%nat, 50%nat, KT, [tk].
  eexists. cbv zeta. cbn [map]. rewrite E. cbn [log_of tallies_of fst snd].
  split; [constructor; [easy|constructor]|]. split; [reflexivity|]. split; [reflexivity|]. split; [reflexivity|]. split; [lia|].
  split.
  { intros x [<-|[]]. split; [|reflexivity]. split; [reflexivity|]. intros e n [<-|[<-|[]]]; discriminate. }
  split; [|split].
  - rewrite tally_histories_spec by (constructor; [easy|constructor]). left. reflexivity.
  - reflexivity.
  - destruct (slot_result T 1 rc [[Event GENERATE outside_ray None None None None None;
      Event KILL (k_propagate outside_ray 1 1) (Some 1%nat) (Some 1%nat) None None None]]) as (H & _). rewrite H. reflexivity.
Qed.
Print Assumptions C18_tallies_agree_refuted.

(** ** C19 *)
Lemma up_spec x z : IZR z <= x < IZR z + 1 -> up x = (z + 1)%Z.
Proof. intros H. symmetry. apply tech_up; rewrite plus_IZR; simpl; lra. Qed.
Lemma trunc_nonneg x z : 0 <= x -> IZR z <= x < IZR z + 1 -> trunc x = z.
Proof. intros H0 H. unfold trunc. rewrite (proj2 (Rleb_true 0 x) H0), (up_spec x z H). lia. Qed.
Lemma trunc_neg x : x < 0 -> trunc x = (- (up (- x) - 1))%Z.
Proof. intros H. unfold trunc. rewrite (proj2 (Rleb_false 0 x) H). lia. Qed.
Lemma floor_exists x : exists z, IZR z <= x < IZR z + 1.
Proof. destruct (archimed x) as [A B]. exists (up x - 1)%Z. rewrite minus_IZR. lra. Qed.

Definition width (h : histogram) : R := (h_stop h - h_start h) / INR (h_bins h).

Lemma width_pos h : valid_histogram h -> 0 < width h /\ 0 < INR (h_bins h).
Proof.
  intros [H1 H2]. assert (0 < INR (h_bins h)) by (apply lt_0_INR; lia). split; [|assumption].
  unfold width, Rdiv. apply Rmult_lt_0_compat; [lra|]. now apply Rinv_0_lt_compat.
Qed.
Lemma scaled h v : valid_histogram h -> (v - h_start h) / (h_stop h - h_start h) * INR (h_bins h) = (v - h_start h) / width h.
Proof. intros H. destruct (width_pos h H). destruct H. unfold width. field. split; lra. Qed.
Lemma scaled_bounds h v z : valid_histogram h -> (IZR z <= (v - h_start h) / width h < IZR z + 1 <-> h_start h + IZR z * width h <= v < h_start h + (IZR z + 1) * width h).
Proof.
  intros H. destruct (width_pos h H) as [W _]. set (x := (v - h_start h) / width h).
  assert (E : v = h_start h + x * width h) by (unfold x; field; lra). rewrite E at 1 2. split; intros [A B]; split; nra.
Qed.

(** The real values counted in bin [i]. *)
Lemma bin_index_exact h v : valid_histogram h ->
  (h_start h <= v -> forall i, bin_index v h = Some i <-> (i < h_bins h)%nat /\ h_start h + INR i * width h <= v < h_start h + (INR i + 1) * width h) /\
  (v < h_start h -> forall i, bin_index v h = Some i <-> i = 0%nat /\ h_start h - width h < v).
Proof.
  intros H. destruct (width_pos h H) as [W B]. unfold bin_index. rewrite scaled by assumption. set (x := (v - h_start h) / width h).
  assert (E : v = h_start h + x * width h) by (unfold x; field; lra).
  split; intros Hv i.
  - assert (Hx : 0 <= x) by (apply Rmult_le_reg_r with (width h); [assumption|]; lra).
    destruct (floor_exists x) as [z Hz]. rewrite (trunc_nonneg x z Hx Hz).
    assert (0 <= z)%Z by (assert (-1 < z)%Z by (apply lt_IZR; lra); lia).
    pose proof (proj1 (scaled_bounds h v z H) Hz) as Hb.
    replace (0 <=? z)%Z with true by (symmetry; apply Z.leb_le; lia). cbn [andb].
    assert (U : forall j, h_start h + INR j * width h <= v < h_start h + (INR j + 1) * width h -> Z.to_nat z = j).
    { intros j Hj. rewrite INR_IZR_INZ in Hj. apply (proj2 (scaled_bounds h v _ H)) in Hj. fold x in Hj.
      assert (z < Z.of_nat j + 1)%Z by (apply lt_IZR; rewrite plus_IZR; lra). assert (Z.of_nat j < z + 1)%Z by (apply lt_IZR; rewrite plus_IZR; lra). lia. }
    assert (I : INR (Z.to_nat z) = IZR z) by (rewrite INR_IZR_INZ, Z2Nat.id; [reflexivity|lia]).
    split.
    + destruct (Z.ltb_spec z (Z.of_nat (h_bins h))); [|discriminate]. intros Hi. injection Hi as <-. split; [lia|]. now rewrite I.
    + intros [Hi Hj]. rewrite (U i Hj). assert (z < Z.of_nat (h_bins h))%Z by (rewrite <- (U i Hj) in Hi; lia).
      now replace (z <? Z.of_nat (h_bins h))%Z with true by (symmetry; apply Z.ltb_lt; lia).
  - assert (Hx : x < 0) by (apply Rmult_lt_reg_r with (width h); [assumption|]; lra).
    rewrite (trunc_neg x Hx). destruct (floor_exists (- x)) as [z Hz]. rewrite (up_spec _ z Hz).
    assert (0 <= z)%Z by (assert (-1 < z)%Z by (apply lt_IZR; lra); lia).
    replace (- (z + 1 - 1))%Z with (- z)%Z by lia. split.
    + destruct (Z.leb_spec 0 (- z)); [|discriminate]. assert (z = 0)%Z by lia. subst z. cbn [Z.opp andb].
      destruct (0 <? _)%Z; [|discriminate]. intros Hi. injection Hi as <-. split; [reflexivity|]. nra.
    + intros [-> Hlt]. assert (z = 0)%Z.
      { assert (z < 1)%Z; [|lia]. apply lt_IZR. apply Rle_lt_trans with (- x); [lra|]. apply Rmult_lt_reg_r with (width h); [assumption|]. nra. }
      subst z. cbn [Z.opp Z.leb Z.compare andb]. destruct H as [_ Hn].
      now replace (0 <? Z.of_nat (h_bins h))%Z with true by (symmetry; apply Z.ltb_lt; lia).
Qed.

(** int() truncates towards zero: the position -1/2 is counted in the first bin of
    Histogram("x", 0, 10, 10), and this histogram is used as it is by both engines. *)
Theorem C19_bin_contains_value_refuted : exists v h i, valid_histogram h /\ bin_index v h = Some i /\ v < h_start h.
Proof.
  exists (- (1/2)), (Histogram PX 0 10 10), 0%nat. assert (H : valid_histogram (Histogram PX 0 10 10)) by (split; simpl; [lra|lia]).
  split; [exact H|]. split; [|simpl; lra]. apply (proj2 (bin_index_exact _ (- (1/2)) H)); [simpl; lra|]. split; [reflexivity|].
  unfold width. cbn [h_start h_stop h_bins]. rewrite INR_IZR_INZ. cbn [Z.of_nat Pos.of_succ_nat Pos.succ]. lra.
Qed.
Print Assumptions C19_bin_contains_value_refuted.

(** Exactly the values of [start, stop) and of the interval of one width below start are
    counted; from the second bin on, and for values not below start, the bin is right. *)
Theorem C19_bin_contains_value_partial : forall v h, valid_histogram h ->
  (forall i, bin_index v h = Some i -> (i < h_bins h)%nat /\
     (h_start h <= v \/ (1 <= i)%nat -> h_start h + INR i * width h <= v < h_start h + (INR i + 1) * width h) /\
     h_start h - width h < v < h_stop h) /\
  (h_start h <= v < h_stop h -> exists i, bin_index v h = Some i) /\
  (h_stop h <= v -> bin_index v h = None).
Proof.
  intros v h H. destruct (width_pos h H) as [W B]. destruct (bin_index_exact h v H) as [P N].
  assert (Est : h_stop h = h_start h + INR (h_bins h) * width h) by (unfold width; field; lra).
  assert (Hlt : forall i, (i < h_bins h)%nat -> INR i + 1 <= INR (h_bins h)) by (intros i Hi; rewrite <- S_INR; apply le_INR; lia).
  split; [|split].
  - intros i Hi. destruct (Rle_lt_dec (h_start h) v) as [L|L].
    + destruct (proj1 (P L i) Hi) as [H1 H2]. split; [assumption|]. split; [intros _; assumption|]. split; [lra|]. specialize (Hlt i H1). nra.
    + destruct (proj1 (N L i) Hi) as [-> H2]. destruct H as [H3 H4]. split; [lia|]. split; [intros [?|?]; [lra|lia]|]. split; [assumption|lra].
  - intros [L1 L2]. destruct (floor_exists ((v - h_start h) / width h)) as [z Hz].
    pose proof (proj1 (scaled_bounds h v z H) Hz) as Hb.
    assert (0 <= z)%Z.
    { assert (-1 < z)%Z; [|lia]. apply lt_IZR. nra. }
    assert (I : INR (Z.to_nat z) = IZR z) by (rewrite INR_IZR_INZ, Z2Nat.id; [reflexivity|lia]).
    exists (Z.to_nat z). apply (P L1). rewrite I. split; [|assumption].
    apply INR_lt. rewrite I. nra.
  - intros L. destruct H as [H1 H2]. destruct (bin_index v h) as [i|] eqn:E; [|reflexivity]. exfalso.
    destruct (proj1 (P ltac:(lra) i) eq_refl) as [A1 A2]. specialize (Hlt i A1). nra.
Qed.
Print Assumptions C19_bin_contains_value_partial.

Example C19_example : bin_index 555 (Histogram PWavelength 400 800 100) = Some 38%nat.
Proof.
  assert (H : valid_histogram (Histogram PWavelength 400 800 100)) by (split; simpl; [lra|lia]).
  apply (proj1 (bin_index_exact _ 555 H)); [simpl; lra|]. split; [simpl; lia|]. unfold width. cbn [h_start h_stop h_bins].
  rewrite !INR_IZR_INZ. cbn [Z.of_nat Pos.of_succ_nat Pos.succ]. split; lra.
Qed.

(** ** C20 *)
Definition row_slice (row : hrow) (x : nat) : Prop := (hr_offset row <= x < hr_offset row + hr_na row * hr_nb row)%nat.

Lemma nth_error_nth' {A} (l : list A) i d x : nth_error l i = Some x -> nth i l d = x.
Proof. revert i. induction l as [|y l IH]; intros [|i] H; simpl in *; try discriminate; [congruence|auto]. Qed.

Lemma rows_nth l o i row : nth_error (fst (hist_rows l o)) i = Some row -> exists s, nth_error l i = Some s /\ row = fst (hist_row s (off l o i)).
Proof.
  intros H. destruct (hist_rows_spec l o) as (L & _ & N). destruct (nth_error l i) as [s|] eqn:E.
  - exists s. split; [reflexivity|]. rewrite <- (N i s default_row E). now apply (nth_error_nth' _ i default_row) in H.
  - apply nth_error_None in E. assert (i < length (fst (hist_rows l o)))%nat by (apply nth_error_Some; congruence). lia.
Qed.

Lemma cover l : forall o x, (o <= x < o + size_sum l)%nat -> exists i s, nth_error l i = Some s /\ (off l o i <= x < off l o i + bins_size s)%nat.
Proof.
  induction l as [|s l IH]; intros o x Hx.
  - unfold size_sum in Hx. simpl in Hx. lia.
  - assert (E : size_sum (s :: l) = (bins_size s + size_sum l)%nat) by reflexivity.
    destruct (le_lt_dec (o + bins_size s) x).
    + destruct (IH (o + bins_size s)%nat x ltac:(lia)) as (i & t & Hi & Hb). exists (S i), t. split; [exact Hi|].
      unfold off in *. simpl firstn. change (size_sum (s :: firstn i l)) with (bins_size s + size_sum (firstn i l))%nat. lia.
    + exists 0%nat, s. split; [reflexivity|]. unfold off. simpl firstn. change (size_sum []) with 0%nat. lia.
Qed.

(** The slices of the table's rows partition [0, total); and each recorder's rows are
    those of its own histograms. *)
Theorem C20_slices_partition : forall rs ks rows total, kernel_tables rs = (ks, rows, total) ->
  (forall i j a b x, nth_error rows i = Some a -> nth_error rows j = Some b -> row_slice a x -> row_slice b x -> i = j) /\
  (forall x, (x < total)%nat <-> exists i row, nth_error rows i = Some row /\ row_slice row x) /\
  (forall r node rc h s, nth_error rs r = Some (node, rc) -> nth_error (rec_hists rc) h = Some s ->
     exists k row, nth_error ks r = Some k /\ kr_n k = length (rec_hists rc) /\ nth_error rows (kr_start k + h) = Some row /\
       (hr_na row * hr_nb row)%nat = bins_size s /\
       match s with H1 a => hr_a row = a /\ hr_b row = None | H2 a b => hr_a row = a /\ hr_b row = Some b end) /\
  (forall r r' k k' h h', nth_error ks r = Some k -> nth_error ks r' = Some k' -> (h < kr_n k)%nat -> (h' < kr_n k')%nat ->
     (kr_start k + h = kr_start k' + h')%nat -> r = r' /\ h = h').
Proof.
  intros rs ks rows total E. destruct (tables_ok rs ks rows total E) as (-> & -> & Lk & Hks & Hlen & Hsep).
  set (H := specs rs) in *. split; [|split; [|split]].
  - intros i j a b x Ha Hb Sa Sb. destruct (rows_nth _ _ _ _ Ha) as (s & Hs & ->). destruct (rows_nth _ _ _ _ Hb) as (t & Ht & ->).
    unfold row_slice in *. destruct (row_size s (off H 0 i)) as [R1 R2]. destruct (row_size t (off H 0 j)) as [R3 R4].
    rewrite R1, R2 in Sa. rewrite R3, R4 in Sb.
    apply (off_disjoint H 0 i j s t (x - off H 0 i) (x - off H 0 j) Hs Ht); lia.
  - intros x. split.
    + intros Hx. destruct (cover H 0 x ltac:(lia)) as (i & s & Hi & Hb). destruct (hist_rows_spec H 0) as (L & _ & N).
      exists i, (fst (hist_row s (off H 0 i))). split.
      * assert (i < length (fst (hist_rows H 0)))%nat by (rewrite L; apply nth_error_Some; congruence).
        destruct (nth_error (fst (hist_rows H 0)) i) as [row|] eqn:En; [|apply nth_error_None in En; lia].
        apply (nth_error_nth' _ i default_row) in En. rewrite <- En. f_equal. now apply N.
      * unfold row_slice. destruct (row_size s (off H 0 i)) as [-> ->]. lia.
    + intros (i & row & Hi & Hs). destruct (rows_nth _ _ _ _ Hi) as (s & Hn & ->). unfold row_slice in Hs.
      destruct (row_size s (off H 0 i)) as [R1 R2]. rewrite R1, R2 in Hs. pose proof (off_bound H 0 i s Hn). lia.
  - intros r node rc h s Hr Hh. exists (KRec node rc (first_hist rs r) (length (rec_hists rc))).
    pose proof (nth_specs rs r node rc h s Hr Hh) as Hs. destruct (hist_rows_spec H 0) as (L & _ & N).
    exists (fst (hist_row s (off H 0 (first_hist rs r + h)))). split; [now apply Hks|]. split; [reflexivity|]. cbn [kr_start]. split.
    + assert (first_hist rs r + h < length (fst (hist_rows H 0)))%nat by (rewrite L; apply nth_error_Some; unfold H; congruence).
      destruct (nth_error (fst (hist_rows H 0)) (first_hist rs r + h)) as [row|] eqn:En; [|apply nth_error_None in En; lia].
      apply (nth_error_nth' _ _ default_row) in En. rewrite <- En. f_equal. now apply N.
    + split; [apply row_size|]. destruct s; simpl; auto.
  - intros r r' k k' h h' Hk Hk' Hh Hh' Heq.
    assert (r = r') by (apply (Hsep r r' k k' (kr_start k + h)%nat Hk Hk'); unfold owns; lia). subst r'. split; [reflexivity|]. assert (k = k') by congruence. subst. lia.
Qed.
Print Assumptions C20_slices_partition.

(** Distinct pairs of bins of a heatmap use distinct cells of its slice. *)
Theorem C20_heatmap_cells : forall row ia ib ja jb, (ia < hr_na row)%nat -> (ja < hr_na row)%nat -> (ib < hr_nb row)%nat -> (jb < hr_nb row)%nat ->
  row_slice row (hr_offset row + ia * hr_nb row + ib) /\
  ((hr_offset row + ia * hr_nb row + ib = hr_offset row + ja * hr_nb row + jb)%nat -> ia = ja /\ ib = jb).
Proof.
  intros row ia ib ja jb H1 H2 H3 H4. unfold row_slice. split; [nia|]. intros E.
  assert (ia = ja) by (destruct (lt_eq_lt_dec ia ja) as [[?|?]|?]; [nia|assumption|nia]). subst. split; [reflexivity|lia].
Qed.
Print Assumptions C20_heatmap_cells.

(** A ray changes a cell only if the cell is in the slice of a histogram of a recorder
    that the ray matched. *)
Theorem C20_increments_stay_in_slice : forall rs ks rows total calls A x, kernel_tables rs = (ks, rows, total) ->
  a_bins (tally_ray rows ks calls A) x <> a_bins A x ->
  (x < total)%nat /\
  exists k c h row, In k ks /\ In c calls /\ call_matches k c = true /\ (h < kr_n k)%nat /\
    nth_error rows (kr_start k + h) = Some row /\ row_slice row x.
Proof.
  intros rs ks rows total calls A x E Hne.
  destruct (tables_ok rs ks rows total E) as (Er & Et & Lk & Hks & Hlen & Hsep).
  assert (G : exists k c h row, In k ks /\ In c calls /\ call_matches k c = true /\ (h < kr_n k)%nat /\
    nth_error rows (kr_start k + h) = Some row /\ row_slice row x).
  { unfold tally_ray in Hne. revert Hne. change A with (snd (fun _ : nat => false, A)) at 2. generalize ((fun _ : nat => false), A) as st.
    induction calls as [|c calls IH]; intros st Hne; [now contradict Hne|]. cbn [fold_left] in Hne.
    destruct (Nat.eq_dec (a_bins (snd (tally rows ks c st)) x) (a_bins (snd st) x)) as [Eq|Ne].
    - rewrite <- Eq in Hne. destruct (IH _ Hne) as (k & c' & h & row & H1 & H2 & H3). exists k, c', h, row. split; [assumption|]. split; [now right|assumption].
    - assert (L : exists k h row, In k ks /\ call_matches k c = true /\ (h < kr_n k)%nat /\ nth_error rows (kr_start k + h) = Some row /\ row_slice row x).
      { clear IH Hne. unfold tally in Ne. clear Hsep Hks E Lk. revert Ne. generalize 0%nat as r. revert st.
        induction ks as [|k ks' IHk]; intros st r Ne; [now contradict Ne|]. rewrite loop_cons in Ne.
        destruct (Nat.eq_dec (a_bins (snd (one rows c k r st)) x) (a_bins (snd st) x)) as [Eq|Ne'].
        - rewrite <- Eq in Ne. destruct (IHk (fun k' Hin => Hlen k' (or_intror Hin)) _ _ Ne) as (k' & h & row & H1 & H2).
          exists k', h, row. split; [now right|assumption].
        - exists k. clear IHk Ne. assert (Hl := Hlen k (or_introl eq_refl)). unfold one in Ne'. destruct st as [seen B]. cbn [tally_loop snd] in Ne'.
          destruct (call_matches k c) eqn:Em; [|now contradict Ne']. destruct (seen r); [now contradict Ne'|]. cbn [snd a_bins] in Ne'.
          revert Ne' Hl. set (v := call_values c). generalize (a_bins B) as bins. generalize (kr_start k) as start. generalize (kr_n k) as n.
          induction n as [|n IHn]; intros start bins Ne' Hl; [now contradict Ne'|]. cbn [seq fold_left] in Ne'.
          destruct (Nat.eq_dec (tally_row v (nth start rows default_row) bins x) (bins x)) as [Eq|Ne].
          + rewrite <- Eq in Ne'. destruct (IHn (S start) _ Ne' ltac:(lia)) as (h & row & H1 & H2 & H3 & H4 & H5).
            exists (S h), row. split; [assumption|]. split; [assumption|]. split; [lia|]. split; [|assumption].
            replace (start + S h)%nat with (S start + h)%nat by lia. assumption.
          + exists 0%nat. destruct (nth_error (specs rs) start) as [s|] eqn:Es; [|apply nth_error_None in Es; lia].
            destruct (hist_rows_spec (specs rs) 0) as (L & _ & N). subst rows. rewrite (N start s default_row Es) in Ne.
            exists (fst (hist_row s (off (specs rs) 0 start))). split; [now left|]. split; [reflexivity|]. split; [lia|]. rewrite Nat.add_0_r. split.
            * assert (start < length (fst (hist_rows (specs rs) 0)))%nat by (rewrite L; apply nth_error_Some; congruence).
              destruct (nth_error (fst (hist_rows (specs rs) 0)) start) as [row|] eqn:En; [|apply nth_error_None in En; lia].
              apply (nth_error_nth' _ _ default_row) in En. rewrite <- En. f_equal. now apply N.
            * rewrite tally_row_spec in Ne. destruct (cell v s) as [y|] eqn:Ey; [|now contradict Ne]. unfold upd in Ne.
              destruct (Nat.eqb_spec x (off (specs rs) 0 start + y)) as [->|]; [|now contradict Ne].
              unfold row_slice. destruct (row_size s (off (specs rs) 0 start)) as [-> ->]. apply cell_lt in Ey. lia. }
      destruct L as (k & h & row & H1 & H2 & H3). exists k, c, h, row. split; [assumption|]. split; [now left|]. split; assumption. }
  split; [|exact G]. destruct G as (k & c & h & row & _ & _ & _ & _ & Hn & Hs).
  apply (proj1 (proj2 (C20_slices_partition rs ks rows total E))). now exists (kr_start k + h)%nat, row.
Qed.
Print Assumptions C20_increments_stay_in_slice.

Example C20_example : let h n := Histogram PX 0 1 n in
  exists ks, kernel_tables [(0%nat, Recorder 0 Entering None 0 [H1 (h 3%nat); H2 (h 2%nat) (h 4%nat)]); (1%nat, Recorder 1 Lost None 0 [H1 (h 5%nat)])] =
    (ks, [HRow (h 3%nat) None 1 0; HRow (h 2%nat) (Some (h 4%nat)) 4 3; HRow (h 5%nat) None 1 11], 16%nat) /\ map kr_start ks = [0%nat; 2%nat].
Proof. simpl. eexists. split; reflexivity. Qed.

(** ** C21 *)
(** The value recorded for a history: that of its first matching event, with the ray
    before it. *)
Inductive first_match (T : tscene) (node : nat) (r : recorder) : list event -> option values -> Prop :=
| fm_none h : (forall e, In e h -> ~ (selected (rec_event r) node e /\ on_facet r (event_normal T node e))) -> first_match T node r h None
| fm_first e post : selected (rec_event r) node e -> on_facet r (event_normal T node e) ->
    first_match T node r (e :: post) (Some (event_values T node None e))
| fm_later pre a e post : (forall e', In e' (pre ++ [a]) -> ~ (selected (rec_event r) node e' /\ on_facet r (event_normal T node e'))) ->
    selected (rec_event r) node e -> on_facet r (event_normal T node e) ->
    first_match T node r (pre ++ a :: e :: post) (Some (event_values T node (Some (e_ray a)) e)).
Definition somes {A} (os : list (option A)) : list A := flat_map (fun o => match o with Some x => [x] | None => [] end) os.

Lemma mv_none T node r l : (forall e, In e l -> ~ (selected (rec_event r) node e /\ on_facet r (event_normal T node e))) ->
  forall prev, match_values T node r prev l = [].
Proof.
  induction l as [|e l IH]; intros H prev; [reflexivity|]. simpl. destruct (slot_matches T node r e) eqn:E.
  - exfalso. apply (H e (or_introl eq_refl)). now apply slot_matches_spec.
  - apply IH. intros e' Hin. apply H. now right.
Qed.
Lemma first_match_spec T node r h o : first_match T node r h o ->
  match match_values T node r None h with [] => o = None | v :: _ => o = Some v end.
Proof.
  intros [l H|e post H1 H2|pre a e post H H1 H2].
  - now rewrite mv_none.
  - simpl. rewrite (proj2 (slot_matches_spec T node r e)) by now split. reflexivity.
  - replace (pre ++ a :: e :: post) with ((pre ++ [a]) ++ e :: post) by (now rewrite <- app_assoc).
    rewrite mv_app, mv_none, rev_app_distr by assumption. simpl.
    rewrite (proj2 (slot_matches_spec T node r e)) by now split. reflexivity.
Qed.
Lemma recorded_somes T node r hs os : Forall2 (first_match T node r) hs os -> recorded T node r hs = somes os.
Proof.
  intros F. unfold recorded. induction F as [|h o hs os H F IH]; [reflexivity|]. simpl. rewrite IH. apply first_match_spec in H.
  destruct (match_values T node r None h); subst; reflexivity.
Qed.
(** such values exist for all histories *)
Lemma first_match_total T node r h : exists o, first_match T node r h o.
Proof.
  assert (G : forall pre, (forall e', In e' pre -> ~ (selected (rec_event r) node e' /\ on_facet r (event_normal T node e'))) ->
    exists o, first_match T node r (pre ++ h) o).
  { induction h as [|e h IH]; intros pre Hp.
    - exists None. rewrite app_nil_r. now constructor.
    - destruct (slot_matches T node r e) eqn:E.
      + apply slot_matches_spec in E. destruct E as [E1 E2]. destruct pre as [|a pre _] using rev_ind.
        * eexists. now apply fm_first.
        * rewrite <- app_assoc. simpl. eexists. now apply fm_later.
      + destruct (IH (pre ++ [e])) as [o Ho].
        * intros e' Hin. apply in_app_or in Hin. destruct Hin as [Hin|[<-|[]]]; [now apply Hp|]. intros Hm. apply slot_matches_spec in Hm. congruence.
        * exists o. now rewrite <- app_assoc in Ho. }
  apply (G []). intros e [].
Qed.

Definition total_of (xs : list R) : R := fold_right Rplus 0 xs.
Definition average (xs : list R) : R := total_of xs / INR (length xs).
Definition variance (xs : list R) : R := average (map (fun x => (x - average xs) * (x - average xs)) xs).

Lemma total_shift m xs : total_of (map (fun x => (x - m) * (x - m)) xs) = total_of (map (fun x => x * x) xs) - 2 * m * total_of xs + INR (length xs) * (m * m).
Proof.
  induction xs as [|x xs IH]; [simpl; lra|]. unfold total_of in *. cbn [map fold_right length]. rewrite IH, S_INR. ring.
Qed.
Lemma total_nonneg xs : (forall x, In x xs -> 0 <= x) -> 0 <= total_of xs.
Proof. induction xs as [|x xs IH]; intros H; unfold total_of in *; simpl; [lra|]. assert (0 <= x) by (apply H; now left). assert (0 <= fold_right Rplus 0 xs) by (apply IH; intros; apply H; now right). lra. Qed.
Lemma variance_moments xs : xs <> [] ->
  variance xs = total_of (map (fun x => x * x) xs) / INR (length xs) - average xs * average xs /\ 0 <= variance xs.
Proof.
  intros Hne. assert (0 < INR (length xs)) by (apply lt_0_INR; destruct xs; [easy|simpl; lia]). split.
  - unfold variance. unfold average at 1. rewrite total_shift, map_length. unfold average. field. lra.
  - unfold variance. unfold average at 1. rewrite map_length. unfold Rdiv. apply Rmult_le_pos; [|left; now apply Rinv_0_lt_compat].
    apply total_nonneg. intros y Hy. apply in_map_iff in Hy. destruct Hy as (x & <- & _). apply Rle_0_sqr.
Qed.

(** What the statistics of a result say about the list [xs] of recorded values of moment
    [i]; nan when nothing was recorded. *)
Definition sample_statistics (x : result) (i : nat) (xs : list R) : Prop :=
  (xs = [] -> mean x i = None /\ std x i = None /\ error x i = None) /\
  (xs <> [] -> mean x i = Some (average xs) /\
    0 <= snd (moment x i) / INR (r_rays x) - average xs * average xs /\
    exists sd, std x i = Some sd /\ 0 <= sd /\ sd * sd = variance xs /\ error x i = Some (sd / sqrt (INR (length xs)))).

Lemma statistics_from_sums vs i p x : nth_error moment_props i = Some p -> r_rays x = length vs ->
  r_moments x = map (fun p => (sum_by (fun v => prop_value v p) vs, sum_by (fun v => prop_value v p * prop_value v p) vs)) moment_props ->
  sample_statistics x i (map (fun v => prop_value v p) vs).
Proof.
  intros Hi Hr Hm. set (xs := map (fun v => prop_value v p) vs).
  assert (Hl : length xs = length vs) by apply map_length.
  assert (E : moment x i = (total_of xs, total_of (map (fun x => x * x) xs))).
  { unfold moment. rewrite Hm. unfold xs. rewrite map_map.
    set (F := fun p0 => (sum_by (fun v => prop_value v p0) vs, sum_by (fun v => prop_value v p0 * prop_value v p0) vs)).
    transitivity (F p); [|reflexivity]. apply (nth_error_nth' _ i (0, 0)). now apply map_nth_error. }
  unfold sample_statistics. split.
  - intros Hnil. assert (r_rays x = 0%nat) by (rewrite Hr, <- Hl, Hnil; reflexivity).
    unfold mean, error, std. now rewrite H.
  - intros Hne. assert (Hz : Nat.eqb (r_rays x) 0 = false).
    { apply Nat.eqb_neq. rewrite Hr, <- Hl. destruct xs; [easy|discriminate]. }
    destruct (variance_moments xs Hne) as [V1 V2].
    assert (Em : fst (moment x i) / INR (r_rays x) = average xs) by (rewrite E, Hr, <- Hl; reflexivity).
    assert (Es : snd (moment x i) / INR (r_rays x) - average xs * average xs = variance xs) by (rewrite E, Hr, <- Hl; now rewrite V1).
    split; [unfold mean; now rewrite Hz, Em|]. split; [now rewrite Es|].
    exists (sqrt (variance xs)). unfold error, std. rewrite Hz. cbv zeta. rewrite Em, Es.
    rewrite Rmax_left by assumption. split; [reflexivity|]. split; [apply sqrt_pos|]. split; [now apply sqrt_sqrt|]. now rewrite Hr, <- Hl.
Qed.

Theorem C21_sample_statistics : forall T rs histories node r s os i p,
  NoDup (map (fun p => rec_name (snd p)) rs) -> In (node, r, s) (tally_histories T rs histories) ->
  Forall2 (first_match T node r) histories os -> nth_error moment_props i = Some p ->
  sample_statistics (state_result s) i (map (fun v => prop_value v p) (somes os)).
Proof.
  intros T rs hs node r s os i p Hnd Hin Hos Hi. rewrite tally_histories_spec in Hin by assumption.
  apply in_map_iff in Hin. destruct Hin as ([n' r'] & E & Hin). injection E as -> -> <-.
  destruct (slot_result T node r hs) as (E1 & E2 & E3 & E4). rewrite <- (recorded_somes T node r hs os Hos).
  apply statistics_from_sums; [assumption|exact E1|]. cbn [r_moments state_result]. rewrite E3. apply acc_moments.
Qed.
Print Assumptions C21_sample_statistics.

(** The first matching call of each ray. *)
Definition first_call (matching : tally_call -> bool) (calls : list tally_call) : option values := option_map call_values (find matching calls).
Lemma k_recorded_somes k matching rays : (forall c, call_matches k c = matching c) -> k_recorded k rays = somes (map (first_call matching) rays).
Proof.
  intros Hx. unfold k_recorded. induction rays as [|calls rays IH]; [reflexivity|].
  change (firsts (map (call_hits k) (calls :: rays))) with ((match call_hits k calls with [] => [] | v :: _ => [v] end) ++ firsts (map (call_hits k) rays)).
  rewrite IH. change (somes (map (first_call matching) (calls :: rays))) with ((match first_call matching calls with Some x => [x] | None => [] end) ++ somes (map (first_call matching) rays)).
  f_equal. unfold first_call, call_hits. induction calls as [|c calls IHc]; [reflexivity|]. simpl. rewrite Hx. destruct (matching c); [reflexivity|exact IHc].
Qed.
Lemma call_matching k node rc matching : kr_node k = node -> kr_rec k = rc ->
  (forall c, matching c = true <-> tc_node c = node /\ tc_sel c = rec_event rc /\ on_facet rc (tc_normal c)) ->
  forall c, call_matches k c = matching c.
Proof.
  intros Hn Hr Hm c. apply eq_true_iff_eq. rewrite Hm. unfold call_matches. rewrite Hn, Hr.
  rewrite !andb_true_iff, facet_spec, Nat.eqb_eq. assert (Hs : selector_eqb (rec_event rc) (tc_sel c) = true <-> tc_sel c = rec_event rc).
  { destruct (rec_event rc), (tc_sel c); simpl; split; intro; congruence || reflexivity. }
  rewrite Hs. intuition.
Qed.

Theorem C21_kernel_statistics : forall rs ks rows total r node rc k rays matching i p,
  kernel_tables rs = (ks, rows, total) -> nth_error rs r = Some (node, rc) -> nth_error ks r = Some k ->
  (forall c, matching c = true <-> tc_node c = node /\ tc_sel c = rec_event rc /\ on_facet rc (tc_normal c)) ->
  nth_error moment_props i = Some p ->
  sample_statistics (engine_result rows k r (fold_left (fun A calls => tally_ray rows ks calls A) rays acc0)) i
    (map (fun v => prop_value v p) (somes (map (first_call matching) rays))).
Proof.
  intros rs ks rows total r node rc k rays matching i p E Hr Hk Hm Hi.
  rewrite (engine_result_spec rs ks rows total r node rc k rays E Hr Hk).
  destruct (tables_ok rs ks rows total E) as (_ & _ & _ & Hks & _). specialize (Hks r node rc Hr). rewrite Hk in Hks. injection Hks as ->.
  rewrite <- (k_recorded_somes (KRec node rc (first_hist rs r) (length (rec_hists rc))) matching rays) by (apply (call_matching _ node rc); auto).
  now apply statistics_from_sums.
Qed.
Print Assumptions C21_kernel_statistics.

Example C21_example : average [1; 3] = 2 /\ variance [1; 3] = 1.
Proof. unfold variance, average, total_of; simpl. split; lra. Qed.

(** ** C22 *)
(** [v] is inside the range of the histogram, or of both axes of the heatmap. *)
Definition in_range (v : values) (s : hspec) : Prop :=
  let ok h := h_start h <= prop_value v (h_prop h) < h_stop h in
  match s with H1 h => ok h | H2 a b => ok a /\ ok b end.

Lemma in_range_cell v s : valid_hspec s -> in_range v s -> exists c, cell v s = Some c.
Proof.
  destruct s as [h|a b]; simpl.
  - intros H Hv. now apply (C19_bin_contains_value_partial _ h H).
  - intros [Ha Hb] [Va Vb]. destruct (proj1 (proj2 (C19_bin_contains_value_partial _ a Ha)) Va) as [i ->].
    destruct (proj1 (proj2 (C19_bin_contains_value_partial _ b Hb)) Vb) as [j ->]. eexists. reflexivity.
Qed.

Lemma list_sum_map_add {A} (f g : A -> nat) l : list_sum (map (fun x => f x + g x)%nat l) = (list_sum (map f l) + list_sum (map g l))%nat.
Proof. induction l as [|x l IH]; [reflexivity|]. unfold list_sum in *. simpl. rewrite IH. lia. Qed.
Lemma list_sum_indicator c n : list_sum (map (fun x => if Nat.eqb c x then 1 else 0)%nat (seq 0 n)) = if Nat.ltb c n then 1%nat else 0%nat.
Proof.
  induction n as [|n IH]; [reflexivity|]. rewrite seq_S, map_app, list_sum_app, IH. unfold list_sum; simpl.
  destruct (Nat.eqb_spec c n), (Nat.ltb_spec c n), (Nat.ltb_spec c (S n)); lia.
Qed.
Lemma mass vs s : list_sum (bins_of vs s) = length (filter (fun v => match cell v s with Some _ => true | None => false end) vs).
Proof.
  induction vs as [|v vs IH].
  - unfold bins_of, hits_in. simpl. induction (seq 0 (bins_size s)) as [|x l IHl]; [reflexivity|]. exact IHl.
  - unfold bins_of. assert (E : forall c, hits_in (v :: vs) s c = ((if match cell v s with Some x => Nat.eqb x c | None => false end then 1 else 0) + hits_in vs s c)%nat).
    { intros c. unfold hits_in. simpl. destruct (match cell v s with Some x => Nat.eqb x c | None => false end); reflexivity. }
    rewrite (map_ext _ _ E), list_sum_map_add. fold (bins_of vs s). rewrite IH. simpl. destruct (cell v s) as [c|] eqn:Ec.
    + rewrite list_sum_indicator. pose proof (cell_lt _ _ _ Ec). destruct (Nat.ltb_spec c (bins_size s)); [reflexivity|lia].
    + replace (list_sum (map (fun _ => 0%nat) (seq 0 (bins_size s)))) with 0%nat; [reflexivity|].
      induction (seq 0 (bins_size s)) as [|x l IHl]; [reflexivity|]. exact IHl.
Qed.
Lemma mass_bounds vs s : (list_sum (bins_of vs s) <= length vs)%nat /\
  (valid_hspec s -> (forall v, In v vs -> in_range v s) -> list_sum (bins_of vs s) = length vs).
Proof.
  rewrite mass. split; [apply filter_length|]. intros Hs Hv. f_equal. induction vs as [|v vs IH]; [reflexivity|]. simpl.
  destruct (in_range_cell v s Hs (Hv v (or_introl eq_refl))) as [c ->]. f_equal. apply IH. intros; apply Hv; now right.
Qed.

Theorem C22_histogram_mass : forall T rs histories node r s os h spec bins,
  NoDup (map (fun p => rec_name (snd p)) rs) -> In (node, r, s) (tally_histories T rs histories) ->
  Forall2 (first_match T node r) histories os ->
  nth_error (rec_hists r) h = Some spec -> nth_error (s_bins s) h = Some bins ->
  length bins = bins_size spec /\ (list_sum bins <= s_rays s)%nat /\
  (valid_hspec spec -> (forall v, In v (somes os) -> in_range v spec) -> list_sum bins = s_rays s).
Proof.
  intros T rs hs node r s os h spec bins Hnd Hin Hos Hh Hb. rewrite tally_histories_spec in Hin by assumption.
  apply in_map_iff in Hin. destruct Hin as ([n' r'] & E & Hin). injection E as -> -> <-.
  destruct (slot_result T node r hs) as (E1 & E2 & E3 & E4). rewrite E1. rewrite E4, acc_bins in Hb.
  rewrite (map_nth_error _ _ _ Hh) in Hb. injection Hb as <-. rewrite (recorded_somes T node r hs os Hos).
  split; [unfold bins_of; now rewrite map_length, seq_length|]. apply mass_bounds.
Qed.
Print Assumptions C22_histogram_mass.

Theorem C22_kernel_histogram_mass : forall rs ks rows total r node rc k rays matching h spec bins,
  kernel_tables rs = (ks, rows, total) -> nth_error rs r = Some (node, rc) -> nth_error ks r = Some k ->
  (forall c, matching c = true <-> tc_node c = node /\ tc_sel c = rec_event rc /\ on_facet rc (tc_normal c)) ->
  let x := engine_result rows k r (fold_left (fun A calls => tally_ray rows ks calls A) rays acc0) in
  nth_error (rec_hists rc) h = Some spec -> nth_error (r_bins x) h = Some bins ->
  length bins = bins_size spec /\ (list_sum bins <= r_rays x)%nat /\
  (valid_hspec spec -> (forall v, In v (somes (map (first_call matching) rays)) -> in_range v spec) -> list_sum bins = r_rays x).
Proof.
  intros rs ks rows total r node rc k rays matching h spec bins E Hr Hk Hm x Hh Hb. unfold x in *.
  rewrite (engine_result_spec rs ks rows total r node rc k rays E Hr Hk) in *. cbn [r_rays r_bins] in *.
  rewrite (map_nth_error _ _ _ Hh) in Hb. injection Hb as <-.
  destruct (tables_ok rs ks rows total E) as (_ & _ & _ & Hks & _). specialize (Hks r node rc Hr). rewrite Hk in Hks. injection Hks as ->.
  rewrite (k_recorded_somes (KRec node rc (first_hist rs r) (length (rec_hists rc))) matching rays) by (apply (call_matching _ node rc); auto).
  split; [unfold bins_of; now rewrite map_length, seq_length|]. apply mass_bounds.
Qed.
Print Assumptions C22_kernel_histogram_mass.

(** ** A worked example for C17, C18, C21 and C22: one ray leaves the empty world; its
    exit is recorded with path length 10. *)
Definition exit_recorder : recorder := Recorder 0 Exit (Some (V 1 0 0)) (/ 10 ^ 6) [H1 (Histogram PPathlength 0 20 4)].
Definition exit_normal : vec := to_vector rid (k_sphere_normal (to_point rid (vadd (V 0 0 0) (vscale 10 (V 1 0 0))))).
Definition exit_scene : tscene := TScene (fun _ => to_point rid) (fun _ p => to_vector rid (k_sphere_normal (to_point rid p))).
Definition exit_task : task := Task 2 (fun _ => mid_draws) start.
Definition exit_event : event := Event EXIT (k_propagate start 10 1) (Some 0%nat) (Some 0%nat) None None None.

Lemma exit_run : run_task k_world (Some 100%nat) 50 KT exit_task =
  ([Event GENERATE start None None None None None; exit_event],
   [tally_of k_world Exit 0 (Some exit_normal) (k_exit_angle exit_normal (V 1 0 0)) (k_propagate start 10 1)], KDone).
Proof.
  unfold run_task, trace_one, exit_task. cbn [tk_fuel tk_ray tk_draws k_loop record length Nat.leb app budget_spent Nat.add].
  unfold k_pass. change (position start) with (V 0 0 0). change (direction start) with (V 1 0 0). rewrite k_world_hit.
  cbn [Nat.ltb Nat.leb Nat.eqb k_root k_world]. reflexivity.
Qed.

Lemma exit_normal_value : exit_normal = V 1 0 0.
Proof.
  unfold exit_normal. rewrite to_vector_rid, to_point_rid. unfold k_sphere_normal, vadd, vscale, norm, dot; simpl.
  replace ((0 + 10 * 1) * (0 + 10 * 1) + (0 + 10 * 0) * (0 + 10 * 0) + (0 + 10 * 0) * (0 + 10 * 0)) with (10 * 10) by ring.
  rewrite sqrt_square by lra. f_equal; field.
Qed.

Example C18_example : let runs := map (run_task k_world (Some 100%nat) 50 KT) [exit_task] in
  (forall x, In x runs -> same_scene exit_scene k_world (log_of x) /\ Forall two_sided (log_of x)) /\
  exists s, In (0%nat, exit_recorder, s) (tally_histories exit_scene [(0%nat, exit_recorder)] (map log_of runs)) /\
    s_rays s = 1%nat /\ s_cross s = 1%nat /\ s_bins s = [[0; 0; 1; 0]%nat].
Proof.
  cbv zeta. cbn [map]. rewrite exit_run. cbn [log_of tallies_of fst snd]. split.
  - intros x [<-|[]]. split.
    + split; [reflexivity|]. intros e n [<-|[<-|[]]]; try discriminate. intros _ Hn. injection Hn as <-. reflexivity.
    + repeat constructor; simpl; intros; try discriminate; destruct H; discriminate.
  - eexists. rewrite tally_histories_spec by (constructor; [easy|constructor]). split; [left; reflexivity|].
    set (log := [Event GENERATE start None None None None None; exit_event]).
    assert (Ms : slot_matches exit_scene 0 exit_recorder exit_event = true).
    { apply slot_matches_spec. split; [split; reflexivity|]. intros f Hf. injection Hf as <-. exists exit_normal. split; [reflexivity|].
      rewrite exit_normal_value. simpl. replace (1 - 1) with 0 by lra. replace (0 - 0) with 0 by lra. rewrite Rabs_R0. lra. }
    assert (M : match_values exit_scene 0 exit_recorder None log = [event_values exit_scene 0 (Some start) exit_event]).
    { unfold log. cbn [match_values]. rewrite Ms. reflexivity. }
    destruct (slot_result exit_scene 0 exit_recorder [log]) as (E1 & E2 & _ & E4).
    assert (R : recorded exit_scene 0 exit_recorder [log] = [event_values exit_scene 0 (Some start) exit_event]).
    { unfold recorded. cbn [map]. rewrite M. reflexivity. }
    rewrite R in *. split; [rewrite E1; reflexivity|]. split; [rewrite E2; cbn [flat_map]; rewrite M; reflexivity|].
    rewrite E4, acc_bins. cbn [rec_hists exit_recorder map]. unfold bins_of. cbn [bins_size h_bins seq map]. unfold hits_in. cbn [filter cell].
    change (prop_value _ (h_prop _)) with (0 + 10).
    assert (V : valid_histogram (Histogram PPathlength 0 20 4)) by (split; simpl; [lra|lia]).
    rewrite (proj2 (proj1 (bin_index_exact (Histogram PPathlength 0 20 4) (0 + 10) V) ltac:(simpl; lra) 2%nat)); [reflexivity|].
    split; [simpl; lia|]. unfold width; simpl. lra.
Qed.
