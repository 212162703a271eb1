(** C151: the recorders of the ways a photon can end account for every photon, in both engines. *)
From Coq Require Import Reals Lra Lia List Bool Arith Permutation.
From Verif Require Import Base Vec Interp DistModel DistProofs MaterialModel MaterialSpec OpticsModel TransformModel TransformProofs GeomModel TracerModel TracerProofs TracerProps
  KernelModel KernelProofs KernelSim KernelProps BundleModel LogProps TallyModel TallyProofs TallyProps
  CompilerModel CompilerProofs CompilerProps EndModel EndProofs EndProps EndTallyProps GeomProofs GeomProps RaiseProofs RaiseProps.
Import ListNotations.
Open Scope R_scope.

(** The events of a recorder at which a photon ends. *)
Definition ends_photon (s : selector) : Prop := s = Lost \/ s = Reacted \/ s = Killed \/ s = Exit.
(** The recorders ask once for each way of ending: at every node of the scene for losses,
    reactions and kills, and at the world for exits; without a facet.  Other recorders may be
    among them. *)
Record complete (nodes : list nat) (world : nat) (rs : list (nat * recorder)) : Prop := {
  cp_all : forall n s, (In n nodes /\ (s = Lost \/ s = Reacted \/ s = Killed)) \/ (n = world /\ s = Exit) ->
    exists r, In (n, r) rs /\ rec_event r = s;
  cp_facet : forall n r, In (n, r) rs -> ends_photon (rec_event r) -> rec_facet r = None;
  cp_once : forall i j n r r', nth_error rs i = Some (n, r) -> nth_error rs j = Some (n, r') ->
    ends_photon (rec_event r) -> rec_event r = rec_event r' -> i = j }.

Definition end_recorder (p : nat * recorder) : bool :=
  match rec_event (snd p) with Lost | Reacted | Killed | Exit => true | _ => false end.
Lemma end_recorder_spec p : end_recorder p = true <-> ends_photon (rec_event (snd p)).
Proof. unfold end_recorder, ends_photon. destruct (rec_event (snd p)); split; try reflexivity; try discriminate; try tauto; intros [H|[H|[H|H]]]; discriminate. Qed.

Definition ended (h : list event) : bool := existsb (fun e => is_terminal (e_kind e)) h.

(** ** Where a photon ends *)
Lemma next_hit_container S r h c a D : next_hit S r = HitOk h c a D -> exists i, In i (hits S (position r) (direction r)) /\ h_node i = c.
Proof.
  unfold next_hit. cbv zeta. set (l := filter _ (hits S (position r) (direction r))).
  assert (Sub : forall i, In i l -> In i (hits S (position r) (direction r))) by (intros i Hi; apply filter_In in Hi; tauto). clearbody l.
  destruct l as [|i [|j l']]; [discriminate| |].
  - intros [= _ <- _ _]. exists i. split; [apply Sub; now left|reflexivity].
  - destruct (find_container (i :: j :: l')) as [c'|] eqn:F; [|discriminate]. intros [= _ <- _ _]. unfold find_container in F.
    set (q := filter _ _) in F. assert (Hq : forall x, In x q -> In x (i :: j :: l')) by (intros x Hx; apply filter_In in Hx; tauto).
    clearbody q. destruct (sort_by h_distance q) as [|x l2] eqn:E; [discriminate|]. injection F as <-. exists x. split; [|reflexivity].
    apply Sub, Hq. apply (Permutation_in _ (Permutation_sym (sort_by_perm h_distance q))). rewrite E. now left.
Qed.

Definition fate_at (S : scene) (nodes : list nat) (e : event) : Prop :=
  exists n s, selected s n e /\ ((In n nodes /\ (s = Lost \/ s = Reacted \/ s = Killed)) \/ (n = TracerModel.root S /\ s = Exit)).

Lemma surface_not_terminal S u h c a D r o e : surface_step S u h c a D r = o ->
  In e (match o with Stop evs | Raise evs | Continue evs _ => evs end) -> is_terminal (e_kind e) = false.
Proof.
  intros <-. unfold surface_step. cbv zeta. destruct (normal_of _ _ _); [|intros []]. destruct (s_reflectivity _ _ _ _ _ _); [|intros []].
  destruct (is_reflected _ _).
  - destruct (s_reflected _ _ _ _ _ _); [|intros []]. intros [<-|[]]. reflexivity.
  - destruct (s_transmitted _ _ _ _ _ _); [|intros []]. destruct a; [|intros []]. intros [<-|[]]. reflexivity.
Qed.

Section Ends.
Variables (S : scene) (nodes : list nat).
Hypothesis within_nodes : forall o d i, In i (hits S o d) -> In (h_node i) nodes.

Lemma pass_fate ms mp m u count r e :
  In e (match pass S ms mp m u count r with Stop evs | Raise evs | Continue evs _ => evs end) ->
  is_terminal (e_kind e) = true -> fate_at S nodes e.
Proof.
  unfold pass. destruct (next_hit S r) as [| |h c a D] eqn:Hn; try (intros []).
  destruct (next_hit_container _ _ _ _ _ _ Hn) as (i & Hi & Ec). apply within_nodes in Hi. rewrite Ec in Hi. clear Ec Hn.
  destruct (Nat.ltb ms count || over_path mp r).
  { intros [<-|[]] _. exists c, Killed. split; [split; reflexivity|]. left. auto. }
  destruct (Nat.eqb_spec h (TracerModel.root S)) as [->|_].
  { intros [<-|[]] _. exists (TracerModel.root S), Exit. split; [split; reflexivity|]. right. auto. }
  destruct (total_attenuation (comps S c) (wavelength r)) as [alpha|]; [|intros []].
  assert (Q : forall x, In e (match absorb_step S m u c x r with Stop evs | Raise evs | Continue evs _ => evs end) ->
     is_terminal (e_kind e) = true -> fate_at S nodes e).
  { intros x. unfold absorb_step. cbv zeta. destruct (coefficients _ _); [|intros []]. destruct (select_component _ _) as [k|]; [|intros []].
    destruct (nth_error _ _) as [cc|]; [|intros []]. destruct (is_radiative _ _ _).
    - destruct (emit _ _ _ _ _ _) as [r'|]; (intros [<-|H]; [discriminate|]); [|destruct H].
      destruct H as [<-|[]]. destruct (c_kind cc); discriminate.
    - intros [<-|[<-|[]]]; [discriminate|]. intros _.
      destruct (c_kind cc); (exists c, Lost + exists c, Reacted); (split; [split; reflexivity|]); left; auto. }
  destruct (penetration_depth alpha (u_depth u)) as [x|]; [destruct (Rltb x D); [apply Q|]|].
  - intros H Ht. rewrite (surface_not_terminal _ _ _ _ _ _ _ _ _ eq_refl H) in Ht. discriminate.
  - intros H Ht. rewrite (surface_not_terminal _ _ _ _ _ _ _ _ _ eq_refl H) in Ht. discriminate.
Qed.
Lemma loop_fate ms mp m us : forall fuel count r e, In e (fst (loop fuel S ms mp m us count r)) -> is_terminal (e_kind e) = true -> fate_at S nodes e.
Proof.
  induction fuel as [|fuel IH]; intros count r e; [intros []|]. cbn [loop].
  pose proof (pass_fate ms mp m (us (Datatypes.S count)) (Datatypes.S count) r e) as P.
  destruct (pass _ _ _ _ _ _ _) as [evs|evs|evs r']; cbn [fst]; [exact P|exact P|].
  specialize (IH (Datatypes.S count) r' e). destruct (loop fuel S ms mp m us (Datatypes.S count) r') as [rest st]. cbn [fst] in *.
  intros H. apply in_app_or in H. destruct H as [H|H]; auto.
Qed.
Lemma history_fate ms m t e : In e (python_history S ms m t) -> is_terminal (e_kind e) = true -> fate_at S nodes e.
Proof.
  unfold python_history, step_forward. pose proof (loop_fate ms None m (tk_draws t) (tk_fuel t) 0 (tk_ray t) e) as P.
  destruct (loop _ _ _ _ _ _ _ _) as [evs st]. cbn [fst] in *. intros [<-|H]; [discriminate|auto].
Qed.

(** ** Counting *)
Lemma selected_terminal s n e : ends_photon s -> selected s n e -> is_terminal (e_kind e) = true.
Proof. intros [->|[->|[->| ->]]] [-> _]; reflexivity. Qed.
Lemma selected_same s n s' n' e : selected s n e -> selected s' n' e -> ends_photon s -> ends_photon s' -> s = s' /\ n = n'.
Proof.
  intros H H' [->|[->|[->| ->]]] [->|[->|[->| ->]]]; destruct H as [h1 h2], H' as [h1' h2']; try congruence; (split; [reflexivity|congruence]).
Qed.

Lemma filter_one {A} (P : A -> bool) l k x : nth_error l k = Some x -> P x = true ->
  (forall j y, nth_error l j = Some y -> P y = true -> j = k) -> List.length (filter P l) = 1%nat.
Proof.
  revert k. induction l as [|y l IH]; intros k; [destruct k; discriminate|]. intros Hk Hx Hu. cbn [filter]. destruct k as [|k].
  - injection Hk as ->. rewrite Hx. cbn. f_equal.
    enough (Q : forall z, In z l -> P z = false).
    { clear - Q. induction l as [|z l IH]; [reflexivity|]. cbn. rewrite (Q z (or_introl eq_refl)). apply IH. intros w Hw. apply Q. now right. }
    intros z Hz. destruct (P z) eqn:E; [|reflexivity]. apply In_nth_error in Hz. destruct Hz as [j Hj]. discriminate (Hu (Datatypes.S j) z Hj E).
  - assert (E : P y = false) by (destruct (P y) eqn:E; [discriminate (Hu 0%nat y eq_refl E)|reflexivity]). rewrite E.
    apply (IH k Hk Hx). intros j z Hj Hz. specialize (Hu (Datatypes.S j) z Hj Hz). congruence.
Qed.
Lemma filter_none {A} (P : A -> bool) l : (forall x, In x l -> P x = false) -> filter P l = [].
Proof. induction l as [|x l IH]; intros H; [reflexivity|]. cbn. rewrite (H x (or_introl eq_refl)). apply IH. intros y Hy. apply H. now right. Qed.
Lemma list_sum_cons x l : list_sum (x :: l) = (x + list_sum l)%nat.
Proof. reflexivity. Qed.
Lemma sum_swap {A B} (P : A -> B -> bool) (l : list A) (k : list B) :
  list_sum (map (fun a => List.length (filter (P a) k)) l) = list_sum (map (fun b => List.length (filter (fun a => P a b) l)) k).
Proof.
  induction l as [|a l IH].
  - cbn. induction k as [|b k IHk]; [reflexivity|exact IHk].
  - cbn [map]. rewrite list_sum_cons, IH. clear IH. induction k as [|b k IHk]; [reflexivity|].
    cbn [filter map] in *. rewrite !list_sum_cons, <- IHk. destruct (P a b); cbn [List.length]; lia.
Qed.

Variable world_root : TracerModel.root S = 0%nat.
Variables (ms : nat) (m : emit_method) (rs : list (nat * recorder)).
Hypothesis all_ends : complete nodes 0 rs.

Definition caught (T : tscene) (h : list event) (p : nat * recorder) : bool :=
  end_recorder p && existsb (slot_matches T (fst p) (snd p)) h.

Lemma caught_spec T h p : In p rs -> caught T h p = true <-> ends_photon (rec_event (snd p)) /\ exists e, In e h /\ selected (rec_event (snd p)) (fst p) e.
Proof.
  intros Hp. unfold caught. rewrite andb_true_iff, end_recorder_spec, existsb_exists. split; intros [H1 (e & He & H2)]; (split; [exact H1|]); exists e; (split; [exact He|]).
  - apply slot_matches_spec in H2. tauto.
  - apply slot_matches_spec. split; [exact H2|]. intros f Hf. destruct p as [n r]. cbn [snd] in *. rewrite (cp_facet _ _ _ all_ends n r Hp H1) in Hf. discriminate.
Qed.

Lemma one_recorder T t : List.length (filter (caught T (python_history S ms m t)) rs) = if ended (python_history S ms m t) then 1%nat else 0%nat.
Proof.
  set (h := python_history S ms m t). destruct (ended h) eqn:E.
  - unfold ended in E. apply existsb_exists in E. destruct E as (e & He & Ht).
    destruct (history_fate ms m t e He Ht) as (n & s & Hs & Hn). rewrite world_root in Hn.
    assert (Es : ends_photon s) by (unfold ends_photon; tauto).
    destruct (cp_all _ _ _ all_ends n s Hn) as (r & Hr & Er). destruct (In_nth_error _ _ Hr) as [k Hk].
    apply (filter_one _ rs k (n, r) Hk).
    + apply caught_spec; [exact Hr|]. cbn [fst snd]. rewrite Er. split; [exact Es|]. exists e. auto.
    + intros j [n' r'] Hj Hc. apply caught_spec in Hc; [|exact (nth_error_In _ _ Hj)]. cbn [fst snd] in Hc. destruct Hc as [Hc (e' & He' & Hs')].
      assert (Ee : e' = e).
      { pose proof (selected_terminal _ _ _ Hc Hs') as Ht'.
        apply in_split in He. destruct He as (p1 & q1 & Ep). unfold h, python_history in Ep.
        pose proof (C01_nothing_after_ending _ _ _ _ _ _ _ _ _ _ Ep Ht) as ->. unfold h, python_history in He'.
        apply in_split in He'. destruct He' as (p2 & q2 & Ep').
        pose proof (C01_nothing_after_ending _ _ _ _ _ _ _ _ _ _ Ep' Ht') as ->. rewrite Ep in Ep'. apply app_inj_tail in Ep'. now destruct Ep'. }
      subst e'. destruct (selected_same _ _ _ _ _ Hs' Hs Hc Es) as [E1 ->].
      apply (cp_once _ _ _ all_ends j k n r' r Hj Hk Hc). now rewrite E1, Er.
  - assert (Q : filter (caught T h) rs = []); [|now rewrite Q]. apply filter_none. intros p Hp. destruct (caught T h p) eqn:Hc; [|reflexivity].
    apply caught_spec in Hc; [|exact Hp]. destruct Hc as [Hc (e & He & Hs)]. exfalso. unfold ended in E.
    enough (existsb (fun e => is_terminal (e_kind e)) h = true) by congruence. apply existsb_exists. exists e. split; [exact He|]. exact (selected_terminal _ _ _ Hc Hs).
Qed.

Lemma rays_sum T tasks : NoDup (map (fun p => rec_name (snd p)) rs) ->
  list_sum (map (fun q => if end_recorder (fst q) then s_rays (snd q) else 0%nat) (tally_histories T rs (map (python_history S ms m) tasks))) =
  List.length (filter ended (map (python_history S ms m) tasks)).
Proof.
  intros Hnd. set (hs := map (python_history S ms m) tasks). rewrite tally_histories_spec, map_map by exact Hnd.
  transitivity (list_sum (map (fun p => List.length (filter (fun h => caught T h p) hs)) rs)).
  - f_equal. apply map_ext_in. intros [n r] Hp. cbn [fst snd]. unfold caught. destruct (end_recorder (n, r)).
    + destruct (slot_result T n r hs) as (E1 & _). cbv zeta in E1. rewrite E1, recorded_length. reflexivity.
    + cbn [andb]. rewrite filter_none; reflexivity.
  - rewrite (sum_swap (fun p h => caught T h p) rs hs). unfold hs. rewrite map_map.
    rewrite (map_ext _ _ (fun t => one_recorder T t)). clear. induction tasks as [|t l IH]; [reflexivity|]. cbn [map filter].
    rewrite list_sum_cons. destruct (ended (python_history S ms m t)); cbn [List.length]; lia.
Qed.
End Ends.

Lemma hits_within mesh root : usable root -> forall o d i, In i (hits (python_scene mesh root) o d) -> In (h_node i) (map p_id (geometry_nodes root)).
Proof.
  intros U o d i Hi. cbn [hits python_scene] in Hi. unfold scene_intersections in Hi.
  apply (Permutation_in _ (Permutation_sym (sort_by_perm _ _))) in Hi. apply filter_In in Hi. destruct Hi as [Hi _].
  rewrite node_hits_placements in Hi.
  - rewrite placements_tree in Hi. apply in_flat_map in Hi. destruct Hi as (q & Hq & Hi). apply in_map_iff in Hq. destruct Hq as (n & <- & Hn).
    unfold hits_of in Hi. apply in_map_iff in Hi. destruct Hi as (x & <- & _). cbn [h_node]. now apply in_map.
  - pose proof (below_tree mesh root (rd_poses _ U)) as H. revert H. generalize (py_tree mesh root). fix IH 2. intros n Hn. destruct Hn as [id g geom ch Hc].
    constructor. intros c Hin. destruct (Hc c Hin) as [Hb Hp]. split; [exact (IH c Hb)|]. destruct c. now apply wf_invertible.
Qed.

(** The figures of the recorders of the ways of ending, added up over the nodes, are the number of
    photons whose history ends in such an event: no photon is counted twice and none is missed. *)
Theorem C151_recorders_account : forall mesh root ms m rs tasks,
  usable root -> NoDup (map (fun p => rec_name (snd p)) rs) ->
  complete (map p_id (geometry_nodes root)) 0 rs ->
  let S := python_scene mesh root in
  let histories := map (python_history S ms m) tasks in
  list_sum (map (fun q => if end_recorder (fst q) then s_rays (snd q) else 0%nat) (tally_histories (tally_scene S) rs histories)) =
    List.length (filter ended histories) /\
  (forall t, In t tasks -> snd (step_forward (tk_fuel t) S ms None m (tk_draws t) (tk_ray t)) = Done ->
     ended (python_history S ms m t) = false -> exists pre e, python_history S ms m t = pre ++ [e] /\ next_hit S (e_ray e) = NoHit).
Proof.
  intros mesh root ms m rs tasks U Hnd Cp S histories. split.
  - exact (rays_sum S _ (hits_within mesh root U) eq_refl ms m rs Cp (tally_scene S) tasks Hnd).
  - intros t _ Hd He. unfold python_history in *. destruct (step_forward _ _ _ _ _ _ _) as [evs st] eqn:E. cbn [fst snd] in *. subst st.
    destruct (C08_fate_or_no_geometry_partial _ _ _ _ _ _ _ _ E) as (pre & e & -> & _ & [Ht|Hn]); [exfalso|eauto].
    unfold ended in He. rewrite existsb_app in He. cbn [existsb] in He. rewrite Ht, orb_true_r in He. discriminate.
Qed.
Print Assumptions C151_recorders_account.

(** The same for the figures that the compiled engine shows: with every photon traced to its end
    they add up to the number of photons. *)
Theorem C151_engine_accounts_partial : forall mesh root T root_id rs ks rows total max_events ms m tasks,
  exact_mesh mesh -> ready root -> compile_scene root = Some (T, root_id) ->
  NoDup (map (fun p => rec_name (snd p)) rs) -> complete (map p_id (geometry_nodes root)) 0 rs ->
  kernel_tables rs = (ks, rows, total) ->
  let S := python_scene mesh root in
  (forall t, In t tasks -> traceable S root ms m max_events t /\ exists pre e, python_history S ms m t = pre ++ [e] /\ is_terminal (e_kind e) = true) ->
  let A := fold_left (fun A calls => tally_ray rows ks calls A)
       (map (fun t => tallies_of (run_task (read_scene T root_id) (Some max_events) ms m t)) tasks) acc0 in
  list_sum (map (fun r => match nth_error rs r, nth_error ks r with
                          | Some p, Some k => if end_recorder p then r_rays (engine_result rows k r A) else 0%nat
                          | _, _ => 0%nat end) (seq 0 (List.length rs))) = List.length tasks.
Proof.
  intros mesh root T root_id rs ks rows total b ms m tasks M Rd C Hnd Cp Et S Ht A. pose proof (rd_usable _ Rd) as U.
  destruct (C151_recorders_account mesh root ms m rs tasks U Hnd Cp) as [E _]. fold S in E.
  assert (El : List.length (filter ended (map (python_history S ms m) tasks)) = List.length tasks).
  { clear E A Et Cp Hnd. induction tasks as [|t l IH]; [reflexivity|]. cbn [map filter].
    destruct (Ht t (or_introl eq_refl)) as (_ & pre & e & Eh & He).
    assert (Q : ended (python_history S ms m t) = true) by (rewrite Eh; unfold ended; rewrite existsb_app; cbn [existsb]; now rewrite He, orb_true_r).
    rewrite Q. cbn [List.length]. f_equal. apply IH. intros t' H. apply Ht. now right. }
  rewrite <- El, <- E. clear E El. rewrite tally_histories_spec, map_map by exact Hnd. f_equal.
  pose proof (C146_recorders_agree mesh root T root_id rs ks rows total) as G.
  assert (G' : forall r, (r < List.length rs)%nat ->
    (match nth_error rs r, nth_error ks r with
     | Some p, Some k => if end_recorder p then r_rays (engine_result rows k r A) else 0%nat | _, _ => 0%nat end) =
    match nth_error rs r with Some (n, rc) => if end_recorder (n, rc) then s_rays (slot_histories (tally_scene S) n rc (map (python_history S ms m) tasks) (new_state rc)) else 0%nat | None => 0%nat end).
  { intros r Hr. destruct (tables_ok _ _ _ _ Et) as (_ & _ & _ & Tk & _). destruct (nth_error rs r) as [[n rc]|] eqn:Er; [|reflexivity].
    rewrite (Tk r n rc Er). destruct (end_recorder (n, rc)); [|reflexivity].
    unfold A. rewrite (G r n rc _ b ms m tasks _ M Rd C Hnd Et Er (Tk r n rc Er) (fun t H => proj1 (Ht t H))
      (ltac:(rewrite tally_histories_spec by exact Hnd; apply in_map_iff; exists (n, rc); split; [reflexivity|exact (nth_error_In _ _ Er)]))). reflexivity. }
  erewrite map_ext_in; [|intros r H; apply in_seq in H; apply G'; lia]. clear.
  set (f := fun p : nat * recorder => let (n, rc) := p in if end_recorder (n, rc) then s_rays (slot_histories (tally_scene S) n rc (map (python_history S ms m) tasks) (new_state rc)) else 0%nat).
  transitivity (map f rs).
  - transitivity (map (fun r => match nth_error rs r with Some p => f p | None => 0%nat end) (seq 0 (List.length rs))).
    { apply map_ext. intros r. destruct (nth_error rs r) as [[n rc]|]; reflexivity. }
    clearbody f. induction rs as [|p l IH]; [reflexivity|]. cbn [List.length seq map nth_error]. f_equal. rewrite <- seq_shift, map_map. exact IH.
  - apply map_ext. intros [n rc]. reflexivity.
Qed.
Print Assumptions C151_engine_accounts_partial.

(** ** Every photon in a spherical world *)
(** A photon that C148 covers: it starts in the world, within the wavelengths of the spectra, with
    enough fuel to be followed to its end. *)
Record covered (S : scene) (root : stree) (R' lo hi : R) (ms : nat) (m : emit_method) (t : task) : Prop := {
  cv_draws : forall i, wf_draws (tk_draws t i) /\ 0 < u_comp (tk_draws t i) /\ 0 < u_wl (tk_draws t i);
  cv_start : norm (position (tk_ray t)) <= R' /\ is_unit (direction (tk_ray t)) /\ lo <= wavelength (tk_ray t) <= hi;
  cv_clean : forall i r, reaches S ms m (tk_draws t) (tk_ray t) i r -> ordinary S root (tk_draws t (Datatypes.S i)) r /\ clean_hit S root r;
  cv_fuel : (ms + 1 <= tk_fuel t)%nat }.

Section World.
Variable mesh : vec -> vec -> vec -> list vec.
Variable root : stree.
Variables (T : tables) (root_id : nat).
Hypothesis M : exact_mesh mesh.
Hypothesis Rd : ready root.
Hypothesis C : compile_scene root = Some (T, root_id).
Variables Rw R' : R.
Hypothesis W : sphere_world root Rw R'.
Variables (m : emit_method) (lo hi : R).
Hypothesis Sp : spectra_cover root m lo hi.
Hypothesis Ph : phases_usable root.
Hypothesis Tb : thick_boxes root.
Let S := python_scene mesh root.
Let K := kernel_scene root.
Let U := rd_usable _ Rd.

Lemma exit_normal u r c a D : wf_draws u -> 0 < u_comp u -> 0 < u_wl u -> is_unit (direction r) -> ordinary S root u r ->
  next_hit S r = HitOk 0 c a D -> normal_of S 0 (to_point (w2l S 0) (vadd (position r) (vscale D (direction r)))) <> None.
Proof.
  intros Hu Hc Hl Hd Ho Hn. pose proof (ordinary_generic mesh root T root_id M U C u r Hu Hc Hl Hd Ho) as [(Hm & Hpt) _ _ _].
  assert (In D (node_ts K (position r) (direction r) 0)) as Hin.
  { unfold next_hit in Hn. cbv zeta in Hn. fold S in Hm, Hpt. set (l := filter _ (hits S (position r) (direction r))) in *. clearbody l.
    assert (P : Permutation (map node_dist l) (all_hits K (position r) (direction r))) by (rewrite Hm; symmetry; apply sort_by_perm).
    assert (Q : exists i, In i l /\ h_node i = 0%nat /\ h_distance i = D).
    { destruct l as [|i [|j l']]; [discriminate| |].
      - injection Hn as h1 _ _ h2. exists i. split; [now left|auto].
      - destruct (find_container _); [|discriminate]. injection Hn as h1 _ _ h2. exists i. split; [now left|]. split; [exact h1|].
        rewrite <- h2. destruct (Hpt i (or_introl eq_refl)) as [H0 ->]. unfold at_ray. symmetry. now apply distance_along. }
    destruct Q as (i & Hi & E0 & ED). assert (Q : In (node_dist i) (all_hits K (position r) (direction r))) by (apply (Permutation_in _ P), in_map, Hi).
    unfold all_hits in Q. apply in_flat_map in Q. destruct Q as (n & _ & Q). apply in_map_iff in Q. destruct Q as (x & Ex & Hx).
    unfold node_dist in Ex. injection Ex as -> ->. rewrite E0, ED in Hx. exact Hx. }
  destruct (nodes_split mesh root T root_id U C Rw R' W m lo hi Sp Ph Tb) as (n0 & ns & En & E0 & Eg).
  destruct (shape_of_node mesh root T root_id U C 0 n0) as (h1 & h2 & h3 & h4); [rewrite En; reflexivity|].
  unfold node_ts in Hin. fold K in h1, h2. fold S in h3, h4. rewrite h1, E0, ainv_rid, to_point_rid, to_vector_rid in Hin. rewrite h3, h4, E0, ainv_rid, to_point_rid, Eg.
  rewrite Eg in h2. cbn [shape_of] in h2. set (sh := k_shape K 0) in *. clearbody sh. injection h2 as <-. cbn [intersect_node py_normal] in *.
  assert (Pos : 0 < Rw). { pose proof (sw_radius _ _ _ W). pose proof (sw_gap _ _ _ W). assert (0 < / 10 ^ 4) by (apply Rinv_0_lt_compat; lra). lra. }
  pose proof (proj1 (proj1 (C50_kernel_sphere_exact Rw _ _ Pos Hd) D) Hin) as (_ & Q).
  destruct (C51_normal_unit_outward Rw _ Pos Q) as (v & Ev & _). rewrite Ev. discriminate.
Qed.

Lemma covered_exit ms t e n : covered S root R' lo hi ms m t -> In e (python_history S ms m t) -> e_kind e = EXIT -> e_hit e = Some n ->
  normal_of S n (to_point (w2l S n) (position (e_ray e))) <> None.
Proof.
  intros Cv. unfold python_history, step_forward. destruct (cv_start _ _ _ _ _ _ _ _ Cv) as (Hp & Hd & Hw).
  assert (G : forall fuel i q evs st e n, reaches S ms m (tk_draws t) (tk_ray t) i q -> within R' lo hi q -> loop fuel S ms None m (tk_draws t) i q = (evs, st) ->
     In e evs -> e_kind e = EXIT -> e_hit e = Some n -> normal_of S n (to_point (w2l S n) (position (e_ray e))) <> None).
  { clear e n. induction fuel as [|fuel IH]; intros i q evs st e n Hq Hin; cbn [loop]; [intros [= <- <-] []|].
    destruct (cv_clean _ _ _ _ _ _ _ _ Cv i q Hq) as [O1 O2]. destruct (cv_draws _ _ _ _ _ _ _ _ Cv (Datatypes.S i)) as (u1 & u2 & u3).
    pose proof (pass_ok mesh root T root_id M U C Rw R' W m lo hi Sp Ph Tb ms None (tk_draws t (Datatypes.S i)) (Datatypes.S i) q u1 u2 u3 Hin O1 O2) as P. fold S in P.
    assert (Ex : forall e n, In e (match pass S ms None m (tk_draws t (Datatypes.S i)) (Datatypes.S i) q with Stop evs | Raise evs | Continue evs _ => evs end) ->
       e_kind e = EXIT -> e_hit e = Some n -> normal_of S n (to_point (w2l S n) (position (e_ray e))) <> None).
    { clear e n P. intros e n. unfold pass. destruct (next_hit S q) as [| |h c a D] eqn:Hn; try (intros []).
      destruct (_ || _); [intros [<-|[]]; discriminate|].
      destruct (Nat.eqb_spec h (TracerModel.root S)) as [Er|_].
      { intros [<-|[]] _ [= <-]. rewrite Er in Hn |- *. cbn [e_ray propagate position]. destruct Hin as (_ & hd & _).
        exact (exit_normal _ q c a D u1 u2 u3 hd O1 Hn). }
      assert (Sf : forall e, In e (match surface_step S (tk_draws t (Datatypes.S i)) h c a D q with Stop evs | Raise evs | Continue evs _ => evs end) -> e_kind e <> EXIT).
      { intros x Hx Ek. pose proof (surface_not_terminal _ _ _ _ _ _ _ _ _ eq_refl Hx) as Q. rewrite Ek in Q. discriminate. }
      destruct (total_attenuation _ _) as [alpha|]; [|intros []].
      assert (Ab : forall x e, In e (match absorb_step S m (tk_draws t (Datatypes.S i)) c x q with Stop evs | Raise evs | Continue evs _ => evs end) -> e_kind e <> EXIT).
      { intros x y. unfold absorb_step. cbv zeta. destruct (coefficients _ _); [|intros []]. destruct (select_component _ _) as [k|]; [|intros []].
        destruct (nth_error _ _) as [cc|]; [|intros []]. destruct (is_radiative _ _ _).
        - destruct (emit _ _ _ _ _ _) as [r'|]; (intros [<-|H]; [discriminate|]); [|destruct H]. destruct H as [<-|[]]. destruct (c_kind cc); discriminate.
        - intros [<-|[<-|[]]]; [discriminate|]. destruct (c_kind cc); discriminate. }
      destruct (penetration_depth alpha _) as [x|]; [destruct (Rltb x D)|]; intros H Ek; exfalso; [apply (Ab x e H Ek)|apply (Sf e H Ek)|apply (Sf e H Ek)]. }
    destruct (pass S ms None m (tk_draws t (Datatypes.S i)) (Datatypes.S i) q) as [evs'|evs'|evs' q'] eqn:Ep; [|destruct P|].
    - intros [= <- <-]. apply Ex.
    - assert (Hq' : reaches S ms m (tk_draws t) (tk_ray t) (Datatypes.S i) q').
      { apply (reachS _ _ _ _ _ i q evs'); [exact Hq|]. exact Ep. }
      destruct (loop fuel S ms None m (tk_draws t) (Datatypes.S i) q') as [rest st'] eqn:El. intros [= <- <-] H. apply in_app_or in H.
      destruct H as [H|H]; [now apply Ex|]. exact (IH _ _ _ _ e n Hq' P El H). }
  destruct (loop (tk_fuel t) S ms None m (tk_draws t) 0 (tk_ray t)) as [evs st] eqn:El. cbn [fst]. intros [<-|H]; [discriminate|].
  exact (G _ 0%nat (tk_ray t) evs st e n (reach0 _ _ _ _ _) (conj Hp (conj Hd Hw)) El H).
Qed.

Lemma covered_traceable ms max_events t : (2 * ms + 3 < max_events)%nat -> covered S root R' lo hi ms m t ->
  traceable S root ms m max_events t /\ exists pre e, python_history S ms m t = pre ++ [e] /\ is_terminal (e_kind e) = true.
Proof.
  intros Hm Cv. destruct (cv_start _ _ _ _ _ _ _ _ Cv) as (Hp & Hd & Hw).
  pose proof (C02_terminates_within_budget (tk_fuel t) S ms None m (tk_draws t) (tk_ray t) (cv_fuel _ _ _ _ _ _ _ _ Cv)) as [_ L].
  destruct (step_forward (tk_fuel t) S ms None m (tk_draws t) (tk_ray t)) as [evs st] eqn:E. cbn [fst] in L.
  destruct (C148_traced_to_an_end_partial mesh root T root_id Rw R' m lo hi (tk_fuel t) ms None (tk_draws t) (tk_ray t) evs st M U C W Sp Ph Tb
    (cv_draws _ _ _ _ _ _ _ _ Cv) Hp Hd Hw (cv_clean _ _ _ _ _ _ _ _ Cv) (cv_fuel _ _ _ _ _ _ _ _ Cv) E) as (-> & pre & e & -> & He).
  split.
  - split; [exact (cv_draws _ _ _ _ _ _ _ _ Cv)|exact Hd|intros i r H; apply (cv_clean _ _ _ _ _ _ _ _ Cv i r H)| | |].
    + fold S. rewrite E. discriminate.
    + unfold python_history. fold S. rewrite E. cbn [fst]. lia.
    + intros x n. apply covered_exit. exact Cv.
  - exists pre, e. unfold python_history. rewrite E. auto.
Qed.
End World.

(** In a spherical world whose spectra cover the photons, the compiled engine's figures add up to
    the number of photons thrown. *)
Theorem C151_every_photon_partial : forall mesh root T root_id rs ks rows total max_events ms m tasks Rw R' lo hi,
  exact_mesh mesh -> ready root -> compile_scene root = Some (T, root_id) ->
  sphere_world root Rw R' -> spectra_cover root m lo hi -> phases_usable root -> thick_boxes root ->
  NoDup (map (fun p => rec_name (snd p)) rs) -> complete (map p_id (geometry_nodes root)) 0 rs ->
  kernel_tables rs = (ks, rows, total) -> (2 * ms + 3 < max_events)%nat ->
  (forall t, In t tasks -> covered (python_scene mesh root) root R' lo hi ms m t) ->
  let A := fold_left (fun A calls => tally_ray rows ks calls A)
       (map (fun t => tallies_of (run_task (read_scene T root_id) (Some max_events) ms m t)) tasks) acc0 in
  list_sum (map (fun r => match nth_error rs r, nth_error ks r with
                          | Some p, Some k => if end_recorder p then r_rays (engine_result rows k r A) else 0%nat
                          | _, _ => 0%nat end) (seq 0 (List.length rs))) = List.length tasks.
Proof.
  intros mesh root T root_id rs ks rows total b ms m tasks Rw R' lo hi M Rd C W Sp Ph Tb Hnd Cp Et Hb Hc.
  apply (C151_engine_accounts_partial mesh root T root_id rs ks rows total b ms m tasks M Rd C Hnd Cp Et).
  intros t H. exact (covered_traceable mesh root T root_id M Rd C Rw R' W m lo hi Sp Ph Tb ms b t Hb (Hc t H)).
Qed.
Print Assumptions C151_every_photon_partial.

(** ** Seven recorders for a world with one object *)
Definition end_recorders : list (nat * recorder) :=
  [(0%nat, Recorder 0 Lost None 0 []); (0%nat, Recorder 1 Reacted None 0 []); (0%nat, Recorder 2 Killed None 0 []); (0%nat, Recorder 3 Exit None 0 []);
   (1%nat, Recorder 4 Lost None 0 []); (1%nat, Recorder 5 Reacted None 0 []); (1%nat, Recorder 6 Killed None 0 [])].
Lemma end_recorders_complete : complete [0%nat; 1%nat] 0 end_recorders.
Proof.
  split.
  - intros n s [[[<-|[<-|[]]] [-> |[-> | ->]]]|[-> ->]]; eexists; unfold end_recorders; cbn [In];
      (split; [|cbn; instantiate (1 := Recorder _ _ _ _ _); reflexivity]); eauto 10.
  - intros n r H _. unfold end_recorders in H. repeat (destruct H as [H|H]; [injection H as _ <-; reflexivity|]). destruct H.
  - intros i j n r r' Hi Hj _ He. unfold end_recorders in *.
    do 7 (destruct i as [|i]; [cbn in Hi; injection Hi as <- <-; do 7 (destruct j as [|j]; [cbn in Hj; first [reflexivity|exfalso; inversion Hj; subst; discriminate]|]); destruct j; discriminate|]).
    destruct i; discriminate.
Qed.
Lemma end_recorders_distinct : NoDup (map (fun p : nat * recorder => rec_name (snd p)) end_recorders).
Proof. cbn. repeat (constructor; [cbn; intuition lia|]). constructor. Qed.

(** Two photons in a ball of dye: whatever becomes of them, the seven figures add up to two. *)
Example C151_example : exists T, compile_scene dye_tree = Some (T, 0%nat) /\ forall ks rows total,
  kernel_tables end_recorders = (ks, rows, total) ->
  let t := Task 9 (fun _ => mid_draws) blue in
  let A := fold_left (fun A calls => tally_ray rows ks calls A)
       (map (fun t => tallies_of (run_task (read_scene T 0) (Some 20%nat) 7 Full t)) [t; t]) acc0 in
  list_sum (map (fun r => match nth_error end_recorders r, nth_error ks r with
                          | Some p, Some k => if end_recorder p then r_rays (engine_result rows k r A) else 0%nat
                          | _, _ => 0%nat end) (seq 0 7)) = 2%nat.
Proof.
  destruct dye_compiles as [T C]. destruct dye_covers as (_ & Sp & Ph & Tb). exists T. split; [exact C|]. intros ks rows total Et t.
  apply (C151_every_photon_partial kernel_mesh dye_tree T 0 end_recorders ks rows total 20 7 Full [t; t] 10 2 300 800
    kernel_mesh_exact dye_ready C dye_world Sp Ph Tb end_recorders_distinct).
  - rewrite dye_nodes. exact end_recorders_complete.
  - exact Et.
  - lia.
  - assert (Cv : covered (python_scene kernel_mesh dye_tree) dye_tree 2 300 800 7 Full t).
    { split; cbn [t tk_draws tk_ray tk_fuel].
      - exact mid_positive.
      - split; [unfold blue; cbn [position]; rewrite norm_axis, Rabs_R0; lra|]. split; [unfold is_unit, dot; simpl; ring|simpl; lra].
      - intros i r' H. apply dye_ordinary. exact (axis_reached _ _ _ _ _ blue_axis H).
      - lia. }
    intros t' [<-|[<-|[]]]; exact Cv.
Qed.

(** A photon thrown outside the world is in none of the figures. *)
Theorem C151_every_photon_refuted : exists root rs tasks m,
  usable root /\ NoDup (map (fun p => rec_name (snd p)) rs) /\ complete (map p_id (geometry_nodes root)) 0 rs /\
  let S := python_scene kernel_mesh root in
  (forall t, In t tasks -> (forall i, wf_draws (tk_draws t i)) /\ is_unit (direction (tk_ray t)) /\ snd (step_forward (tk_fuel t) S 7 None m (tk_draws t) (tk_ray t)) = Done) /\
  list_sum (map (fun q => if end_recorder (fst q) then s_rays (snd q) else 0%nat) (tally_histories (tally_scene S) rs (map (python_history S 7 m) tasks))) = 0%nat /\
  List.length tasks = 1%nat.
Proof.
  exists ball_tree, end_recorders, [Task 5 (fun _ => mid_draws) lost], KT. split; [exact ball_usable|]. split; [exact end_recorders_distinct|].
  assert (Cp : complete (map p_id (geometry_nodes ball_tree)) 0 end_recorders) by (rewrite ball_nodes; exact end_recorders_complete).
  split; [exact Cp|]. intros S.
  assert (P : step_forward 5 S 7 None KT (fun _ => mid_draws) lost = ([Event GENERATE lost None None None None None], Done)).
  { unfold step_forward. cbn [loop]. unfold pass. change (next_hit S lost) with (next_hit glass lost). rewrite lost_hits. reflexivity. }
  split; [|split; [|reflexivity]].
  - intros t [<-|[]]. cbn [tk_draws tk_ray tk_fuel]. split; [intros _; exact wf_mid|]. split; [unfold is_unit, dot; simpl; ring|]. now rewrite P.
  - pose proof (C151_recorders_account kernel_mesh ball_tree 7 KT end_recorders [Task 5 (fun _ => mid_draws) lost] ball_usable end_recorders_distinct Cp) as [E _].
    fold S in E. rewrite E. cbn [map]. unfold python_history. cbn [tk_fuel tk_draws tk_ray]. rewrite P. reflexivity.
Qed.
Print Assumptions C151_every_photon_refuted.
