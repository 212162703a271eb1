(** C10, C11: the event budget (max_events) and the recorder tallies. *)
From Coq Require Import Reals Lra List Bool Arith Lia.
From Verif Require Import Base Vec Interp DistModel MaterialModel OpticsModel PhaseModel TransformModel TransformProofs GeomModel GeomProofs
  TracerModel TracerProofs TracerProps KernelModel KernelProofs KernelProps LogProofs.
Import ListNotations.
Open Scope R_scope.

Definition log_of (x : list event * list tally_call * kstatus) : list event := fst (fst x).
Definition tallies_of (x : list event * list tally_call * kstatus) : list tally_call := snd (fst x).
Definition status_of (x : list event * list tally_call * kstatus) : kstatus := snd x.

(** ** Worked kernel scenes *)
Lemma k_axis_sphere r : / 10 < r -> k_intersect_sphere r (V 0 0 0) (V 1 0 0) = [r].
Proof.
  intros Hr. unfold k_intersect_sphere, dot; cbn [vx vy vz]. cbv zeta.
  match goal with |- context [Rltb ?a 0] => replace a with ((2 * r) * (2 * r)) by ring end.
  rewrite sqrt_square by lra. rewrite (proj2 (Rltb_false _ 0)) by nra.
  pose proof eps_tiny. pose proof EPS_pos.
  match goal with |- context [Rltb EPS_ZERO ?a] => replace a with (- r) by field end.
  rewrite (proj2 (Rltb_false EPS_ZERO (- r))) by lra.
  match goal with |- context [Rltb EPS_ZERO ?a] => replace a with r by field end.
  now rewrite (proj2 (Rltb_true EPS_ZERO r)) by lra.
Qed.

(** An empty world; the ray leaves at once. *)
Definition k_world : kscene :=
  KScene 1 0 (fun _ => rid) (fun _ => rid) (fun _ => Sphere 10) (fun _ => 1) (fun _ => false) (fun _ => []).
Lemma k_world_hit : k_next_hit k_world (V 0 0 0) (V 1 0 0) = Some (0%nat, 0%nat, None, 10).
Proof.
  unfold k_next_hit, hit_table, all_hits. cbn [k_nodes k_world seq flat_map]. unfold node_ts. cbn [k_shape k_world k_w2l].
  rewrite to_point_rid, to_vector_rid. cbn [intersect_node]. rewrite k_axis_sphere by lra. reflexivity.
Qed.
(** A weakly scattering ball of radius 1 in a world of radius 10. *)
Definition fog : component := Component Scatterer (DConst 1) 1 0 0 (cone (PI / 6)) (DConst 0).
Definition k_fog : kscene :=
  KScene 2 0 (fun _ => rid) (fun _ => rid) (fun n => match n with O => Sphere 10 | _ => Sphere 1 end)
    (fun _ => 1) (fun _ => false) (fun n => match n with O => [] | _ => [(fog, PhCone (PI / 6))] end).
Lemma k_fog_hit : k_next_hit k_fog (V 0 0 0) (V 1 0 0) = Some (1%nat, 1%nat, Some 0%nat, 1).
Proof.
  assert (H0 : node_ts k_fog (V 0 0 0) (V 1 0 0) 0 = [10]).
  { unfold node_ts. cbn [k_shape k_fog k_w2l]. rewrite to_point_rid, to_vector_rid. cbn [intersect_node]. apply k_axis_sphere. lra. }
  assert (H1 : node_ts k_fog (V 0 0 0) (V 1 0 0) 1 = [1]).
  { unfold node_ts. cbn [k_shape k_fog k_w2l]. rewrite to_point_rid, to_vector_rid. cbn [intersect_node]. apply k_axis_sphere. lra. }
  unfold k_next_hit, hit_table, all_hits, k_container. cbn [k_nodes k_fog seq flat_map fold_left]. rewrite H0, H1.
  cbn [map app firstn MAX_HITS]. unfold k_first, k_second, t_of, n_at, lt_best, node_min. cbn [length Nat.sub seq fold_left nth snd fst Nat.eqb andb].
  rewrite (proj2 (Rltb_true 1 10)) by lra. cbn [fst Nat.eqb nth snd]. reflexivity.
Qed.
Lemma k_fog_pass ms : (1 <= ms)%nat -> exists evs ts r', k_pass k_fog ms KT mid_draws 1 start = KContinue evs ts r' /\ kinds evs = [ABSORB; SCATTER].
Proof.
  intros Hms. unfold k_pass. change (position start) with (V 0 0 0). change (direction start) with (V 1 0 0). rewrite k_fog_hit.
  destruct (Nat.ltb_spec ms 1); [lia|]. cbn [Nat.eqb k_root k_fog k_comps map fst].
  assert (Hd : k_depth (k_total [fog] (wavelength start)) (u_depth mid_draws) = Fin (- ln (1 - 1/2) / (0 + 1))).
  { change (k_total [fog] (wavelength start)) with (0 + 1). unfold k_depth.
    rewrite (proj2 (Rltb_true _ _)) by (unfold alpha_tol; lra). reflexivity. }
  rewrite Hd. assert (Hl : - ln (1 - 1/2) / (0 + 1) < 1).
  { replace (1 - 1/2) with (/ 2) by lra. rewrite ln_Rinv by lra. pose proof (exp_ineq1 1 ltac:(lra)) as He1.
    assert (ln 2 < ln (exp 1)) by (apply ln_increasing; lra). rewrite ln_exp in *. unfold Rdiv. rewrite Rplus_0_l, Rinv_1. lra. }
  rewrite (proj2 (Rltb_true _ 1) Hl).
  assert (E : k_select [1] (1/2) = 0%nat).
  { unfold k_select, k_select_from, rsum, fold_right. now rewrite (proj2 (Rleb_true _ _)) by lra. }
  unfold k_absorb. cbv zeta. cbn [k_comps k_fog map fst].
  change (k_coefficient (c_dist fog) _) with 1. change (u_comp mid_draws) with (1/2). rewrite E.
  cbn [nth_error]. unfold k_is_radiative. cbn [c_kind c_qy fog u_rad mid_draws].
  rewrite (proj2 (Rltb_true (1/2) 1)) by lra. do 3 eexists. split; reflexivity.
Qed.

(** ** C10 *)
(** A recorded ray is killed when its log is full, an unrecorded one is not: with
    max_events = 2 a ray that leaves the scene is tallied only if it is not recorded. *)
Theorem C10_tallies_independent_refuted : exists fuel K max_events ms m us r,
  tallies_of (trace_one fuel K (Some max_events) ms m us r) <> tallies_of (trace_one fuel K None ms m us r).
Proof.
  exists 2%nat, k_world, 2%nat, 7%nat, KT, (fun _ => mid_draws), start. unfold trace_one. cbn [k_loop record length Nat.leb app budget_spent Nat.add].
  unfold k_pass. change (position start) with (V 0 0 0). change (direction start) with (V 1 0 0). rewrite k_world_hit.
  cbn [Nat.ltb Nat.leb Nat.eqb k_root k_world]. discriminate.
Qed.
Print Assumptions C10_tallies_independent_refuted.

(** If the budget does not end the ray, its tallies, its log and the way it ends are
    independent of recording and of max_events. *)
Theorem C10_tallies_independent_partial : forall fuel K max_events ms m us r, (1 <= max_events)%nat ->
  status_of (trace_one fuel K (Some max_events) ms m us r) <> KBudget ->
  tallies_of (trace_one fuel K (Some max_events) ms m us r) = tallies_of (trace_one fuel K None ms m us r) /\
  status_of (trace_one fuel K (Some max_events) ms m us r) = status_of (trace_one fuel K None ms m us r) /\
  forall more, (max_events <= more)%nat -> trace_one fuel K (Some more) ms m us r = trace_one fuel K (Some max_events) ms m us r.
Proof.
  intros fuel K b ms m us r Hb Hs.
  assert (Hr : forall x, (1 <= x)%nat -> record (Some x) [] (Event GENERATE r None None None None None) = [Event GENERATE r None None None None None]).
  { intros x Hx. unfold record. simpl. destruct x; [lia|reflexivity]. }
  unfold trace_one in *. rewrite unlogged. rewrite (Hr b Hb) in *.
  pose proof (loop_cut K b ms m us fuel 0 [Event GENERATE r None None None None None] r ltac:(simpl; lia)) as C.
  inversion C as [evs ts st E E1|evs ts st pre rest pts trest rk E Ee Et Hl E1|evs ts st pre rest pts trest E Ee Et Hl Hp E1];
    rewrite <- E1 in *; try (now contradict Hs). rewrite E. split; [reflexivity|]. split; [reflexivity|].
  intros x Hx. rewrite (Hr x) by lia.
  pose proof (loop_cut K x ms m us fuel 0 [Event GENERATE r None None None None None] r ltac:(simpl; lia)) as C'.
  (* the log fits in b rows *)
  assert (Fit : forall n y (log : list event), (length log < b)%nat -> forall c q,
    status_of (k_loop n K (Some b) ms m us c log q) <> KBudget -> (b <= y)%nat ->
    k_loop n K (Some y) ms m us c log q = k_loop n K (Some b) ms m us c log q).
  { clear. induction n as [|n IH]; intros y log Hl c q Hn Hy; simpl in *; [reflexivity|].
    destruct (Nat.leb_spec b (length log + 1)); [now contradict Hn|]. destruct (Nat.leb_spec y (length log + 1)); [lia|].
    pose proof (k_pass_shape K ms m (us (S c)) (S c) q) as Hs.
    destruct (k_pass K ms m (us (S c)) (S c) q) as [evs ts|evs ts q'|]; [|..|reflexivity].
    - rewrite !fill_log by lia. reflexivity.
    - rewrite fill_log in * by lia. rewrite fill_log by lia.
      assert (Hl' : (length (log ++ evs) < b \/ length (log ++ evs) = b)%nat) by (rewrite app_length; lia).
      destruct Hl' as [Hl'|Hl'].
      + rewrite (IH y (log ++ evs) Hl'); [reflexivity| |exact Hy]. intros Hc. apply Hn.
        destruct (k_loop n K (Some b) ms m us (S c) (log ++ evs) q') as [[? ?] ?]. exact Hc.
      + destruct n as [|n]; [reflexivity|]. simpl in Hn. destruct (Nat.leb_spec b (length (log ++ evs) + 1)); [now contradict Hn|lia]. }
  destruct (Nat.eq_dec b 1) as [->|Hb1].
  - destruct fuel; [rewrite E1; reflexivity|]. exfalso. simpl in E1. apply Hs. injection E1 as _ _ ->. reflexivity.
  - rewrite E1. apply Fit; [simpl; lia| |exact Hx]. rewrite <- E1. exact Hs.
Qed.
Print Assumptions C10_tallies_independent_partial.

(** The budget never binds when max_events >= 2 * maxsteps + 4 ... *)
Theorem C10_large_budget_partial : forall fuel K max_events ms m us r, (2 * ms + 4 <= max_events)%nat ->
  status_of (trace_one fuel K (Some max_events) ms m us r) <> KBudget.
Proof.
  intros fuel K b ms m us r Hb H. unfold trace_one in H.
  pose proof (loop_cut K b ms m us fuel 0 (record (Some b) [] (Event GENERATE r None None None None None)) r) as C.
  assert (E0 : record (Some b) [] (Event GENERATE r None None None None None) = [Event GENERATE r None None None None None]).
  { unfold record. simpl. destruct b; [lia|reflexivity]. }
  rewrite E0 in *. specialize (C ltac:(simpl; lia)).
  pose proof (free_run_length K ms m us fuel 0 r) as L.
  inversion C as [evs ts st E E1|evs ts st pre rest pts trest rk E Ee Et Hl E1|evs ts st pre rest pts trest E Ee Et Hl Hp E1];
    rewrite <- E1 in H; rewrite E in L; cbn [fst] in L.
  - cbn [status_of snd] in H. subst st. apply (free_run_status K ms m us fuel 0 r). now rewrite E.
  - subst evs. rewrite app_length in L. rewrite app_length in Hl. simpl in Hl. lia.
  - subst evs. rewrite app_length in L. rewrite app_length in Hl. simpl in Hl. lia.
Qed.
Print Assumptions C10_large_budget_partial.

(** ... and in any case a recorded ray's tallies are an initial part of those of the same
    ray unrecorded: recording can lose tallies but never adds or alters any. *)
Theorem C10_tallies_prefix_partial : forall fuel K max_events ms m us r, (1 <= max_events)%nat ->
  exists lost, tallies_of (trace_one fuel K None ms m us r) = tallies_of (trace_one fuel K (Some max_events) ms m us r) ++ lost.
Proof.
  intros fuel K b ms m us r Hb. unfold trace_one. rewrite unlogged.
  assert (E0 : record (Some b) [] (Event GENERATE r None None None None None) = [Event GENERATE r None None None None None]).
  { unfold record. simpl. destruct b; [lia|reflexivity]. }
  rewrite E0. pose proof (loop_cut K b ms m us fuel 0 [Event GENERATE r None None None None None] r ltac:(simpl; lia)) as C.
  inversion C as [evs ts st E E1|evs ts st pre rest pts trest rk E Ee Et Hl E1|evs ts st pre rest pts trest E Ee Et Hl Hp E1];
    cbn [tallies_of fst snd]; rewrite E; cbn [fst snd].
  - exists []. now rewrite app_nil_r.
  - exists trest. exact Et.
  - exists trest. exact Et.
Qed.
Print Assumptions C10_tallies_prefix_partial.

Example C10_example : status_of (trace_one 5 k_world (Some 3%nat) 7 KT (fun _ => mid_draws) start) = KDone /\
  length (tallies_of (trace_one 5 k_world (Some 3%nat) 7 KT (fun _ => mid_draws) start)) = 1%nat.
Proof.
  unfold trace_one. cbn [k_loop record length Nat.leb app budget_spent Nat.add].
  unfold k_pass. change (position start) with (V 0 0 0). change (direction start) with (V 1 0 0). rewrite k_world_hit.
  cbn [Nat.ltb Nat.leb Nat.eqb k_root k_world]. split; reflexivity.
Qed.

(** ** C11 *)
(** ABSORB and SCATTER (or EMIT) are written by one pass; when they take the last two rows
    the KILL record is dropped.  With max_events = 1 it is always dropped. *)
Theorem C11_exhaustion_visible_refuted :
  (exists fuel K max_events ms m us r evs ts e, (2 <= max_events)%nat /\
    trace_one fuel K (Some max_events) ms m us r = (evs ++ [e], ts, KBudget) /\ e_kind e = SCATTER) /\
  (exists fuel K ms m us r e ts, trace_one fuel K (Some 1%nat) ms m us r = ([e], ts, KBudget) /\ e_kind e = GENERATE).
Proof.
  split.
  - destruct (k_fog_pass 7 ltac:(lia)) as (evs & ts & r' & E & Hk).
    destruct evs as [|a [|e [|? ?]]]; try discriminate.
    exists 2%nat, k_fog, 3%nat, 7%nat, KT, (fun _ => mid_draws), start, [Event GENERATE start None None None None None; a], (ts ++ []), e.
    split; [lia|]. split; [|now injection Hk].
    unfold trace_one. cbn [k_loop record length Nat.leb app budget_spent Nat.add]. rewrite E.
    cbn [fold_left record length Nat.leb app budget_spent Nat.add]. reflexivity.
  - exists 1%nat, k_world, 7%nat, KT, (fun _ => mid_draws), start, (Event GENERATE start None None None None None), []. split; reflexivity.
Qed.
Print Assumptions C11_exhaustion_visible_refuted.

(** What does hold: a ray that runs out of budget fills its log to exactly max_events
    rows, the rows before the last are the first events of the unlimited run, and the
    last row is KILL unless it is the EMIT or SCATTER of a re-emission (or the log has a
    single row). *)
Theorem C11_exhaustion_visible_partial : forall fuel K max_events ms m us r log ts, (1 <= max_events)%nat ->
  trace_one fuel K (Some max_events) ms m us r = (log, ts, KBudget) ->
  length log = max_events /\
  (max_events = 1%nat \/
   (exists pre e, log = pre ++ [e] /\ (e_kind e = KILL \/
      exists a p, pre = p ++ [a] /\ e_kind a = ABSORB /\ (e_kind e = EMIT \/ e_kind e = SCATTER)) /\
      forall more, (max_events <= more)%nat -> exists rest, log_of (trace_one fuel K (Some more) ms m us r) = pre ++ rest)).
Proof.
  intros fuel K b ms m us r log ts Hb E.
  assert (G : forall x, (1 <= x)%nat -> record (Some x) [] (Event GENERATE r None None None None None) = [Event GENERATE r None None None None None]).
  { intros x Hx. unfold record. simpl. destruct x; [lia|reflexivity]. }
  unfold trace_one in *. rewrite (G b Hb) in E. set (g := [Event GENERATE r None None None None None]) in *.
  assert (Hg : length g = 1%nat) by reflexivity. clearbody g.
  pose proof (loop_cut K b ms m us fuel 0 g r ltac:(lia)) as C. rewrite E in C.
  (* prefixes of the free run are prefixes of every longer log *)
  assert (More : forall pre rest tl st, free_run fuel K ms m us 0 r = (pre ++ rest, tl, st) -> forall x, (b <= x)%nat -> (length (g ++ pre) < b)%nat ->
    exists rest', log_of (k_loop fuel K (Some x) ms m us 0 g r) = (g ++ pre) ++ rest').
  { intros pre rest tl st Ef x Hx Hl. pose proof (loop_cut K x ms m us fuel 0 g r ltac:(lia)) as C'.
    inversion C' as [evs' ts' st' E' E1|evs' ts' st' pre' rest' pts trest rk E' Ee Et Hl' E1|evs' ts' st' pre' rest' pts trest E' Ee Et Hl' Hp E1];
      cbn [log_of fst]; rewrite Ef in E'.
    - injection E' as <- <- <-. exists rest. now rewrite app_assoc.
    - injection E' as E2 _ _. rewrite Ee in E2. rewrite app_length in Hl, Hl'.
      assert (Hpp : exists z, pre' = pre ++ z \/ (length pre = length pre' + 1)%nat).
      { destruct (Nat.le_gt_cases (length pre) (length pre')) as [Hle|Hgt].
        - apply (f_equal (firstn (length pre'))) in E2. rewrite !firstn_app, Nat.sub_diag, firstn_all in E2. simpl in E2.
          rewrite app_nil_r in E2. rewrite (firstn_all2 pre) in E2 by lia. eexists. left. symmetry. exact E2.
        - exists []. right. lia. }
      destruct Hpp as (z & [->|Hbig]); [|lia]. exists (z ++ [kill_of rk]). rewrite <- !app_assoc. reflexivity.
    - injection E' as E2 _ _. rewrite Ee in E2. rewrite app_length in Hl, Hl'.
      apply (f_equal (firstn (length pre'))) in E2. rewrite !firstn_app, Nat.sub_diag, firstn_all in E2. simpl in E2.
      rewrite app_nil_r in E2. rewrite (firstn_all2 pre) in E2 by lia. eexists. rewrite <- app_assoc. f_equal. symmetry. exact E2. }
  inversion C as [evs ts' st Ef E1|evs ts' st pre rest pts trest rk Ef Ee Et Hl E1|evs ts' st pre rest pts trest Ef Ee Et Hl Hp E1].
  - exfalso. apply (free_run_status K ms m us fuel 0 r). rewrite Ef. cbn [snd]. congruence.
  - rewrite app_length in Hl. split; [rewrite !app_length; simpl; lia|]. right.
    exists (g ++ pre), (kill_of rk). split; [now rewrite app_assoc|]. split; [now left|].
    intros x Hx. rewrite (G x) by lia. subst evs. eapply More; eauto. rewrite app_length. lia.
  - split; [exact Hl|]. destruct Hp as [->|(p & a & e & -> & Ha & He)].
    + left. rewrite app_nil_r in Hl. lia.
    + right. exists (g ++ p ++ [a]), e. split; [now rewrite <- !app_assoc|]. split.
      * right. exists a, (g ++ p). split; [apply app_assoc|auto].
      * intros x Hx. rewrite (G x) by lia. subst evs.
        replace ((p ++ [a; e]) ++ rest) with ((p ++ [a]) ++ (e :: rest)) in Ef by (rewrite <- !app_assoc; reflexivity).
        eapply (More (p ++ [a])); eauto. rewrite !app_length in *. simpl in *. lia.
Qed.
Print Assumptions C11_exhaustion_visible_partial.

(** A ray that does not run out of budget loses no event: its log is the same for every
    larger max_events (third part of C10_tallies_independent_partial). *)
Example C11_example : trace_one 5 k_world (Some 2%nat) 7 KT (fun _ => mid_draws) start =
  ([Event GENERATE start None None None None None; kill_of start], [], KBudget).
Proof. reflexivity. Qed.
