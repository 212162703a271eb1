(** C09: the compiled tracer and the Python tracer produce the same histories; C78: the
    frame in which phase functions are applied. *)
From Coq Require Import Reals Lra Psatz List Bool Arith Lia Permutation Sorted.
From Verif Require Import Base Vec Interp DistModel DistProps MaterialModel MaterialSpec MaterialProofs MaterialProps
  OpticsModel OpticsProofs OpticsProps PhaseModel PhaseProps TransformModel TransformProofs GeomModel GeomProofs GeomProps
  TracerModel TracerProofs TracerProps KernelModel KernelProofs KernelSim.
Import ListNotations.
Open Scope R_scope.

(** ** The loop *)
(** The ray with which pass i+1 of the Python tracer starts. *)
Inductive reaches (S : scene) (ms : nat) (m : emit_method) (us : nat -> draws) (r0 : ray) : nat -> ray -> Prop :=
| reach0 : reaches S ms m us r0 0 r0
| reachS i r evs r' : reaches S ms m us r0 i r ->
    pass S ms None m (us (Datatypes.S i)) (Datatypes.S i) r = Continue evs r' ->
    reaches S ms m us r0 (Datatypes.S i) r'.

(** The end states of the two tracers. *)
Definition status_match (st : status) (kst : kstatus) : Prop :=
  match st, kst with Done, KDone => True | OutOfFuel, KRunning => True | _, _ => False end.

Lemma record_room b log evs : (length log + length evs <= b)%nat -> fold_left (record (Some b)) evs log = log ++ evs.
Proof.
  revert log. induction evs as [|e evs IH]; intros log H; simpl in *; [now rewrite app_nil_r|].
  destruct (Nat.leb_spec b (length log)); [lia|].
  rewrite IH by (rewrite app_length; simpl; lia). now rewrite <- app_assoc.
Qed.

Lemma loop_agrees S K ms m us vs r0 b : compiled S K -> wf_scene S -> (forall i, wf_draws (us i)) ->
  (forall i r, reaches S ms m us r0 i r -> generic S K (us (Datatypes.S i)) r /\ same_outcomes S K (us (Datatypes.S i)) (vs (Datatypes.S i)) r) ->
  forall fuel count log r, is_unit (direction r) -> reaches S ms m us r0 count r ->
  forall evs st, loop fuel S ms None m us count r = (evs, st) -> st <> Raised ->
  (length log + length evs + 1 < b)%nat ->
  exists ts kst, k_loop fuel K (Some b) ms m vs count log r = (log ++ evs, ts, kst) /\ status_match st kst.
Proof.
  intros W Ws Hus Hg. induction fuel as [|fuel IH]; intros count log r Hd Hr evs st E Hst Hb.
  - injection E as <- <-. exists [], KRunning. rewrite app_nil_r. split; [reflexivity|exact I].
  - simpl in E. simpl k_loop.
    destruct (Nat.leb_spec b (length log + 1)); [lia|].
    destruct (Hg _ _ Hr) as [Hgen Hso].
    pose proof (pass_agrees S K ms m (us (Datatypes.S count)) (vs (Datatypes.S count)) (Datatypes.S count) r W Hso Hd Hgen) as A.
    pose proof (pass_chain S ms None m (us (Datatypes.S count)) (Datatypes.S count) r Ws (Hus _) Hd) as C.
    destruct (pass S ms None m _ _ r) as [e|e|e r'] eqn:Ep.
    + injection E as <- <-. destruct A as [ts ->]. exists ts, KDone. rewrite record_room by lia. split; [reflexivity|exact I].
    + injection E as _ <-. now contradict Hst.
    + destruct A as [ts ->]. destruct (loop fuel S ms None m us _ r') as [rest st'] eqn:El. injection E as <- <-.
      rewrite app_length in Hb. destruct C as [Hc He].
      destruct (IH (Datatypes.S count) (log ++ e) r') with (evs := rest) (st := st') as (ts' & kst & Ek & Hm).
      * rewrite <- He. now apply (chain_end_unit S).
      * econstructor; eassumption.
      * exact El.
      * exact Hst.
      * rewrite app_length. lia.
      * exists (ts ++ ts'), kst. split; [|exact Hm]. rewrite record_room by lia. rewrite Ek. now rewrite app_assoc.
Qed.

(** Whole histories, event by event: kind, ray (position, direction, wavelength, travelled,
    duration, source), hit, container, adjacent, component and normal are all equal. *)
Theorem C09_same_history : forall S K fuel ms m us vs r max_events evs st,
  compiled S K -> wf_scene S -> (forall i, wf_draws (us i)) -> is_unit (direction r) ->
  (forall i r', reaches S ms m us r i r' -> generic S K (us (Datatypes.S i)) r' /\
     same_outcomes S K (us (Datatypes.S i)) (vs (Datatypes.S i)) r') ->
  step_forward fuel S ms None m us r = (evs, st) -> st <> Raised -> (length evs + 1 < max_events)%nat ->
  exists ts kst, trace_one fuel K (Some max_events) ms m vs r = (evs, ts, kst) /\ status_match st kst.
Proof.
  intros S K fuel ms m us vs r b evs st W Ws Hus Hd Hg E Hst Hb. unfold step_forward in E.
  destruct (loop fuel S ms None m us 0 r) as [l st'] eqn:El. injection E as <- <-. simpl in Hb.
  unfold trace_one. assert (Er : record (Some b) [] (Event GENERATE r None None None None None) = [Event GENERATE r None None None None None]).
  { unfold record. simpl. destruct b; [lia|reflexivity]. }
  rewrite Er.
  destruct (loop_agrees S K ms m us vs r b W Ws Hus Hg fuel 0 [Event GENERATE r None None None None None] r Hd (reach0 _ _ _ _ _) l st' El Hst)
    as (ts & kst & Ek & Hm); [simpl; lia|].
  exists ts, kst. split; [exact Ek|exact Hm].
Qed.
Print Assumptions C09_same_history.

(** With literally the same draws, if no re-emitting node is turned. *)
Theorem C09_same_draws : forall S K fuel ms m us r max_events evs st,
  compiled S K -> compiled_phases K -> upright S -> wf_scene S -> (forall i, wf_draws (us i)) -> is_unit (direction r) ->
  (forall i r', reaches S ms m us r i r' -> generic S K (us (Datatypes.S i)) r') ->
  step_forward fuel S ms None m us r = (evs, st) -> st <> Raised -> (length evs + 1 < max_events)%nat ->
  exists ts kst, trace_one fuel K (Some max_events) ms m us r = (evs, ts, kst) /\ status_match st kst.
Proof.
  intros S K fuel ms m us r b evs st W Hp Up Ws Hus Hd Hg. apply C09_same_history; auto.
  intros i r' H. split; [now apply Hg|]. now apply upright_same_outcomes.
Qed.
Print Assumptions C09_same_draws.

(** ** Scene trees: the crossings seen by the two engines *)
Lemma insert_swap i x y (s : list (nat * R)) :
  insert_by snd (i, x) (insert_by snd (i, y) s) = insert_by snd (i, y) (insert_by snd (i, x) s).
Proof.
  induction s as [|[j z] s IH]; simpl.
  - destruct (Rltb_spec y x), (Rltb_spec x y); try reflexivity; [lra|]. assert (x = y) by lra. now subst.
  - destruct (Rltb_spec z y), (Rltb_spec z x); simpl.
    + rewrite (proj2 (Rltb_true z x)), (proj2 (Rltb_true z y)) by lra. now rewrite IH.
    + rewrite (proj2 (Rltb_false z x)) by lra. rewrite (proj2 (Rltb_true x y)) by lra. simpl. now rewrite (proj2 (Rltb_true z y)) by lra.
    + rewrite (proj2 (Rltb_true y x)) by lra. simpl. rewrite (proj2 (Rltb_true z x)) by lra. now rewrite (proj2 (Rltb_false z y)) by lra.
    + destruct (Rltb_spec y x), (Rltb_spec x y); simpl.
      * lra.
      * now rewrite (proj2 (Rltb_false z x)) by lra.
      * now rewrite (proj2 (Rltb_false z y)) by lra.
      * assert (x = y) by lra. now subst.
Qed.

Lemma in_sorted {A} (key : A -> R) a l : In a (sort_by key l) -> In a l.
Proof. apply Permutation_in. symmetry. apply sort_by_perm. Qed.

Lemma sort_app_congr {A} (key : A -> R) a l l' : sort_by key l = sort_by key l' -> sort_by key (a ++ l) = sort_by key (a ++ l').
Proof. intros H. induction a as [|x a IH]; simpl; [exact H|]. now rewrite IH. Qed.

Lemma sort_block i l l' (s : list (nat * R)) : Permutation l l' ->
  sort_by snd (map (pair i) l ++ s) = sort_by snd (map (pair i) l' ++ s).
Proof.
  induction 1 as [|x l l' _ IH|x y l|l l' l'' _ IH1 _ IH2]; simpl; [reflexivity|now rewrite IH|apply insert_swap|now rewrite IH1].
Qed.

Lemma sort_blocks (f g : nat -> list R) l : (forall i, In i l -> Permutation (f i) (g i)) ->
  sort_by snd (flat_map (fun i => map (pair i) (f i)) l) = sort_by snd (flat_map (fun i => map (pair i) (g i)) l).
Proof.
  induction l as [|i l IH]; intros H; simpl; [reflexivity|]. rewrite (sort_block i (f i) (g i)) by (apply H; now left).
  apply sort_app_congr, IH. intros j Hj. apply H. now right.
Qed.

Lemma sort_by_ext {A} (k1 k2 : A -> R) l : (forall a, In a l -> k1 a = k2 a) -> sort_by k1 l = sort_by k2 l.
Proof.
  induction l as [|a l IH]; intros H; simpl; [reflexivity|]. rewrite IH by (intros; apply H; now right).
  assert (G : forall s, (forall b, In b s -> k1 b = k2 b) -> insert_by k1 a s = insert_by k2 a s).
  { induction s as [|b s IHs]; intros Hs; simpl; [reflexivity|].
    rewrite (H a) by (now left). rewrite (Hs b) by (now left). rewrite IHs by (intros; apply Hs; now right). reflexivity. }
  apply G. intros b Hb. apply H. right. now apply (in_sorted k2).
Qed.

(** At this ray the geometry [f] of a node crosses the ray at parameters ts, of which the
    kernel's [kts] are those beyond EPS_ZERO. *)
Definition regular (f : vec -> vec -> list vec) (o d : vec) (kts : list R) : Prop :=
  exists ts, f o d = map (at_ray o d) ts /\ Forall (fun t => 0 <= t) ts /\
    Permutation (filter (fun t => Rltb EPS_ZERO t) ts) kts.

(** A node tree whose i-th placed geometry (pre-order) has world pose k_l2w i: this is what
    compiler.py 62-89 reads off the scene. *)
Theorem C09_geometry_agrees : forall S K tree geo p d,
  hits S = scene_intersections tree -> below wf_rigid tree -> is_unit d ->
  placements tree = map (fun i => (k_l2w K i, i, geo i)) (seq 0 (k_nodes K)) ->
  (forall i, wf_rigid (k_l2w K i) /\ k_w2l K i = rinv (k_l2w K i)) ->
  (forall i, (i < k_nodes K)%nat ->
     regular (geo i) (to_point (k_w2l K i) p) (to_vector (k_w2l K i) d) (node_ts K p d i)) ->
  same_hits S K p d.
Proof.
  intros S K tree geo p d Hh Hb Hd Hp Hf Hr. unfold same_hits. cbv zeta. rewrite Hh.
  (* the parameters found by Python, node by node *)
  assert (Hts : exists ts : nat -> list R, forall i, In i (seq 0 (k_nodes K)) ->
    geo i (to_point (k_w2l K i) p) (to_vector (k_w2l K i) d) = map (at_ray (to_point (k_w2l K i) p) (to_vector (k_w2l K i) d)) (ts i) /\
    Forall (fun t => 0 <= t) (ts i) /\ Permutation (filter (fun t => Rltb EPS_ZERO t) (ts i)) (node_ts K p d i)).
  { clear Hp Hb. generalize (k_nodes K) Hr. intros n. induction n as [|n IH]; intros Hr'.
    - exists (fun _ => []). intros i [].
    - destruct IH as [ts Hts]; [intros i Hi; apply Hr'; lia|]. destruct (Hr' n) as [t Ht]; [lia|].
      exists (fun i => if Nat.eqb i n then t else ts i). intros i Hi. apply in_seq in Hi.
      destruct (Nat.eqb_spec i n) as [->|Hn]; [exact Ht|]. apply Hts. apply in_seq. lia. }
  destruct Hts as [ts Hts].
  set (mk := fun q : nat * R => Hit (fst q) (at_ray p d (snd q)) (snd q)).
  set (pairs := flat_map (fun i => map (pair i) (ts i)) (seq 0 (k_nodes K))).
  assert (En : node_hits tree rid p d = map mk pairs).
  { rewrite node_hits_placements.
    2:{ clear - Hb. revert tree Hb. fix IH 2. intros tree Hb. destruct Hb as [id g geom children Hc]. constructor.
        intros c Hin. destruct (Hc c Hin) as [H1 H2]. split; [now apply IH|]. destruct c. now apply wf_invertible. }
    rewrite Hp, flat_map_map. unfold pairs. clear Hp pairs. induction (seq 0 (k_nodes K)) as [|i l IH]; [reflexivity|].
    specialize (IH (fun j Hj => Hts j (or_intror Hj))). cbn [flat_map]. rewrite map_app, IH. f_equal. clear IH.
    destruct (Hts i (or_introl eq_refl)) as (E & Hpos & _). destruct (Hf i) as [Wi Ei].
    unfold hits_of. rewrite ainv_rinv by exact Wi. rewrite <- Ei, E, rcomp_id_l, !map_map.
    apply map_ext_in. intros t Ht. rewrite Forall_forall in Hpos. specialize (Hpos t Ht). unfold mk; simpl. f_equal.
    - unfold at_ray. rewrite to_point_line, Ei, rinv_point_r, rinv_vector_r by exact Wi. reflexivity.
    - unfold at_ray. apply distance_along; [|exact Hpos]. unfold is_unit. rewrite Ei, to_vector_dot by now apply wf_rinv. exact Hd. }
  assert (Hpos : forall q, In q pairs -> 0 <= snd q).
  { intros [i t] Hq. unfold pairs in Hq. apply in_flat_map in Hq. destruct Hq as (j & Hj & Hq). apply in_map_iff in Hq.
    destruct Hq as (t' & [= <- <-] & Ht). destruct (Hts j Hj) as (_ & H & _). rewrite Forall_forall in H. now apply H. }
  assert (Ha : forall q, intersection_point_is_ahead p d (h_point (mk q)) = Rltb EPS_ZERO (snd q)).
  { intros [i t]. unfold intersection_point_is_ahead, mk, at_ray; cbn [h_point fst snd]. f_equal.
    transitivity (t * dot d d); [unfold dot, vadd, vscale; simpl; ring|]. unfold is_unit in Hd. rewrite Hd. ring. }
  set (ahead := filter (fun q : nat * R => Rltb EPS_ZERO (snd q)) pairs).
  assert (Ef : filter (fun i => intersection_point_is_ahead p d (h_point i)) (map mk pairs) = map mk ahead).
  { unfold ahead. clear - Ha. induction pairs as [|q l IH]; [reflexivity|]. cbn [map filter]. rewrite Ha, IH. now destruct (Rltb _ _). }
  assert (Hah : forall q, In q ahead -> EPS_ZERO < snd q).
  { intros q Hq. apply filter_In in Hq. apply Rltb_true. tauto. }
  pose proof EPS_pos as He.
  assert (Es : scene_intersections tree p d = map mk (sort_by snd ahead)).
  { unfold scene_intersections. rewrite En, Ef.
    rewrite <- (map_sort_by mk (fun i => norm (vsub (h_point i) p))). f_equal. apply sort_by_ext. intros q Hq.
    specialize (Hah q Hq). change (norm (vsub (at_ray p d (snd q)) p) = snd q).
    unfold at_ray. replace (vsub (vadd p (vscale (snd q) d)) p) with (vscale (snd q) d) by (apply vec_eq; simpl; ring).
    rewrite norm_scale_pos, (norm_unit d Hd) by lra. ring. }
  rewrite Es.
  assert (Ec : filter (fun i => negb (close_to_zero (h_distance i))) (map mk (sort_by snd ahead)) = map mk (sort_by snd ahead)).
  { assert (G : forall q, In q (sort_by snd ahead) -> EPS_ZERO < snd q) by (intros q Hq; apply Hah; now apply in_sorted in Hq).
    clear Es. induction (sort_by snd ahead) as [|q l IH]; [reflexivity|]. simpl. rewrite IH by (intros; apply G; now right).
    specialize (G q (or_introl eq_refl)). unfold close_to_zero. rewrite Rabs_right by lra. now rewrite (proj2 (Rltb_false _ _)) by lra. }
  rewrite Ec. split.
  - rewrite map_map. rewrite map_ext with (g := fun q => q) by (now intros []). rewrite map_id.
    unfold ahead, pairs, all_hits. rewrite filter_flat_map.
    rewrite KernelProofs.flat_map_ext_in with (g := fun i => map (pair i) (filter (fun t => Rltb EPS_ZERO t) (ts i))).
    + apply sort_blocks. intros i Hi. apply Hts, Hi.
    + intros i _. induction (ts i) as [|t l IH]; [reflexivity|]. simpl. rewrite IH. now destruct (Rltb _ _).
  - intros x Hx. apply in_map_iff in Hx. destruct Hx as (q & <- & Hq). apply in_sorted in Hq. specialize (Hah q Hq). simpl. split; [lra|reflexivity].
Qed.
Print Assumptions C09_geometry_agrees.

(** Spheres and cylinders are regular away from grazing incidence and rims. *)
Theorem C09_sphere_regular : forall r o d, 0 < r -> is_unit d -> sphere_disc r o d < 0 \/ / 10 ^ 8 < sphere_disc r o d ->
  regular (sphere_intersections r) o d (intersect_node (Sphere r) o d).
Proof.
  intros r o d Hr Hd Hg. exists (sphere_ts r o d). split; [reflexivity|]. split.
  - unfold sphere_ts. cbv zeta. destruct (Rltb _ 0); [constructor|]. apply Forall_forall. intros t Ht. apply filter_In in Ht. now apply Rleb_true.
  - simpl. rewrite C50_engines_agree by assumption. apply Permutation_refl.
Qed.
Print Assumptions C09_sphere_regular.

Theorem C09_cylinder_regular : forall length radius o d, 0 < length -> 0 < radius ->
  (vx d = 0 /\ vy d = 0 \/ tiny < vx d * vx d + vy d * vy d) -> (vz d = 0 \/ tiny < Rabs (vz d)) ->
  (forall t, EPS_ZERO < t -> ~ on_rim length radius (vadd o (vscale t d))) ->
  regular (cylinder_intersections length radius) o d (intersect_node (Cylinder length radius) o d).
Proof.
  intros l r o d Hl Hr H1 H2 H3. exists (ray_z_cylinder l r o d). split; [reflexivity|]. split.
  - apply Forall_forall. intros t Ht. unfold ray_z_cylinder in Ht. cbv zeta in Ht. apply in_sorted in Ht.
    apply in_app_or in Ht. destruct Ht as [Ht|Ht]; apply filter_In in Ht; destruct Ht as [Ht _]; apply filter_In in Ht; now apply Rleb_true.
  - simpl. now apply C54_engines_agree_off_rim.
Qed.
Print Assumptions C09_cylinder_regular.

(** ** The glass ball of TracerProps.v, compiled *)
Definition k_glass : kscene :=
  KScene 2 0 (fun _ => rid) (fun _ => rid) (fun n => match n with O => Sphere 10 | _ => Sphere 1 end)
    (fun n => match n with O => 1 | _ => 3/2 end) (fun _ => false) (fun _ => []).

Lemma rinv_rid : rinv rid = rid.
Proof. rewrite <- ainv_rinv by exact orthogonal_id. apply ainv_rid. Qed.

Lemma unit_vector_kernel p v : unit_vector p = Some v -> k_sphere_normal p = v /\ is_unit v.
Proof.
  intros H. split.
  - unfold unit_vector in H. destruct (Reqb _ _); [discriminate|]. injection H as <-. reflexivity.
  - now apply unit_vector_unit in H.
Qed.

Lemma glass_compiled : compiled glass k_glass /\ compiled_phases k_glass /\ upright glass.
Proof.
  split; [|split; [intros n c ph []|intros n c []]]. split; try (now intros n c []).
  - simpl. lia.
  - reflexivity.
  - intros n. split; [apply wf_translation|]. split; [reflexivity|]. split; [reflexivity|].
    change (rid = rinv (translation_matrix (V 0 0 0))). now rewrite (proj1 translation0).
  - intros [|n]; split; try reflexivity; simpl; lra.
  - reflexivity.
  - reflexivity.
  - intros n p v H. destruct n; now apply unit_vector_kernel.
Qed.

Lemma axis_same_hits x : (x = 0 \/ x = 1) -> same_hits glass k_glass (V x 0 0) (V 1 0 0).
Proof.
  intros Hx. assert (Hu : is_unit (V 1 0 0)) by (unfold is_unit, dot; simpl; ring).
  apply (C09_geometry_agrees glass k_glass (world [ball 1 0 1])
    (fun i => match i with O => sphere_intersections 10 | _ => sphere_intersections 1 end)).
  - reflexivity.
  - constructor. intros c [<-|[]]. split; [constructor; intros c []|apply wf_translation].
  - exact Hu.
  - simpl. f_equal. f_equal. now rewrite rcomp_id_r, (proj2 translation0).
  - intros i. split; [exact orthogonal_id|]. simpl. now rewrite rinv_rid.
  - assert (Hd : forall r, 1 <= r -> / 10 ^ 8 < sphere_disc r (V x 0 0) (V 1 0 0)).
    { intros r Hr. unfold sphere_disc, dot; simpl. destruct Hx as [-> | ->]; nra. }
    intros i Hi. change (k_w2l k_glass i) with rid. unfold node_ts. change (k_w2l k_glass i) with rid.
    rewrite !to_point_rid, !to_vector_rid. destruct i as [|i]; simpl k_shape; apply C09_sphere_regular; try lra; try exact Hu; right; apply Hd; lra.
Qed.

Lemma mid_generic r : position r = V 0 0 0 \/ position r = V 1 0 0 -> direction r = V 1 0 0 ->
  (forall h c a D, next_hit glass r = HitOk h c a D -> 0 <= vx (position r) + D) -> generic glass k_glass mid_draws r.
Proof.
  intros Hp Hd Hn. split.
  - rewrite Hd. destruct Hp as [-> | ->]; apply axis_same_hits; auto.
  - unfold wf_draws, mid_draws; simpl. lra.
  - intros n coefs i [= <-] H. simpl in H. lra.
  - intros h c a D v En d Hv _. unfold d. specialize (Hn _ _ _ _ En).
    change (w2l glass h) with (rinv (translation_matrix (V 0 0 0))) in *. rewrite (proj1 translation0) in *.
    rewrite to_vector_rid. rewrite to_point_rid in Hv. rewrite Hd in *.
    assert (Ep : vadd (position r) (vscale D (V 1 0 0)) = V (vx (position r) + D) 0 0) by (destruct Hp as [-> | ->]; apply vec_eq; simpl; ring).
    rewrite Ep in Hv. change (sphere_normal (V (vx (position r) + D) 0 0) = Some v) in Hv. unfold sphere_normal, unit_vector in Hv.
    rewrite norm_axis, Rabs_right in Hv by lra. destruct (Reqb_spec (vx (position r) + D) 0) as [E|E]; [discriminate|]. injection Hv as <-.
    replace (vscale (/ (vx (position r) + D)) (V (vx (position r) + D) 0 0)) with (V 1 0 0) by (apply vec_eq; simpl; field; exact E).
    unfold along. rewrite (proj2 (Rltb_false _ _)); [reflexivity|]. unfold dot; simpl; lra.
Qed.

Example C09_example : exists e1 e2 ts,
  trace_one 5 k_glass (Some 10%nat) 7 KT (fun _ => mid_draws) start = ([Event GENERATE start None None None None None; e1; e2], ts, KDone) /\
  e_kind e1 = TRANSMIT /\ e_ray e1 = after /\ e_kind e2 = EXIT /\ e_ray e2 = outside.
Proof.
  destruct (glass_history None ltac:(discriminate)) as (e1 & e2 & E & K1 & R1 & K2 & R2). exists e1, e2.
  destruct glass_compiled as (W & Hp & Up). assert (Hu : is_unit (V 1 0 0)) by (unfold is_unit, dot; simpl; ring).
  assert (Hr : forall i r, reaches glass 7 KT (fun _ => mid_draws) start i r -> (i = 0%nat /\ r = start) \/ (i = 1%nat /\ r = after)).
  { intros i r H. induction H as [|i r evs r' _ [[-> ->]|[-> ->]] P]; [now left| |].
    - right. split; [reflexivity|]. rewrite glass_pass1 in P by reflexivity. injection P as _ <-. reflexivity.
    - rewrite glass_pass2 in P by reflexivity. discriminate. }
  destruct (fun A B C D => C09_same_draws glass k_glass 5 7 KT (fun _ => mid_draws) start 10 _ _ W Hp Up glass_wf A Hu B E C D) as (ts & kst & Ek & Hm).
  - intros _. unfold wf_draws, mid_draws; simpl. lra.
  - intros i r H. destruct (Hr i r H) as [[_ ->]|[_ ->]].
    + apply mid_generic; [now left|reflexivity|]. intros h c a D. rewrite glass_hits0. intros [= _ _ _ <-]. simpl. lra.
    + apply mid_generic; [now right|reflexivity|]. intros h c a D. rewrite glass_hits1. intros [= _ _ _ <-]. simpl. lra.
  - discriminate.
  - simpl. lia.
  - destruct kst; try contradiction. exists ts. split; [exact Ek|auto].
Qed.

(** ** C78: phase functions act in the frame of the container *)
(** Python: the direction drawn by the phase function is turned by the pose of the
    container. *)
Theorem C78_python_container_frame : forall S m u c x r evs r', absorb_step S m u c x r = Continue evs r' ->
  exists cm d, In cm (comps S c) /\ c_phase cm (u_ph1 u) (u_ph2 u) = Some d /\ direction r' = to_vector (l2w S c) d.
Proof.
  intros S m u c x r evs r' H. unfold absorb_step in H. cbv zeta in H.
  destruct (coefficients _ _) as [coefs|]; [|discriminate]. destruct (select_component _ _) as [k|]; [|discriminate].
  destruct (nth_error _ k) as [cm|] eqn:En; [|discriminate]. destruct (is_radiative _ _ _); [|discriminate].
  destruct (emit c k cm m u _) as [r1|] eqn:Ee; [|discriminate]. injection H as _ <-.
  exists cm. unfold emit in Ee. destruct (c_phase cm (u_ph1 u) (u_ph2 u)) as [d|]; [|discriminate]. exists d.
  split; [eapply nth_error_In; exact En|]. split; [reflexivity|].
  destruct (c_kind cm); try destruct (emit_wavelength _ _ _ _ _); try discriminate; injection Ee as <-; reflexivity.
Qed.
Print Assumptions C78_python_container_frame.

(** The kernel uses the drawn direction as a world direction, whatever the pose ... *)
Theorem C78_kernel_container_frame_partial : forall K m u c x r evs ts r', k_absorb K m u c x r = KContinue evs ts r' ->
  exists cm ph, In (cm, ph) (k_comps K c) /\ direction r' = k_sample_phase ph (u_ph1 u) (u_ph2 u) /\
    (rot (k_l2w K c) = mid -> direction r' = to_vector (k_l2w K c) (k_sample_phase ph (u_ph1 u) (u_ph2 u))).
Proof.
  intros K m u c x r evs ts r' H. unfold k_absorb in H. cbv zeta in H.
  destruct (nth_error _ _) as [[cm ph]|] eqn:En; [|discriminate]. exists cm, ph.
  assert (Hin : In (cm, ph) (k_comps K c)) by (eapply nth_error_In; exact En).
  assert (Hd : direction r' = k_sample_phase ph (u_ph1 u) (u_ph2 u)).
  { destruct (k_is_radiative _ _ _); [|destruct (c_kind cm); discriminate].
    destruct (c_kind cm); try destruct (c_ems cm); try discriminate; injection H as _ _ <-; reflexivity. }
  split; [exact Hin|]. split; [exact Hd|]. intros Hr. rewrite Hd. unfold to_vector. now rewrite Hr, mvec_id.
Qed.
Print Assumptions C78_kernel_container_frame_partial.

(** ... so a node turned by 90 degrees about x emits its cone along world z, not along
    its own z axis. *)
Definition quarter_turn : rigid := Rigid (M (V 1 0 0) (V 0 0 (-1)) (V 0 1 0)) (V 0 0 0).
Definition cone_scatterer : component := Component Scatterer (DConst 1) 1 0 0 (cone (PI / 6)) (DConst 0).
Definition k_turned : kscene :=
  KScene 2 0 (fun n => match n with O => rid | _ => quarter_turn end) (fun n => match n with O => rid | _ => rinv quarter_turn end)
    (fun n => match n with O => Sphere 10 | _ => Sphere 1 end) (fun _ => 1) (fun _ => false)
    (fun n => match n with O => [] | _ => [(cone_scatterer, PhCone (PI / 6))] end).
Definition axis_draws : draws := Draws (1/2) (1/2) (1/2) 0 (1/2) (1/2) (1/2) (1/2) (1/2) (1/2).

Theorem C78_kernel_container_frame_refuted : exists K m u c x r evs ts r' cm ph,
  wf_rigid (k_l2w K c) /\ wf_draws u /\ k_comps K c = [(cm, ph)] /\ k_absorb K m u c x r = KContinue evs ts r' /\
  direction r' <> to_vector (k_l2w K c) (k_sample_phase ph (u_ph1 u) (u_ph2 u)).
Proof.
  exists k_turned, KT, axis_draws, 1%nat, (1/2), start. do 3 eexists. exists cone_scatterer, (PhCone (PI / 6)).
  split; [|split; [|split; [reflexivity|split]]].
  - split; meq.
  - unfold wf_draws, axis_draws; simpl. lra.
  - assert (E : k_select [1] (1/2) = 0%nat).
    { unfold k_select, k_select_from, rsum, fold_right. now rewrite (proj2 (Rleb_true _ _)) by lra. }
    unfold k_absorb. cbv zeta. cbn [k_comps k_turned map fst].
    change (k_coefficient (c_dist cone_scatterer) _) with 1. change (u_comp axis_draws) with (1/2). rewrite E.
    cbn [nth_error]. unfold k_is_radiative. cbn [c_kind c_qy cone_scatterer u_rad axis_draws].
    rewrite (proj2 (Rltb_true (1/2) 1)) by lra. reflexivity.
  - cbn [direction]. simpl k_sample_phase. change (u_ph1 axis_draws) with 0. rewrite sqrt_0, Rmult_0_l, asin_0.
    unfold spherical_to_cart. rewrite sin_0, cos_0, !Rmult_0_l.
    intros H. apply (f_equal vz) in H. unfold to_vector in H. simpl in H. unfold dot in H; simpl in H. lra.
Qed.
Print Assumptions C78_kernel_container_frame_refuted.

Example C78_example : exists evs r', absorb_step
  (Scene 0 (k_l2w k_turned) (k_w2l k_turned) (fun _ _ => []) (fun _ => 1) (fun n => map fst (k_comps k_turned n)) (fun _ p => sphere_normal p) (fun _ => null_surface))
  KT axis_draws 1 (1/2) start = Continue evs r' /\ direction r' = V 0 (-1) 0.
Proof.
  unfold absorb_step. cbv zeta. cbn [comps k_turned k_comps map fst coefficients]. change (dist_call (c_dist cone_scatterer) _) with (Some 1).
  cbn iota.
  assert (E : select_component [1] (u_comp axis_draws) = Some 0%nat).
  { apply C33_component_choice_interval; try (repeat constructor; lra);
    try (unfold rsum; simpl; lra); simpl u_comp; try lra; unfold psum, rsum; simpl; repeat split; try lia; lra. }
  rewrite E. cbn [nth_error]. unfold is_radiative. cbn [c_kind c_qy cone_scatterer u_rad axis_draws].
  rewrite (proj2 (Rltb_true (1/2) 1)) by lra. unfold emit. cbn [c_phase c_kind cone_scatterer].
  pose proof PI_RGT_0. pose proof PI2_3_2. unfold cone. rewrite Rabs_pos_eq by lra.
  rewrite (proj2 (Rleb_false (PI / 6) (/ 10 ^ 8))) by lra. rewrite (proj2 (Rltb_false (PI / 2) (PI / 6))) by lra. cbn [orb].
  do 2 eexists. split; [reflexivity|]. cbn [direction representation l2w k_l2w k_turned]. unfold to_vector; cbn [rot quarter_turn].
  change (u_ph1 axis_draws) with 0. rewrite sqrt_0, Rmult_0_l, asin_0.
  unfold spherical_to_cart. rewrite sin_0, cos_0, !Rmult_0_l. unfold mvec, dot; apply vec_eq; simpl; ring.
Qed.
