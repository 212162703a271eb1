(** Properties of the Python tracer: C01 - C08. *)
From Coq Require Import Reals Lra List Bool Arith Lia Permutation Sorted.
From Verif Require Import Base Vec Interp DistModel MaterialModel MaterialSpec MaterialProofs MaterialProps OpticsModel OpticsProps PhaseModel TransformModel TransformProofs
  GeomModel GeomProofs GeomProps TracerModel TracerProofs.
Import ListNotations.
Open Scope R_scope.

(** ** Worked scenes: spheres centred on the x axis, rays along it *)
Definition ball (id : nat) (centre radius : R) : node :=
  Node id (translation_matrix (V centre 0 0)) (Some (sphere_intersections radius)) [].
(** a spherical world (node 0, radius 10) with the given children *)
Definition world (children : list node) : node := Node 0 rid (Some (sphere_intersections 10)) children.
Definition shift (n : nat) (centres : nat -> R) : rigid := translation_matrix (V (centres n) 0 0).

Lemma norm_axis a : norm (V a 0 0) = Rabs a.
Proof. unfold norm, dot. simpl. replace (a * a + 0 * 0 + 0 * 0) with (Rsqr a) by (unfold Rsqr; ring). apply sqrt_Rsqr_abs. Qed.

Lemma axis_sphere x r : / 10 < r -> sphere_intersections r (V x 0 0) (V 1 0 0) =
  map (fun t => V (x + t) 0 0) (filter (fun t => Rleb 0 t) [- x - r; - x + r]).
Proof.
  intros Hr. unfold sphere_intersections, sphere_ts. unfold dot; cbn [vx vy vz].
  set (a := 1 * 1 + 0 * 0 + 0 * 0). set (b := 2 * (1 * x + 0 * 0 + 0 * 0)).
  assert (Ha : a = 1) by (unfold a; ring). assert (Hb : b = 2 * x) by (unfold b; ring).
  assert (Hd : b ^ 2 - 4 * a * (x * x + 0 * 0 + 0 * 0 - r ^ 2) = (2 * r) * (2 * r)) by (rewrite Ha, Hb; ring).
  assert (0 < r * r) by nra. assert (/ 100 < r * r) by nra.
  rewrite Hd, sqrt_square, Ha, Hb by lra. rewrite (proj2 (Rltb_false _ _)) by nra.
  replace (np_close (2 * r * (2 * r)) 0) with false.
  2:{ symmetry. apply not_true_iff_false. rewrite np_close_0, Rabs_right by nra. nra. }
  replace ((- (2 * x) - 2 * r) / (2 * 1)) with (- x - r) by field.
  replace ((- (2 * x) + 2 * r) / (2 * 1)) with (- x + r) by field.
  rewrite sorted2 by lra. apply map_ext. intros t. unfold at_ray. apply vec_eq; simpl; ring.
Qed.

Definition axis_faces (id : nat) (x c r : R) : list intersection :=
  map (fun t => Hit id (V (x + t) 0 0) t) (filter (fun t => Rleb 0 t) [c - x - r; c - x + r]).

Lemma to_point_translation v p : to_point (translation_matrix v) p = vadd p v.
Proof. unfold to_point, translation_matrix; simpl. rewrite mvec_id. reflexivity. Qed.
Lemma to_vector_translation v p : to_vector (translation_matrix v) p = p.
Proof. unfold to_vector, translation_matrix; simpl. apply mvec_id. Qed.
Lemma wf_translation v : wf_rigid (translation_matrix v).
Proof. exact orthogonal_id. Qed.
Lemma ainv_translation v : ainv (translation_matrix v) = translation_matrix (vneg v).
Proof.
  symmetry. apply ainv_unique; [apply wf_invertible, wf_translation|].
  apply rigid_eq; [apply mmul_id_l|]. unfold rcomp; cbn [tra]. change (tra (translation_matrix v)) with v. try rewrite to_point_translation.
  destruct v; apply vec_eq; cbn; ring.
Qed.

Lemma axis_ball id x c r : / 10 < r ->
  node_hits (ball id c r) (rcomp rid (translation_matrix (V c 0 0))) (to_point (ainv (translation_matrix (V c 0 0))) (V x 0 0))
    (to_vector (ainv (translation_matrix (V c 0 0))) (V 1 0 0)) = axis_faces id x c r.
Proof.
  intros Hr. rewrite rcomp_id_l, ainv_translation, to_point_translation, to_vector_translation. unfold ball. cbn [node_hits flat_map].
  rewrite app_nil_r. replace (vadd (V x 0 0) (vneg (V c 0 0))) with (V (x - c) 0 0) by (apply vec_eq; simpl; ring).
  rewrite axis_sphere, map_map by exact Hr. unfold axis_faces.
  replace (- (x - c) - r) with (c - x - r) by ring. replace (- (x - c) + r) with (c - x + r) by ring.
  assert (G : forall l, Forall (fun t => 0 <= t) l ->
    map (fun t => Hit id (to_point (translation_matrix (V c 0 0)) (V (x - c + t) 0 0)) (distance_between (V (x - c) 0 0) (V (x - c + t) 0 0))) l =
    map (fun t => Hit id (V (x + t) 0 0) t) l).
  { intros l Hl. induction Hl as [|t l Ht _ IH]; simpl; [reflexivity|]. f_equal; [|exact IH].
    rewrite to_point_translation. f_equal; [apply vec_eq; simpl; ring|].
    unfold distance_between. replace (vsub (V (x - c) 0 0) (V (x - c + t) 0 0)) with (V (- t) 0 0) by (apply vec_eq; simpl; ring).
    rewrite norm_axis, Rabs_Ropp. apply Rabs_right. lra. }
  apply G. apply Forall_forall. intros t Ht. apply filter_In in Ht. now apply Rleb_true.
Qed.

Lemma axis_world x children : node_hits (world children) rid (V x 0 0) (V 1 0 0) =
  axis_faces 0 x 0 10 ++
  flat_map (fun c => match c with Node _ cp _ _ => node_hits c (rcomp rid cp) (to_point (ainv cp) (V x 0 0)) (to_vector (ainv cp) (V 1 0 0)) end) children.
Proof.
  unfold world. cbn [node_hits]. f_equal. rewrite axis_sphere, map_map by lra. unfold axis_faces.
  replace (- x - 10) with (0 - x - 10) by ring. replace (- x + 10) with (0 - x + 10) by ring.
  assert (G : forall l, Forall (fun t => 0 <= t) l ->
    map (fun t => Hit 0 (to_point rid (V (x + t) 0 0)) (distance_between (V x 0 0) (V (x + t) 0 0))) l =
    map (fun t => Hit 0 (V (x + t) 0 0) t) l).
  { intros l Hl. induction Hl as [|t l Ht _ IH]; simpl; [reflexivity|]. f_equal; [|exact IH].
    rewrite to_point_rid. f_equal.
    unfold distance_between. replace (vsub (V x 0 0) (V (x + t) 0 0)) with (V (- t) 0 0) by (apply vec_eq; simpl; ring).
    rewrite norm_axis, Rabs_Ropp. apply Rabs_right. lra. }
  apply G. apply Forall_forall. intros t Ht. apply filter_In in Ht. now apply Rleb_true.
Qed.

(** Scene.intersections along the axis, before sorting *)
Lemma axis_scene x l : scene_intersections (world l) (V x 0 0) (V 1 0 0) =
  sort_by (fun i => norm (vsub (h_point i) (V x 0 0)))
    (filter (fun i => intersection_point_is_ahead (V x 0 0) (V 1 0 0) (h_point i)) (node_hits (world l) rid (V x 0 0) (V 1 0 0))).
Proof. reflexivity. Qed.

Lemma ahead_axis x t : intersection_point_is_ahead (V x 0 0) (V 1 0 0) (V (x + t) 0 0) = Rltb EPS_ZERO t.
Proof.
  unfold intersection_point_is_ahead, dot; cbn [vx vy vz]. f_equal. ring.
Qed.
Lemma key_axis x t : 0 <= t -> norm (vsub (V (x + t) 0 0) (V x 0 0)) = t.
Proof.
  intros Ht. replace (vsub (V (x + t) 0 0) (V x 0 0)) with (V t 0 0) by (apply vec_eq; simpl; ring).
  rewrite norm_axis. apply Rabs_right. lra.
Qed.
Lemma eps_tiny : EPS_ZERO < / 1000.
Proof. pose proof EPS_small. assert (/ 10 ^ 9 < / 1000) by (apply Rinv_lt_contravar; lra). lra. Qed.

(** evaluates the intersections of a concrete scene *)
Ltac axis_norm :=
  rewrite axis_scene, axis_world; cbn [flat_map];
  repeat (unfold ball at 1; cbv iota beta);
  repeat match goal with |- context [node_hits (Node ?i (translation_matrix (V ?c 0 0)) (Some (sphere_intersections ?r)) []) _ _ _] =>
    change (Node i (translation_matrix (V c 0 0)) (Some (sphere_intersections r)) []) with (ball i c r);
    rewrite axis_ball by lra end;
  unfold axis_faces; cbn [filter];
  let E := fresh in let E0 := fresh in pose proof eps_tiny as E; pose proof EPS_pos as E0;
  repeat (match goal with
    | |- context [Rleb 0 ?b] => first [rewrite (proj2 (Rleb_true 0 b)) by lra | rewrite (proj2 (Rleb_false 0 b)) by lra] end);
  cbn [map app filter h_point];
  repeat (rewrite ahead_axis; match goal with |- context [Rltb EPS_ZERO ?b] =>
     first [rewrite (proj2 (Rltb_true EPS_ZERO b)) by lra | rewrite (proj2 (Rltb_false EPS_ZERO b)) by lra] end);
  cbn [sort_by insert_by h_point];
  repeat (rewrite ?key_axis by lra; match goal with
    | |- context [Rltb ?a ?b] => first [rewrite (proj2 (Rltb_true a b)) by lra | rewrite (proj2 (Rltb_false a b)) by lra] end;
    cbn [insert_by h_point]).

(** A scene of balls on the axis: centres, refractive indices, components, surfaces *)
Definition axis_scene_of (children : list node) (centre : nat -> R) (index : nat -> R)
    (cs : nat -> list component) (sf : surface) : scene :=
  Scene 0 (fun n => translation_matrix (V (centre n) 0 0)) (fun n => rinv (translation_matrix (V (centre n) 0 0)))
    (scene_intersections (world children)) index cs (fun _ p => sphere_normal p) (fun _ => sf).

Lemma node_hits_nonneg n : forall g o d i, In i (node_hits n g o d) -> 0 <= h_distance i.
Proof.
  refine ((fix IH (n : node) : forall g o d i, In i (node_hits n g o d) -> 0 <= h_distance i := match n with Node id np geom children => _ end) n).
  intros g o d i Hi. cbn [node_hits] in Hi. apply in_app_or in Hi. destruct Hi as [Hi|Hi].
  - destruct geom as [f|]; [|contradiction]. apply in_map_iff in Hi. destruct Hi as (p & <- & _). apply norm_nonneg.
  - revert Hi. clear np geom. induction children as [|c cs IHc]; [contradiction|]. cbn [flat_map]. intros Hi.
    apply in_app_or in Hi. destruct Hi as [Hi|Hi]; [|now apply IHc].
    specialize (IH c). destruct c as [cid cp cg cc]. exact (IH _ _ _ _ Hi).
Qed.
Lemma scene_intersections_nonneg t o d i : In i (scene_intersections t o d) -> 0 <= h_distance i.
Proof.
  intros Hi. unfold scene_intersections in Hi. apply (Permutation_in _ (Permutation_sym (sort_by_perm _ _))) in Hi.
  apply filter_In in Hi. eapply node_hits_nonneg, Hi.
Qed.

Definition mid_draws : draws := Draws (1/2) (1/2) (1/2) (1/2) (1/2) (1/2) (1/2) (1/2) (1/2) (1/2).
Lemma wf_mid : wf_draws mid_draws.
Proof. unfold wf_draws, mid_draws; simpl. repeat (split; [lra|]). lra. Qed.

(** ** C01 *)
Theorem C01_history_grammar : forall fuel S maxsteps maxpath m us r h,
  follow fuel S maxsteps maxpath m us r = Some h ->
  exists groups fin, map snd h = GENERATE :: concat groups ++ fin /\
    Forall interaction groups /\ ending fin /\ exists rest, h = (r, GENERATE) :: rest.
Proof.
  intros fuel S ms mp m us r h. unfold follow, step_forward.
  assert (G : forall fuel count r evs, loop fuel S ms mp m us count r = (evs, Done) ->
     exists groups fin, kinds evs = concat groups ++ fin /\ Forall interaction groups /\ ending fin).
  { clear. induction fuel as [|fuel IH]; intros count r evs H; [discriminate|]. simpl in H.
    pose proof (pass_shape S ms mp m (us (Datatypes.S count)) (Datatypes.S count) r) as Hs.
    destruct (pass _ _ _ _ _ _ _) as [e|e|e r']; [|discriminate|].
    - injection H as <-. exists [], (kinds e). split; [reflexivity|]. split; [constructor|exact Hs].
    - destruct (loop fuel _ _ _ _ _ _ r') as [rest st] eqn:El. injection H as <- ->.
      destruct (IH _ _ _ El) as (g & f & E & Hg & Hf). exists (kinds e :: g), f.
      split; [unfold kinds in *; rewrite map_app, E; simpl; now rewrite app_assoc|]. split; [now constructor|exact Hf]. }
  destruct (loop fuel S ms mp m us 0 r) as [evs st] eqn:El. destruct st; try discriminate. intros H. injection H as <-.
  destruct (G _ _ _ _ El) as (g & f & E & Hg & Hf). exists g, f. simpl. split; [|split; [exact Hg|split; [exact Hf|eexists; reflexivity]]].
  f_equal. rewrite map_map. exact E.
Qed.
Print Assumptions C01_history_grammar.

(** If a delegate or component raises, what was yielded so far still has the shape,
    possibly cut after an ABSORB; a run that is still going has only whole interactions. *)
Theorem C01_interrupted_history : forall fuel S maxsteps maxpath m us r evs st,
  step_forward fuel S maxsteps maxpath m us r = (evs, st) ->
  exists groups fin, kinds evs = GENERATE :: concat groups ++ fin /\ Forall interaction groups /\
    match st with Done => ending fin | Raised => fin = [] \/ fin = [ABSORB] | OutOfFuel => fin = [] end.
Proof.
  intros fuel S ms mp m us r evs st. unfold step_forward.
  assert (G : forall fuel count r evs st, loop fuel S ms mp m us count r = (evs, st) ->
     exists groups fin, kinds evs = concat groups ++ fin /\ Forall interaction groups /\
     match st with Done => ending fin | Raised => fin = [] \/ fin = [ABSORB] | OutOfFuel => fin = [] end).
  { clear. induction fuel as [|fuel IH]; intros count r evs st H.
    { injection H as <- <-. exists [], []. split; [reflexivity|]. split; [constructor|reflexivity]. }
    simpl in H. pose proof (pass_shape S ms mp m (us (Datatypes.S count)) (Datatypes.S count) r) as Hs.
    destruct (pass _ _ _ _ _ _ _) as [e|e|e r'].
    - injection H as <- <-. exists [], (kinds e). split; [reflexivity|]. split; [constructor|exact Hs].
    - injection H as <- <-. exists [], (kinds e). split; [reflexivity|]. split; [constructor|exact Hs].
    - destruct (loop fuel _ _ _ _ _ _ r') as [rest st'] eqn:El. injection H as <- ->.
      destruct (IH _ _ _ _ El) as (g & f & E & Hg & Hf). exists (kinds e :: g), f.
      split; [unfold kinds in *; rewrite map_app, E; simpl; now rewrite app_assoc|]. split; [now constructor|exact Hf]. }
  destruct (loop fuel S ms mp m us 0 r) as [evs' st'] eqn:El. intros H. injection H as <- ->.
  destruct (G _ _ _ _ _ El) as (g & f & E & Hg & Hf). exists g, f. split; [|auto]. unfold kinds in *. simpl. now rewrite E.
Qed.
Print Assumptions C01_interrupted_history.

Definition is_terminal (k : kind) : bool :=
  match k with EXIT | KILL | NONRADIATIVE | REACT => true | _ => false end.

Theorem C01_nothing_after_ending : forall fuel S maxsteps maxpath m us r pre e post,
  fst (step_forward fuel S maxsteps maxpath m us r) = pre ++ e :: post ->
  is_terminal (e_kind e) = true -> post = [].
Proof.
  intros fuel S ms mp m us r pre e post H Ht.
  destruct (step_forward fuel S ms mp m us r) as [evs st] eqn:E. simpl in H. subst evs.
  destruct (C01_interrupted_history _ _ _ _ _ _ _ _ _ E) as (g & f & Hk & Hg & Hf).
  assert (Hf' : ending f \/ f = [ABSORB]) by (destruct st; [now left|destruct Hf as [->|Hf]; [left; constructor|now right]|subst f; left; constructor]).
  clear E Hf. unfold kinds in Hk. rewrite map_app in Hk. simpl in Hk.
  destruct pre as [|e0 pre]; [simpl in Hk; injection Hk as Hk _; rewrite Hk in Ht; discriminate|].
  simpl in Hk. injection Hk as _ Hk. revert pre Hk. induction Hg as [|x g Hx Hg IH]; intros pre Hk; simpl in Hk.
  - assert (Hn : map e_kind post = []); [|destruct post; [reflexivity|discriminate]].
    destruct Hf' as [Hf'| ->]; [destruct Hf'|];
      destruct pre as [|? [|? pre]]; simpl in Hk; try discriminate; injection Hk; intros; subst;
      try match goal with Q : e_kind e = _ |- _ => rewrite Q in Ht; discriminate end; auto; destruct pre; discriminate.
  - destruct Hx; simpl in Hk; destruct pre as [|? pre]; simpl in Hk; injection Hk as Hk1 Hk2;
      try (rewrite Hk1 in Ht; discriminate); try (now apply (IH pre));
      destruct pre as [|? pre]; simpl in Hk2; injection Hk2 as Hk2 Hk3;
      try (rewrite Hk2 in Ht; discriminate); now apply (IH pre).
Qed.
Print Assumptions C01_nothing_after_ending.

(** ** Examples shared by C01 - C04 *)
(** A glass ball of radius 1 with a plain surface in an empty world of radius 10; the
    ray starts at the centre. *)
Definition glass : scene := axis_scene_of [ball 1 0 1] (fun _ => 0) (fun n => match n with O => 1 | _ => 3/2 end) (fun _ => []) null_surface.
Definition start : ray := Ray (V 0 0 0) (V 1 0 0) 555 0 0 (Light 0).

Lemma null_wf : forall n u r c a, wf_draws u -> is_unit (direction r) ->
  (forall d, s_reflected null_surface u r n c a = Some d -> is_unit d) /\
  (forall x d, s_reflectivity null_surface u r n c a = Some x -> is_reflected x (u_surf u) = false ->
     s_transmitted null_surface u r n c a = Some d -> is_unit d).
Proof. intros n u r c a _ Hd. split; [discriminate|]. intros x d _ _ H. injection H as <-. exact Hd. Qed.

Lemma glass_wf : wf_scene glass.
Proof.
  split.
  - intros n. split; [apply wf_translation|reflexivity].
  - intros [|n]; simpl; lra.
  - intros p d i Hi. eapply scene_intersections_nonneg, Hi.
  - intros n c [].
  - exact null_wf.
Qed.

Lemma glass_hits0 : next_hit glass start = HitOk 1 1 (Some 0%nat) 1.
Proof.
  unfold next_hit. change (hits glass (position start) (direction start)) with (scene_intersections (world [ball 1 0 1]) (V 0 0 0) (V 1 0 0)).
  replace (scene_intersections (world [ball 1 0 1]) (V 0 0 0) (V 1 0 0)) with [Hit 1 (V 1 0 0) 1; Hit 0 (V 10 0 0) 10].
  2:{ symmetry. axis_norm. repeat f_equal; lra. }
  pose proof eps_tiny. pose proof EPS_pos. cbn [filter h_distance]. unfold close_to_zero. rewrite !Rabs_right by lra.
  rewrite (proj2 (Rltb_false 1 EPS_ZERO)), (proj2 (Rltb_false 10 EPS_ZERO)) by lra. cbn [negb].
  unfold find_container, count_hits. cbn [filter h_node Nat.eqb length sort_by insert_by h_distance].
  rewrite (proj2 (Rltb_false 10 1)) by lra. cbn [Nat.eqb h_node]. f_equal.
  unfold distance_between. cbn [position start h_point]. replace (vsub (V 0 0 0) (V 1 0 0)) with (V (-1) 0 0) by (apply vec_eq; simpl; ring).
  rewrite norm_axis, Rabs_left by lra. lra.
Qed.

(** Where the ray is after the first interface. *)
Definition after : ray := Ray (V 1 0 0) (V 1 0 0) 555 1 (3/2 / speed_of_light) (Light 0).
Definition outside : ray := Ray (V 10 0 0) (V 1 0 0) 555 10 (3/2 / speed_of_light + 9 / speed_of_light) (Light 0).

Lemma glass_hits1 : next_hit glass after = HitOk 0 0 None 9.
Proof.
  unfold next_hit. change (hits glass (position after) (direction after)) with (scene_intersections (world [ball 1 0 1]) (V 1 0 0) (V 1 0 0)).
  replace (scene_intersections (world [ball 1 0 1]) (V 1 0 0) (V 1 0 0)) with [Hit 0 (V 10 0 0) 9].
  2:{ symmetry. axis_norm. repeat f_equal; lra. }
  pose proof eps_tiny. cbn [filter h_distance]. unfold close_to_zero. rewrite Rabs_right by lra.
  rewrite (proj2 (Rltb_false 9 EPS_ZERO)) by lra. reflexivity.
Qed.

Lemma c_pos : 0 < speed_of_light.
Proof. unfold speed_of_light. lra. Qed.
Lemma flight_time_eq D n : 0 < n -> flight_time D n = n * D / speed_of_light.
Proof.
  intros Hn. pose proof c_pos. unfold flight_time. destruct (Reqb_spec D 0) as [->|HD]; field; lra.
Qed.

Lemma no_attenuation nm u : penetration_depth (rsum []) u = Infinite /\ total_attenuation [] nm = Some (rsum []).
Proof.
  split; [|reflexivity]. unfold penetration_depth, isclose_zero, alpha_tol. simpl rsum. rewrite Rabs_R0.
  rewrite (proj2 (Rleb_true 0 (/ 10 ^ 8))); [reflexivity|lra].
Qed.

Lemma translation0 : rinv (translation_matrix (V 0 0 0)) = rid /\ translation_matrix (V 0 0 0) = rid.
Proof.
  split; [|reflexivity]. rewrite <- ainv_rinv by apply wf_translation. rewrite ainv_translation.
  unfold translation_matrix, rid. f_equal. apply vec_eq; cbn; ring.
Qed.

Lemma glass_pass1 mp : over_path mp start = false ->
  pass glass 7 mp KT mid_draws 1 start = Continue [Event TRANSMIT after (Some 1%nat) (Some 1%nat) (Some 0%nat) None (Some (V 1 0 0))] after.
Proof.
  intros Hop. unfold pass. rewrite glass_hits0. rewrite Hop. cbn [Nat.ltb Nat.leb orb Nat.eqb root glass axis_scene_of].
    change (comps glass 1) with (@nil component). rewrite (proj2 (no_attenuation (wavelength start) 0)).
    rewrite (proj1 (no_attenuation 0 _)).
    unfold surface_step. cbv zeta. change (w2l glass 1) with (rinv (translation_matrix (V 0 0 0))).
    change (l2w glass 1) with (translation_matrix (V 0 0 0)). rewrite (proj1 translation0), (proj2 translation0).
    assert (Ea : propagate start 1 (n_of glass 1) = after).
    { unfold propagate, after, start; cbn [position direction wavelength travelled duration source]. f_equal.
      - apply vec_eq; simpl; ring.
      - ring.
      - change (n_of glass 1) with (3/2). rewrite flight_time_eq by lra. unfold Rdiv. ring. }
    rewrite Ea. unfold representation. rewrite !to_point_rid, !to_vector_rid. cbn [position after direction wavelength travelled duration source].
    change (normal_of glass 1 (V 1 0 0)) with (sphere_normal (V 1 0 0)). unfold sphere_normal, unit_vector. rewrite norm_axis, Rabs_R1.
    destruct (Reqb_spec 1 0); [lra|]. cbn [s_reflectivity s_reflected s_transmitted surf glass axis_scene_of null_surface].
    unfold is_reflected, null_reflectivity. destruct (Reqb_spec 0 0); [|lra]. unfold null_transmitted, with_direction.
    cbn [position after direction wavelength travelled duration source]. rewrite !to_vector_rid, to_point_rid.
    replace (vscale (/ 1) (V 1 0 0)) with (V 1 0 0) by (apply vec_eq; simpl; field). reflexivity.
Qed.

Lemma glass_pass2 mp : over_path mp after = false ->
  pass glass 7 mp KT mid_draws 2 after = Stop [Event EXIT outside (Some 0%nat) (Some 0%nat) None None None].
Proof.
  intros Hop. unfold pass. rewrite glass_hits1. rewrite Hop. cbn [Nat.ltb Nat.leb orb Nat.eqb root glass axis_scene_of]. do 3 f_equal.
    unfold propagate, after, outside; cbn [position direction wavelength travelled duration source]. f_equal.
    - apply vec_eq; simpl; ring.
    - ring.
    - change (n_of glass 0) with 1. rewrite flight_time_eq by lra. unfold Rdiv. ring.
Qed.

Lemma glass_history mp : (forall L, mp = Some L -> 10 <= L) -> exists e1 e2,
  step_forward 5 glass 7 mp KT (fun _ => mid_draws) start = ([Event GENERATE start None None None None None; e1; e2], Done) /\
  e_kind e1 = TRANSMIT /\ e_ray e1 = after /\ e_kind e2 = EXIT /\ e_ray e2 = outside.
Proof.
  intros Hmp. assert (Hop : forall r, travelled r <= 10 -> over_path mp r = false).
  { intros r Hr. unfold over_path. destruct mp as [L|]; [|reflexivity]. apply Rltb_false. specialize (Hmp L eq_refl). lra. }
  exists (Event TRANSMIT after (Some 1%nat) (Some 1%nat) (Some 0%nat) None (Some (V 1 0 0))),
         (Event EXIT outside (Some 0%nat) (Some 0%nat) None None None).
  split; [|auto].
  unfold step_forward. cbn [loop]. rewrite glass_pass1 by (apply Hop; simpl; lra). rewrite glass_pass2 by (apply Hop; simpl; lra). reflexivity.
Qed.

Example C01_example : exists h, follow 5 glass 7 None KT (fun _ => mid_draws) start = Some h /\ map snd h = [GENERATE; TRANSMIT; EXIT].
Proof.
  destruct (glass_history None ltac:(discriminate)) as (e1 & e2 & E & K1 & _ & K2 & _). unfold follow. rewrite E. eexists. split; [reflexivity|].
  simpl. now rewrite K1, K2.
Qed.

(** ** C02 *)
Lemma loop_length S ms mp m us : forall fuel count r,
  (length (fst (loop fuel S ms mp m us count r)) <= 2 * (ms - count) + 1)%nat.
Proof.
  induction fuel as [|fuel IH]; intros count r; [simpl; lia|]. simpl loop.
  pose proof (pass_shape S ms mp m (us (Datatypes.S count)) (Datatypes.S count) r) as Hs.
  pose proof (pass_within S ms mp m (us (Datatypes.S count)) (Datatypes.S count) r) as Hw.
  assert (Hk : forall evs, length evs = length (kinds evs)) by (intros; unfold kinds; now rewrite map_length).
  destruct (Nat.ltb ms (Datatypes.S count)) eqn:Eb; simpl orb in Hw; cbv iota in Hw.
  - destruct Hw as [-> |[-> |(c & ->)]]; simpl; lia.
  - apply Nat.ltb_ge in Eb.
    destruct (pass _ _ _ _ _ _ _) as [e|e|e r']; simpl.
    + rewrite Hk. inversion Hs; simpl; lia.
    + rewrite Hk. destruct Hs as [-> | ->]; simpl; lia.
    + specialize (IH (Datatypes.S count) r'). destruct (loop fuel S ms mp m us (Datatypes.S count) r') as [rest st].
      simpl in *. rewrite app_length, Hk. assert (length (kinds e) <= 2)%nat by (inversion Hs; simpl; lia).
      lia.
Qed.

Theorem C02_terminates_within_budget : forall fuel S maxsteps maxpath m us r,
  (maxsteps + 1 <= fuel)%nat ->
  snd (step_forward fuel S maxsteps maxpath m us r) <> OutOfFuel /\
  (length (fst (step_forward fuel S maxsteps maxpath m us r)) <= 2 * maxsteps + 2)%nat.
Proof.
  intros fuel S ms mp m us r Hf. split.
  - assert (G : forall fuel count r, (ms + 1 <= fuel + count)%nat -> (0 < fuel)%nat -> snd (loop fuel S ms mp m us count r) <> OutOfFuel).
    { clear. induction fuel as [|fuel IH]; intros count r Hf Hp; [lia|]. simpl.
      pose proof (pass_within S ms mp m (us (Datatypes.S count)) (Datatypes.S count) r) as Hw.
      destruct (Nat.ltb ms (Datatypes.S count)) eqn:Eb; simpl orb in Hw; cbv iota in Hw.
      - destruct Hw as [-> |[-> |(c & ->)]]; discriminate.
      - apply Nat.ltb_ge in Eb. destruct (pass _ _ _ _ _ _ _) as [e|e|e r']; [discriminate|discriminate|].
        specialize (IH (Datatypes.S count) r'). destruct (loop fuel S ms mp m us (Datatypes.S count) r') as [rest st].
        simpl in *. apply IH; lia. }
    unfold step_forward. specialize (G fuel 0%nat r). destruct (loop fuel S ms mp m us 0 r). simpl in *. apply G; lia.
  - pose proof (loop_length S ms mp m us fuel 0 r) as H. unfold step_forward.
    destruct (loop fuel S ms mp m us 0 r) as [evs st]. simpl in *. lia.
Qed.
Print Assumptions C02_terminates_within_budget.

(** Giving the loop more passes than maxsteps + 1 changes nothing. *)
Theorem C02_fuel_irrelevant : forall f1 f2 S maxsteps maxpath m us r,
  (maxsteps + 1 <= f1)%nat -> (maxsteps + 1 <= f2)%nat ->
  step_forward f1 S maxsteps maxpath m us r = step_forward f2 S maxsteps maxpath m us r.
Proof.
  intros f1 f2 S ms mp m us r H1 H2.
  assert (G : forall f1 f2 count r, (f1 <= f2)%nat -> snd (loop f1 S ms mp m us count r) <> OutOfFuel ->
    loop f1 S ms mp m us count r = loop f2 S ms mp m us count r).
  { clear. induction f1 as [|f1 IH]; intros f2 count r Hle Hs; [simpl in Hs; congruence|]. destruct f2 as [|f2]; [lia|]. simpl in *.
    destruct (pass _ _ _ _ _ _ _) as [e|e|e r']; [reflexivity|reflexivity|].
    rewrite <- (IH f2 (Datatypes.S count) r'); [reflexivity|lia|].
    destruct (loop f1 S ms mp m us (Datatypes.S count) r'). exact Hs. }
  assert (K : forall f, (ms + 1 <= f)%nat -> step_forward f S ms mp m us r = step_forward (ms + 1) S ms mp m us r).
  { intros f Hf. unfold step_forward. rewrite (G (ms + 1)%nat f 0%nat r Hf); [reflexivity|].
    pose proof (proj1 (C02_terminates_within_budget (ms + 1) S ms mp m us r (le_n _))) as Ht. unfold step_forward in Ht.
    destruct (loop (ms + 1) S ms mp m us 0 r). exact Ht. }
  rewrite (K f1 H1), (K f2 H2). reflexivity.
Qed.
Print Assumptions C02_fuel_irrelevant.

(** The bound is reached for maxsteps = 0. *)
Example C02_example : length (fst (step_forward 5 glass 0 None KT (fun _ => mid_draws) start)) = 2%nat /\
  kinds (fst (step_forward 5 glass 0 None KT (fun _ => mid_draws) start)) = [GENERATE; KILL].
Proof.
  unfold step_forward. cbn [loop]. unfold pass. rewrite glass_hits0. cbn [Nat.ltb Nat.leb orb]. split; reflexivity.
Qed.

(** ** C03 *)
Definition in_flight (k : kind) : bool := match k with REFLECT | TRANSMIT | ABSORB | EXIT => true | _ => false end.

Lemma distance_along p d x : is_unit d -> 0 <= x -> distance_between p (vadd p (vscale x d)) = x.
Proof.
  intros Hd Hx. unfold distance_between. replace (vsub p (vadd p (vscale x d))) with (vscale x (vneg d)) by (apply vec_eq; simpl; ring).
  rewrite norm_scale_pos, norm_neg, (norm_unit d Hd) by exact Hx. ring.
Qed.
Lemma distance_refl p : distance_between p p = 0.
Proof.
  unfold distance_between. replace (vsub p p) with (V 0 0 0) by (apply vec_eq; simpl; ring). rewrite norm_axis. apply Rabs_R0.
Qed.

Theorem C03_bookkeeping : forall fuel S maxsteps maxpath m us r pre e1 e2 post,
  wf_scene S -> (forall i, wf_draws (us i)) -> is_unit (direction r) ->
  fst (step_forward fuel S maxsteps maxpath m us r) = pre ++ e1 :: e2 :: post ->
  let r1 := e_ray e1 in let r2 := e_ray e2 in
  let dist := distance_between (position r1) (position r2) in
  (* path length and time never decrease; path length is the geometric one *)
  travelled r2 = travelled r1 + dist /\ duration r1 <= duration r2 /\
  (* flight: straight along the direction, time of flight in the container's index *)
  (in_flight (e_kind e2) = true -> exists c, e_container e2 = Some c /\
     position r2 = vadd (position r1) (vscale dist (direction r1)) /\
     duration r2 = duration r1 + n_of S c * dist / speed_of_light) /\
  (* no flight at the other events *)
  (in_flight (e_kind e2) = false -> position r2 = position r1) /\
  (* wavelength changes at EMIT only, source at EMIT and SCATTER only *)
  (e_kind e2 <> EMIT -> wavelength r2 = wavelength r1) /\
  (e_kind e2 <> EMIT -> e_kind e2 <> SCATTER -> source r2 = source r1) /\
  (e_kind e2 = EMIT \/ e_kind e2 = SCATTER -> exists c k, e_container e2 = Some c /\ e_comp e2 = Some k /\ source r2 = Emitter c k) /\
  (* direction changes at REFLECT, TRANSMIT, EMIT, SCATTER only and stays a unit vector *)
  (direction r2 = direction r1 \/ In (e_kind e2) [REFLECT; TRANSMIT; EMIT; SCATTER]) /\ is_unit (direction r2).
Proof.
  intros fuel S ms mp m us r pre e1 e2 post W Hu Hd H r1 r2 dist.
  assert (Hchain : link S r1 e2 /\ is_unit (direction r1) /\ is_unit (direction r2)).
  { unfold step_forward in H. pose proof (loop_chain S ms mp m us W Hu fuel 0 r Hd) as Hc.
    destruct (loop fuel S ms mp m us 0 r) as [evs st]. simpl in H, Hc. destruct pre as [|e0 pre]; simpl in H.
    - injection H as <- ->. simpl in Hc. tauto.
    - injection H as _ ->. apply chain_app in Hc. simpl in Hc. tauto. }
  destruct Hchain as (L & U1 & U2). pose proof c_pos as Hc0.
  unfold link in L. fold r2 in L.
  assert (Hmove : forall D c, 0 <= D -> forall d, r2 = with_direction (propagate r1 D (n_of S c)) d -> dist = D /\
     travelled r2 = travelled r1 + dist /\ position r2 = vadd (position r1) (vscale dist (direction r1)) /\
     duration r2 = duration r1 + n_of S c * dist / speed_of_light /\ duration r1 <= duration r2 /\ wavelength r2 = wavelength r1 /\ source r2 = source r1).
  { intros D c HD d E. assert (Ed : dist = D) by (unfold dist; rewrite E; simpl; now apply distance_along).
    rewrite Ed, E. simpl. pose proof (wf_index _ W c) as Hn. rewrite flight_time_eq by exact Hn.
    assert (0 <= n_of S c * D / speed_of_light).
    { apply Rmult_le_pos; [apply Rmult_le_pos; lra|]. left. now apply Rinv_0_lt_compat. }
    do 4 (split; [reflexivity|]). split; [lra|]. split; reflexivity. }
  assert (Hself : forall D n, propagate r1 D n = with_direction (propagate r1 D n) (direction r1)) by reflexivity.
  assert (Hstay : position r2 = position r1 -> dist = 0) by (intros E; unfold dist; rewrite E; apply distance_refl).
  destruct (e_kind e2) eqn:Ek; cbn [in_flight].
  - contradiction.
  - destruct L as (h & c & a & D & d & _ & HD & _ & _ & Ec & _ & _ & E).
    destruct (Hmove D c HD d E) as (Ed & A1 & A2 & A3 & A4 & A5 & A6).
    split; [exact A1|]. split; [exact A4|]. split; [intros _; exists c; auto|]. split; [discriminate|].
    split; [auto|]. split; [auto|]. split; [intros [|]; discriminate|]. split; [right; simpl; tauto|exact U2].
  - destruct L as (h & c & a & D & d & _ & HD & _ & _ & Ec & _ & _ & E).
    destruct (Hmove D c HD d E) as (Ed & A1 & A2 & A3 & A4 & A5 & A6).
    split; [exact A1|]. split; [exact A4|]. split; [intros _; exists c; auto|]. split; [discriminate|].
    split; [auto|]. split; [auto|]. split; [intros [|]; discriminate|]. split; [right; simpl; tauto|exact U2].
  - destruct L as (h & c & a & D & x & _ & Hx & _ & Ec & E & _). rewrite Hself in E.
    destruct (Hmove x c (proj1 Hx) _ E) as (Ed & A1 & A2 & A3 & A4 & A5 & A6).
    split; [exact A1|]. split; [exact A4|]. split; [intros _; exists c; auto|]. split; [discriminate|].
    split; [auto|]. split; [auto|]. split; [intros [|]; discriminate|]. split; [left; now rewrite E|exact U2].
  - destruct L as (c & k & cm & Ec & Ek' & _ & P & Dd & Wl & T & Sr & Du & _). rewrite (Hstay P).
    split; [lra|]. split; [exact Du|]. split; [discriminate|]. split; [auto|]. split; [auto|]. split; [auto|].
    split; [intros [|]; discriminate|]. split; [now left|exact U2].
  - destruct L as (c & k & cm & Ec & Ek' & _ & P & T & Du & Sr & Ud & _ & Hsc). rewrite (Hstay P).
    destruct (Hsc eq_refl) as [Hw Hdur].
    split; [lra|]. split; [exact Du|]. split; [discriminate|]. split; [auto|]. split; [auto|]. split; [congruence|].
    split; [intros _; exists c, k; auto|]. split; [right; simpl; tauto|exact U2].
  - destruct L as (c & k & cm & Ec & Ek' & _ & P & T & Du & Sr & Ud & _ & Hsc). rewrite (Hstay P).
    split; [lra|]. split; [exact Du|]. split; [discriminate|]. split; [auto|]. split; [congruence|]. split; [congruence|].
    split; [intros _; exists c, k; auto|]. split; [right; simpl; tauto|exact U2].
  - destruct L as (h & c & a & D & _ & HD & _ & _ & Ec & _ & E). rewrite Hself in E.
    destruct (Hmove D c HD _ E) as (Ed & A1 & A2 & A3 & A4 & A5 & A6).
    split; [exact A1|]. split; [exact A4|]. split; [intros _; exists c; auto|]. split; [discriminate|].
    split; [auto|]. split; [auto|]. split; [intros [|]; discriminate|]. split; [left; now rewrite E|exact U2].
  - destruct L as (c & k & cm & Ec & Ek' & _ & P & Dd & Wl & T & Sr & Du & _). rewrite (Hstay P).
    split; [lra|]. split; [exact Du|]. split; [discriminate|]. split; [auto|]. split; [auto|]. split; [auto|].
    split; [intros [|]; discriminate|]. split; [now left|exact U2].
  - rewrite L in *. rewrite (Hstay eq_refl).
    split; [lra|]. split; [lra|]. split; [discriminate|]. do 3 (split; [reflexivity|]).
    split; [intros [|]; discriminate|]. split; [now left|exact U2].
Qed.
Print Assumptions C03_bookkeeping.

(** Every flight stops where next_hit said it would: at the interface, or strictly
    before it for an absorption; and the event carries next_hit's labels. *)
Theorem C03_flights_follow_next_hit : forall fuel S maxsteps maxpath m us r pre e1 e2 post,
  wf_scene S -> (forall i, wf_draws (us i)) -> is_unit (direction r) ->
  fst (step_forward fuel S maxsteps maxpath m us r) = pre ++ e1 :: e2 :: post -> in_flight (e_kind e2) = true ->
  exists h c a D, next_hit S (e_ray e1) = HitOk h c a D /\ e_container e2 = Some c /\
    let dist := distance_between (position (e_ray e1)) (position (e_ray e2)) in
    match e_kind e2 with
    | ABSORB => dist < D /\ h <> root S /\ exists k cm, e_comp e2 = Some k /\ nth_error (comps S c) k = Some cm
    | EXIT => dist = D /\ h = root S /\ e_hit e2 = Some h
    | _ => dist = D /\ h <> root S /\ e_hit e2 = Some h /\ e_adjacent e2 = a
    end.
Proof.
  intros fuel S ms mp m us r pre e1 e2 post W Hu Hd H Hf.
  assert (Hchain : link S (e_ray e1) e2 /\ is_unit (direction (e_ray e1))).
  { unfold step_forward in H. pose proof (loop_chain S ms mp m us W Hu fuel 0 r Hd) as Hc.
    destruct (loop fuel S ms mp m us 0 r) as [evs st]. simpl in H, Hc. destruct pre as [|e0 pre]; simpl in H.
    - injection H as <- ->. simpl in Hc. tauto.
    - injection H as _ ->. apply chain_app in Hc. simpl in Hc. tauto. }
  destruct Hchain as (L & U1). unfold link in L. destruct (e_kind e2) eqn:Ek; try discriminate.
  - destruct L as (h & c & a & D & d & Hn & HD & Hr & Eh & Ec & Ea & _ & E). exists h, c, a, D. split; [exact Hn|]. split; [exact Ec|].
    cbv zeta. rewrite E. simpl. rewrite distance_along by assumption. auto.
  - destruct L as (h & c & a & D & d & Hn & HD & Hr & Eh & Ec & Ea & _ & E). exists h, c, a, D. split; [exact Hn|]. split; [exact Ec|].
    cbv zeta. rewrite E. simpl. rewrite distance_along by assumption. auto.
  - destruct L as (h & c & a & D & x & Hn & Hx & Hr & Ec & E & Hk). exists h, c, a, D. split; [exact Hn|]. split; [exact Ec|].
    cbv zeta. rewrite E. simpl. rewrite distance_along by (assumption || lra). split; [lra|]. split; [exact Hr|exact Hk].
  - destruct L as (h & c & a & D & Hn & HD & Hr & Eh & Ec & Ea & E). exists h, c, a, D. split; [exact Hn|]. split; [exact Ec|].
    cbv zeta. rewrite E. simpl. rewrite distance_along by assumption. auto.
Qed.
Print Assumptions C03_flights_follow_next_hit.

(** The library's Fresnel surface meets the surface condition of [wf_scene]. *)
Theorem C03_fresnel_surface_wf : forall n_of normal_of,
  (forall n, 0 < n_of n) -> (forall n p v, normal_of n p = Some v -> is_unit v) ->
  forall n u r c a, wf_draws u -> is_unit (direction r) ->
  let sf := fresnel_surface n_of normal_of in
  (forall d, s_reflected sf u r n c a = Some d -> is_unit d) /\
  (forall x d, s_reflectivity sf u r n c a = Some x -> is_reflected x (u_surf u) = false ->
     s_transmitted sf u r n c a = Some d -> is_unit d).
Proof.
  intros n_of normal_of Hn Hno n u r c a _ Hd sf. unfold sf, fresnel_surface; simpl. split.
  - intros d. destruct (normal_of n (position r)) as [v|] eqn:E; [|discriminate]. injection 1 as <-.
    apply C39_law_of_reflection; [exact Hd|exact (Hno _ _ _ E)].
  - intros x d _ _. destruct a as [a|]; [|discriminate]. destruct (normal_of n (position r)) as [v|] eqn:E; [|discriminate].
    intros Ht. apply (C40_snell (direction r) v (n_of c) (n_of a) d Hd (Hno _ _ _ E) (Hn c) (Hn a) Ht).
Qed.
Print Assumptions C03_fresnel_surface_wf.

Example C03_example : wf_scene glass /\ (forall i : nat, wf_draws ((fun _ => mid_draws) i)) /\ is_unit (direction start) /\
  exists e0 e1 e2, fst (step_forward 5 glass 7 None KT (fun _ => mid_draws) start) = [e0; e1; e2] /\
  map (fun e => travelled (e_ray e)) [e0; e1; e2] = [0; 1; 10].
Proof.
  split; [exact glass_wf|]. split; [intros _; exact wf_mid|]. split; [unfold is_unit, dot; simpl; ring|].
  destruct (glass_history None ltac:(discriminate)) as (e1 & e2 & E & _ & R1 & _ & R2). rewrite E.
  eexists _, _, _. split; [reflexivity|]. simpl. now rewrite R1, R2.
Qed.

(** ** C04 *)
(** [contacts l]: the number of REFLECT, TRANSMIT, ABSORB and EXIT events in l, i.e. of
    the steps taken. *)
Lemma end_ray_last r l e : end_ray r (l ++ [e]) = e_ray e.
Proof. now rewrite end_ray_app. Qed.

Theorem C04_kill_means_budget_exceeded : forall fuel S maxsteps maxpath m us r pre e k post,
  fst (step_forward fuel S maxsteps maxpath m us r) = pre ++ e :: k :: post -> e_kind k = KILL ->
  post = [] /\ e_ray k = e_ray e /\
  (contacts (pre ++ [e]) = maxsteps \/ exists L, maxpath = Some L /\ L < travelled (e_ray k)).
Proof.
  intros fuel S ms mp m us r pre e k post H Hk. unfold step_forward in H.
  pose proof (loop_budget S ms mp m us fuel 0 r) as B. destruct (loop fuel S ms mp m us 0 r) as [evs st]. simpl in H, B.
  assert (Hle : forall p x q, evs = p ++ x :: q -> (contacts p <= ms)%nat).
  { intros p. induction p as [|y p IH] using rev_ind; intros x q Hq; [unfold contacts; simpl; lia|].
    rewrite <- app_assoc in Hq. simpl in Hq. specialize (IH y (x :: q) Hq). rewrite contacts_app. unfold contacts at 2. simpl.
    destruct (is_contact (e_kind y)) eqn:Ey; simpl; [|lia]. destruct (B p y (x :: q) Hq) as [_ [Hlt _]]; [exact Ey|lia]. }
  set (gen := Event GENERATE r None None None None None) in *.
  assert (Hp : exists p, pre ++ [e] = gen :: p /\ evs = p ++ k :: post /\ end_ray r p = e_ray e).
  { destruct pre as [|y pre]; simpl in H; injection H as <- ->.
    - exists []. split; [reflexivity|]. split; [reflexivity|reflexivity].
    - exists (pre ++ [e]). split; [reflexivity|]. split; [now rewrite <- app_assoc|apply end_ray_last]. }
  destruct Hp as (p & Ep & Ev & Er). destruct (B p k post Ev) as [[B1 [B2 B3]] _]; [exact Hk|].
  split; [exact B1|]. split; [congruence|]. rewrite Ep. replace (contacts (gen :: p)) with (contacts p) by reflexivity.
  destruct B3 as [B3|B3].
  - left. specialize (Hle _ _ _ Ev). lia.
  - right. unfold over_path in B3. destruct mp as [L|]; [|discriminate]. exists L. split; [reflexivity|]. now apply Rltb_true.
Qed.
Print Assumptions C04_kill_means_budget_exceeded.

(** No step is taken once a budget is used up. *)
Theorem C04_no_step_beyond_budget : forall fuel S maxsteps maxpath m us r pre e k post,
  fst (step_forward fuel S maxsteps maxpath m us r) = pre ++ e :: k :: post -> is_contact (e_kind k) = true ->
  (contacts (pre ++ [e]) < maxsteps)%nat /\ (forall L, maxpath = Some L -> travelled (e_ray e) <= L).
Proof.
  intros fuel S ms mp m us r pre e k post H Hk. unfold step_forward in H.
  pose proof (loop_budget S ms mp m us fuel 0 r) as B. destruct (loop fuel S ms mp m us 0 r) as [evs st]. simpl in H, B.
  set (gen := Event GENERATE r None None None None None) in *.
  assert (Hp : exists p, pre ++ [e] = gen :: p /\ evs = p ++ k :: post /\ end_ray r p = e_ray e).
  { destruct pre as [|y pre]; simpl in H; injection H as <- ->.
    - exists []. split; [reflexivity|]. split; [reflexivity|reflexivity].
    - exists (pre ++ [e]). split; [reflexivity|]. split; [now rewrite <- app_assoc|apply end_ray_last]. }
  destruct Hp as (p & Ep & Ev & Er). destruct (B p k post Ev) as [_ B2]. destruct (B2 Hk) as [B3 B4].
  rewrite Ep. split; [exact B3|]. rewrite Er in B4. intros L ->. now apply Rltb_false in B4.
Qed.
Print Assumptions C04_no_step_beyond_budget.

(** A finished history that used its whole budget (and whose ray still meets something)
    ends with KILL. *)
Theorem C04_exhausted_budget_kills : forall fuel S maxsteps maxpath m us r evs e,
  step_forward fuel S maxsteps maxpath m us r = (evs ++ [e], Done) -> is_terminal (e_kind e) = false ->
  next_hit S (e_ray e) = NoHit.
Proof.
  intros fuel S ms mp m us r evs e H Ht. unfold step_forward in H.
  assert (G : forall fuel count r l, loop fuel S ms mp m us count r = (l, Done) ->
     (l = [] /\ next_hit S r = NoHit) \/ exists q x, l = q ++ [x] /\ (is_terminal (e_kind x) = true \/ next_hit S (e_ray x) = NoHit)).
  { clear. induction fuel as [|fuel IH]; intros count r l H; [discriminate|]. simpl in H.
    pose proof (pass_shape S ms mp m (us (Datatypes.S count)) (Datatypes.S count) r) as Hs.
    destruct (pass S ms mp m (us (Datatypes.S count)) (Datatypes.S count) r) as [e|e|e r'] eqn:Ep; [|discriminate|].
    - injection H as <-. remember (kinds e) as K eqn:EK. destruct Hs.
      + left. destruct e; [|discriminate]. split; [reflexivity|]. unfold pass in Ep.
        destruct (next_hit S r) as [| |h c a D]; [reflexivity|discriminate|exfalso].
        destruct (_ || _); [discriminate|]. destruct (Nat.eqb h (root S)); [discriminate|].
        assert (Ha : forall x, absorb_step S m (us (Datatypes.S count)) c x r <> Stop []).
        { intros x Hx. unfold absorb_step in Hx. cbv zeta in Hx. destruct (coefficients _ _); [|discriminate].
          destruct (select_component _ _); [|discriminate]. destruct (nth_error _ _) as [cm|]; [|discriminate].
          destruct (is_radiative _ _ _); [destruct (emit _ _ _ _ _ _)|]; discriminate. }
        assert (Hf : surface_step S (us (Datatypes.S count)) h c a D r <> Stop []).
        { intros Hx. pose proof (surface_shape S (us (Datatypes.S count)) h c a D r) as Hy. now rewrite Hx in Hy. }
        destruct (total_attenuation _ _); [|discriminate]. destruct (penetration_depth _ _) as [x|]; [destruct (Rltb _ _); [exact (Ha x Ep)|exact (Hf Ep)]|exact (Hf Ep)].
      + right. destruct e as [|x [|]]; try discriminate. exists [], x. split; [reflexivity|left]. injection EK as <-. reflexivity.
      + right. destruct e as [|x [|]]; try discriminate. exists [], x. split; [reflexivity|left]. injection EK as <-. reflexivity.
      + right. destruct e as [|x [|y [|]]]; try discriminate. exists [x], y. split; [reflexivity|left]. injection EK as _ <-. reflexivity.
      + right. destruct e as [|x [|y [|]]]; try discriminate. exists [x], y. split; [reflexivity|left]. injection EK as _ <-. reflexivity.
    - destruct (loop fuel S ms mp m us (Datatypes.S count) r') as [rest st] eqn:El. injection H as <- ->.
      right. destruct (IH _ _ _ El) as [[-> Hn]|(q & x & -> & Hx)].
      + assert (He : e <> []) by (intros ->; inversion Hs). destruct (exists_last He) as (q & x & ->). exists q, x.
        rewrite app_nil_r. split; [reflexivity|right]. pose proof (pass_end _ _ _ _ _ _ _ _ _ Ep) as Hr.
        rewrite end_ray_last in Hr. now rewrite Hr.
      + exists (e ++ q), x. split; [now rewrite app_assoc|exact Hx]. }
  destruct (loop fuel S ms mp m us 0 r) as [l st] eqn:El. injection H as H ->.
  destruct (G _ _ _ _ El) as [[-> Hn]|(q & x & -> & Hx)].
  - destruct evs as [|? evs]; simpl in H; [injection H as <-; exact Hn|destruct evs; discriminate].
  - change (Event GENERATE r None None None None None :: q ++ [x]) with ((Event GENERATE r None None None None None :: q) ++ [x]) in H.
    apply app_inj_tail in H. destruct H as [_ ->]. destruct Hx as [Hx|]; [congruence|assumption].
Qed.
Print Assumptions C04_exhausted_budget_kills.

Example C04_example : kinds (fst (step_forward 5 glass 0 None KT (fun _ => mid_draws) start)) = [GENERATE; KILL] /\
  exists e1 e2, fst (step_forward 5 glass 7 (Some 10) KT (fun _ => mid_draws) start) = [Event GENERATE start None None None None None; e1; e2] /\
    is_contact (e_kind e2) = true /\ contacts [Event GENERATE start None None None None None; e1] = 1%nat.
Proof.
  split; [apply C02_example|]. destruct (glass_history (Some 10)) as (e1 & e2 & E & K1 & _ & K2 & _); [intros L H; injection H as <-; lra|].
  exists e1, e2. rewrite E, K2. split; [reflexivity|]. split; [reflexivity|]. unfold contacts. simpl. now rewrite K1.
Qed.

(** ** C05 *)
(** [objs] lists, for the line of the ray, each object with the interval of ray
    parameters it covers (0 = the ray's position); see [family] (nested or disjoint,
    distinct faces, none within the tolerance ahead of the ray) and [reports] in
    TracerProofs.v. *)
Theorem C05_container_is_innermost : forall S r objs,
  is_unit (direction r) -> family objs ->
  reports (hits S (position r) (direction r)) (position r) (direction r) objs ->
  (forall h c a D, next_hit S r = HitOk h c a D ->
     (exists o, innermost objs 0 o /\ o_id o = c) /\
     (exists o, In o objs /\ o_id o = h /\ (D = o_lo o \/ D = o_hi o) /\ 0 < D /\
        forall o' t, In o' objs -> t = o_lo o' \/ t = o_hi o' -> 0 < t -> D <= t)) /\
  ((exists o, In o objs /\ contains o 0) -> exists h c a D, next_hit S r = HitOk h c a D).
Proof.
  intros S r objs Hd F Rp. set (p := position r) in *. set (d := direction r) in *.
  set (l := hits S p d) in *.
  assert (Hl : filter (fun i => negb (close_to_zero (h_distance i))) (hits S (position r) (direction r)) = l)
    by (apply (filter_far objs p d l F Rp)).
  unfold next_hit. rewrite Hl. clear Hl. split.
  - intros h c a D H.
    assert (Hh : forall i rest, l = i :: rest -> h_node i = h -> h_distance i = D ->
       exists o, In o objs /\ o_id o = h /\ (D = o_lo o \/ D = o_hi o) /\ 0 < D /\
        forall o' t, In o' objs -> t = o_lo o' \/ t = o_hi o' -> 0 < t -> D <= t).
    { intros i rest E <- <-. destruct (head_face objs p d l Rp i rest E) as (o & Ho & Hn & Hx & H0 & Hm).
      exists o. split; [exact Ho|]. split; [auto|]. split; [exact Hx|]. split; [exact H0|exact Hm]. }
    destruct l as [|i [|j rest]] eqn:El; [discriminate| |].
    + injection H as <- <- _ <-. split; [|now apply (Hh i [])].
      apply (container_innermost objs p d [i] F Rp). reflexivity.
    + destruct (find_container (i :: j :: rest)) as [c'|] eqn:Ec; [|discriminate].
      injection H as <- <- _ <-. split; [exact (container_innermost objs p d _ F Rp c' Ec)|].
      apply (Hh i (j :: rest)); [reflexivity|reflexivity|].
      assert (Hi : In i (i :: j :: rest)) by (left; reflexivity). apply (in_l objs p d _ Rp) in Hi.
      destruct Hi as (o & _ & _ & _ & H0 & ->). symmetry. apply distance_along; [exact Hd|lra].
  - intros (o & Ho & Hc). destruct (container_defined objs p d l F Rp o Ho Hc) as (c & Ec).
    pose proof (far_face_in objs p d l F Rp o Ho Hc) as Hf. unfold singles in Hf. apply filter_In in Hf. destruct Hf as [Hf _].
    destruct l as [|i [|j rest]]; [contradiction| |].
    + eexists _, _, _, _. reflexivity.
    + rewrite Ec. eexists _, _, _, _. reflexivity.
Qed.
Print Assumptions C05_container_is_innermost.

(** World of radius 10 with a ball around the origin and another one further along. *)
Definition two_balls : scene :=
  axis_scene_of [ball 1 0 1; ball 2 (7/2) (1/2)] (fun n => match n with 2%nat => 7/2 | _ => 0 end)
    (fun n => match n with O => 1 | _ => 3/2 end) (fun _ => []) null_surface.
Definition two_balls_line : list obj := [Obj 0 (-10) 10; Obj 1 (-1) 1; Obj 2 3 4].

Lemma two_balls_hits : hits two_balls (position start) (direction start) =
  [Hit 1 (V 1 0 0) 1; Hit 2 (V 3 0 0) 3; Hit 2 (V 4 0 0) 4; Hit 0 (V 10 0 0) 10].
Proof.
  change (hits two_balls (position start) (direction start)) with (scene_intersections (world [ball 1 0 1; ball 2 (7/2) (1/2)]) (V 0 0 0) (V 1 0 0)).
  axis_norm. repeat f_equal; lra.
Qed.
Lemma two_balls_family : family two_balls_line.
Proof.
  pose proof eps_tiny. pose proof EPS_pos. unfold two_balls_line. split.
  - simpl. repeat constructor; simpl; intuition discriminate.
  - intros o [<-|[<-|[<-|[]]]]; simpl; unfold clear; lra.
  - intros o o' [<-|[<-|[<-|[]]]] [<-|[<-|[<-|[]]]] Hne; try congruence; unfold laminar, distinct_faces; simpl; lra.
Qed.
Lemma two_balls_reports : reports (hits two_balls (position start) (direction start)) (position start) (direction start) two_balls_line.
Proof.
  rewrite two_balls_hits. split.
  - unfold two_balls_line, faces, start. cbn [flat_map o_id o_lo o_hi filter position direction].
    rewrite (proj2 (Rltb_false 0 (-10))), (proj2 (Rltb_true 0 10)), (proj2 (Rltb_false 0 (-1))), (proj2 (Rltb_true 0 1)),
      (proj2 (Rltb_true 0 3)), (proj2 (Rltb_true 0 4)) by lra. cbn [map app].
    assert (E : forall t, vadd (V 0 0 0) (vscale t (V 1 0 0)) = V t 0 0) by (intros; apply vec_eq; simpl; ring). rewrite !E.
    symmetry. apply (Permutation_cons_append [Hit 1 (V 1 0 0) 1; Hit 2 (V 3 0 0) 3; Hit 2 (V 4 0 0) 4] (Hit 0 (V 10 0 0) 10)).
  - repeat constructor; simpl; lra.
Qed.
Lemma two_balls_next : next_hit two_balls start = HitOk 1 1 (Some 2%nat) 1.
Proof.
  unfold next_hit. rewrite (filter_far two_balls_line (position start) (direction start)) by (apply two_balls_family || apply two_balls_reports).
  rewrite two_balls_hits. unfold find_container, count_hits. cbn [filter h_node Nat.eqb length sort_by insert_by h_distance].
  rewrite (proj2 (Rltb_false 10 1)) by lra. cbn [Nat.eqb h_node]. f_equal.
  unfold distance_between. cbn [position start h_point]. replace (vsub (V 0 0 0) (V 1 0 0)) with (V (-1) 0 0) by (apply vec_eq; simpl; ring).
  rewrite norm_axis, Rabs_left by lra. lra.
Qed.

Example C05_example : is_unit (direction start) /\ family two_balls_line /\
  reports (hits two_balls (position start) (direction start)) (position start) (direction start) two_balls_line /\
  next_hit two_balls start = HitOk 1 1 (Some 2%nat) 1 /\ innermost two_balls_line 0 (Obj 1 (-1) 1).
Proof.
  split; [unfold is_unit, dot; simpl; ring|]. split; [exact two_balls_family|]. split; [exact two_balls_reports|].
  split; [exact two_balls_next|]. split; [right; left; reflexivity|]. split; [unfold contains; simpl; lra|].
  intros o' [<-|[<-|[<-|[]]]]; unfold contains; simpl; lra.
Qed.

(** ** C06 *)
(** The ray of the example leaves ball 1 into the world (node 0), but the adjacent node
    reported is ball 2, the next object further along. *)
Theorem C06_adjacent_is_far_side_refuted : exists S r objs h c a D,
  is_unit (direction r) /\ family objs /\
  reports (hits S (position r) (direction r)) (position r) (direction r) objs /\
  next_hit S r = HitOk h c (Some a) D /\ n_of S a <> n_of S 0 /\
  forall t, D < t < D + 1 -> exists o, innermost objs t o /\ o_id o = 0%nat /\ a <> 0%nat.
Proof.
  exists two_balls, start, two_balls_line, 1%nat, 1%nat, 2%nat, 1.
  split; [unfold is_unit, dot; simpl; ring|]. split; [exact two_balls_family|]. split; [exact two_balls_reports|].
  split; [exact two_balls_next|]. split; [simpl; lra|]. intros t Ht. exists (Obj 0 (-10) 10). split; [|split; [reflexivity|discriminate]].
  split; [left; reflexivity|]. split; [unfold contains; simpl; lra|].
  intros o' [<-|[<-|[<-|[]]]]; unfold contains; simpl; lra.
Qed.
Print Assumptions C06_adjacent_is_far_side_refuted.

(** What does hold.  Entering an object: the adjacent node is right.  Leaving the
    container: it is right exactly when the owner of the next face also contains the
    ray's position. *)
Theorem C06_adjacent_is_far_side_partial : forall S r objs h c a D,
  is_unit (direction r) -> family objs ->
  reports (hits S (position r) (direction r)) (position r) (direction r) objs ->
  next_hit S r = HitOk h c (Some a) D ->
  (c <> h -> exists delta, 0 < delta /\ forall t, D < t < D + delta -> exists o, innermost objs t o /\ o_id o = a) /\
  (c = h -> exists o delta, 0 < delta /\ In o objs /\ o_id o = a /\
     forall t, D < t < D + delta -> (innermost objs t o <-> contains o 0)).
Proof.
  intros S r objs h c a D Hd F Rp. set (p := position r) in *. set (d := direction r) in *. set (l := hits S p d) in *.
  assert (Hl : filter (fun i => negb (close_to_zero (h_distance i))) (hits S (position r) (direction r)) = l)
    by (apply (filter_far objs p d l F Rp)).
  unfold next_hit. rewrite Hl. clear Hl.
  destruct l as [|i [|j rest]] eqn:El; [discriminate|discriminate|].
  destruct (find_container (i :: j :: rest)) as [c'|] eqn:Ec; [|discriminate]. intros H. injection H as <- <- Ha Ed.
  assert (HD : D = h_distance i).
  { rewrite <- Ed. assert (Hi : In i (i :: j :: rest)) by (left; reflexivity). apply (in_l objs p d _ Rp) in Hi.
    destruct Hi as (o & _ & _ & _ & H0 & ->). apply distance_along; [exact Hd|lra]. }
  pose proof (two_faces_ordered objs p d _ F Rp i j rest eq_refl) as Hij.
  split; intros Hch.
  - exists (h_distance j - h_distance i). split; [lra|]. intros t Ht. rewrite HD in Ht.
    destruct (Nat.eqb_spec c' (h_node i)) as [|_]; [contradiction|]. subst a.
    apply (entering_far_side objs p d _ F Rp i j rest c' eq_refl Ec Hch). lra.
  - subst c'. rewrite Nat.eqb_refl in Ha. subst a.
    destruct (second_face objs p d _ Rp i j rest eq_refl) as (o & Ho & Hn & _).
    exists o, (h_distance j - h_distance i). split; [lra|]. split; [exact Ho|]. split; [auto|]. intros t Ht. rewrite HD in Ht.
    destruct (leaving_far_side objs p d _ F Rp i j rest eq_refl Ec o Ho (eq_sym Hn) t ltac:(lra)) as [L1 L2].
    split; [|exact L1]. intros (_ & Hin & _). destruct (Rlt_dec (o_lo o) 0) as [A|A]; [destruct (Rlt_dec 0 (o_hi o)) as [B|B]|].
    + split; assumption.
    + exfalso. apply L2; [|exact Hin]. intros [_ Hx]. lra.
    + exfalso. apply L2; [|exact Hin]. intros [Hx _]. lra.
Qed.
Print Assumptions C06_adjacent_is_far_side_partial.

(** ** C07 *)
Theorem C07_container_differs_from_adjacent : forall S r h c a D,
  next_hit S r = HitOk h c (Some a) D -> c <> a.
Proof.
  intros S r h c a D. unfold next_hit. cbv zeta. remember (filter _ _) as l eqn:El. clear El.
  destruct l as [|i [|j rest]]; [discriminate|discriminate|].
  destruct (find_container (i :: j :: rest)) as [c'|] eqn:Ec; [|discriminate]. intros H. injection H as _ <- Ha _.
  destruct (Nat.eqb_spec c' (h_node i)) as [->|Hne]; subst a; [|exact Hne].
  intros Heq. unfold find_container in Ec.
  (* the container owns exactly one intersection of the list *)
  assert (Hc : count_hits (h_node i) (i :: j :: rest) = 1%nat).
  { destruct (sort_by h_distance _) as [|k ks] eqn:Es; [discriminate|]. injection Ec as Ek.
    assert (Hk : In k (sort_by h_distance (filter (fun i0 => Nat.eqb (count_hits (h_node i0) (i :: j :: rest)) 1) (i :: j :: rest)))) by (rewrite Es; left; reflexivity).
    apply (Permutation_in _ (Permutation_sym (sort_by_perm _ _))) in Hk. apply filter_In in Hk. destruct Hk as [_ Hk].
    apply Nat.eqb_eq in Hk. now rewrite Ek in Hk. }
  unfold count_hits in Hc. simpl in Hc. rewrite Nat.eqb_refl in Hc. simpl in Hc. rewrite <- Heq, Nat.eqb_refl in Hc. simpl in Hc. discriminate.
Qed.
Print Assumptions C07_container_differs_from_adjacent.

(** Hence in the events of every history. *)
Theorem C07_events_separate_two_nodes : forall fuel S maxsteps maxpath m us r e c a,
  wf_scene S -> (forall i, wf_draws (us i)) -> is_unit (direction r) ->
  In e (fst (step_forward fuel S maxsteps maxpath m us r)) ->
  e_container e = Some c -> e_adjacent e = Some a -> e_kind e = REFLECT \/ e_kind e = TRANSMIT -> c <> a.
Proof.
  intros fuel S ms mp m us r e c a W Hu Hd Hin Hc Ha Hk. apply in_split in Hin. destruct Hin as (pre & post & H).
  destruct pre as [|e0 pre] using rev_ind.
  { unfold step_forward in H. destruct (loop fuel S ms mp m us 0 r). simpl in H. injection H as <- _. simpl in Hk. destruct Hk; discriminate. }
  rewrite <- app_assoc in H. simpl in H.
  destruct (C03_flights_follow_next_hit fuel S ms mp m us r pre e0 e post W Hu Hd H) as (h & c' & a' & D & Hn & Ec & K).
  { destruct Hk as [-> | ->]; reflexivity. }
  rewrite Hc in Ec. injection Ec as <-.
  assert (Ea : e_adjacent e = a') by (destruct Hk as [Hk|Hk]; rewrite Hk in K; destruct K as (_ & _ & _ & K); exact K).
  rewrite Ha in Ea. subst a'. exact (C07_container_differs_from_adjacent _ _ _ _ _ _ Hn).
Qed.
Print Assumptions C07_events_separate_two_nodes.

Example C07_example : next_hit glass start = HitOk 1 1 (Some 0%nat) 1 /\ next_hit two_balls start = HitOk 1 1 (Some 2%nat) 1.
Proof. split; [exact glass_hits0|exact two_balls_next]. Qed.

(** ** C08 *)
(** A ray that meets nothing - here one that starts outside the world and points away
    from it - gets the history [GENERATE] and no fate. *)
Definition lost : ray := Ray (V 20 0 0) (V 1 0 0) 555 0 0 (Light 0).
Lemma lost_hits : next_hit glass lost = NoHit.
Proof.
  unfold next_hit. change (hits glass (position lost) (direction lost)) with (scene_intersections (world [ball 1 0 1]) (V 20 0 0) (V 1 0 0)).
  replace (scene_intersections (world [ball 1 0 1]) (V 20 0 0) (V 1 0 0)) with (@nil intersection); [reflexivity|].
  symmetry. axis_norm. reflexivity.
Qed.
Theorem C08_every_photon_has_a_fate_refuted : exists fuel S maxsteps m us r h,
  wf_scene S /\ is_unit (direction r) /\ (forall i, wf_draws (us i)) /\
  follow fuel S maxsteps None m us r = Some h /\ map snd h = [GENERATE].
Proof.
  exists 5%nat, glass, 7%nat, KT, (fun _ => mid_draws), lost, [(lost, GENERATE)].
  split; [exact glass_wf|]. split; [unfold is_unit, dot; simpl; ring|]. split; [intros; exact wf_mid|]. split; [|reflexivity].
  unfold follow, step_forward. cbn [loop]. unfold pass. rewrite lost_hits. reflexivity.
Qed.
Print Assumptions C08_every_photon_has_a_fate_refuted.

(** Losing sight of all geometry is the only way to lose a photon: a history without a
    fate ends in a ray for which next_hit finds nothing. *)
Theorem C08_fate_or_no_geometry_partial : forall fuel S maxsteps maxpath m us r evs,
  step_forward fuel S maxsteps maxpath m us r = (evs, Done) ->
  exists pre e, evs = pre ++ [e] /\ Forall (fun e => is_terminal (e_kind e) = false) pre /\
    (is_terminal (e_kind e) = true \/ next_hit S (e_ray e) = NoHit).
Proof.
  intros fuel S ms mp m us r evs H.
  assert (Hne : evs <> []) by (unfold step_forward in H; destruct (loop fuel S ms mp m us 0 r); injection H as <- _; discriminate).
  destruct (exists_last Hne) as (pre & e & ->). exists pre, e. split; [reflexivity|]. split.
  - apply Forall_forall. intros x Hx. apply in_split in Hx. destruct Hx as (p & q & ->).
    destruct (is_terminal (e_kind x)) eqn:Ex; [exfalso|reflexivity].
    rewrite <- app_assoc in H. simpl in H.
    pose proof (C01_nothing_after_ending fuel S ms mp m us r p x (q ++ [e])) as Hn. rewrite H in Hn.
    specialize (Hn eq_refl Ex). destruct q; discriminate.
  - destruct (is_terminal (e_kind e)) eqn:Ee; [now left|right]. exact (C04_exhausted_budget_kills _ _ _ _ _ _ _ _ _ H Ee).
Qed.
Print Assumptions C08_fate_or_no_geometry_partial.

(** Sufficient condition: a region the ray cannot leave without hitting the root. *)
Theorem C08_enclosed_partial : forall S (inside : vec -> Prop),
  wf_scene S ->
  (forall r, inside (position r) -> is_unit (direction r) -> next_hit S r <> NoHit) ->
  (forall r h c a D x, inside (position r) -> is_unit (direction r) -> next_hit S r = HitOk h c a D -> h <> root S ->
     0 <= x <= D -> inside (vadd (position r) (vscale x (direction r)))) ->
  forall fuel maxsteps maxpath m us r evs,
  (forall i, wf_draws (us i)) -> inside (position r) -> is_unit (direction r) ->
  step_forward fuel S maxsteps maxpath m us r = (evs, Done) ->
  exists pre e, evs = pre ++ [e] /\ Forall (fun e => is_terminal (e_kind e) = false) pre /\ is_terminal (e_kind e) = true.
Proof.
  intros S inside W H1 H2 fuel ms mp m us r evs Hu Hi Hd H.
  destruct (C08_fate_or_no_geometry_partial _ _ _ _ _ _ _ _ H) as (pre & e & -> & Hp & [He|He]); [now exists pre, e|].
  destruct (is_terminal (e_kind e)) eqn:Et; [now exists pre, e|exfalso].
  assert (G : forall l r, inside (position r) -> is_unit (direction r) -> chain S r l -> Forall (fun e => is_terminal (e_kind e) = false) l ->
     inside (position (end_ray r l)) /\ is_unit (direction (end_ray r l))).
  { clear - H1 H2. induction l as [|x l IH]; intros r Hi Hd Hc Hf; [auto|]. simpl in Hc. destruct Hc as (L & Ux & Hc).
    inversion Hf as [|? ? Hx Hf']; subst. apply (IH (e_ray x)); [|exact Ux|exact Hc|exact Hf'].
    unfold link in L. destruct (e_kind x); try discriminate; try contradiction.
    - destruct L as (h & c & a & D & d & Hn & HD & Hr & _ & _ & _ & _ & ->). simpl. apply (H2 r h c a D); auto; lra.
    - destruct L as (h & c & a & D & d & Hn & HD & Hr & _ & _ & _ & _ & ->). simpl. apply (H2 r h c a D); auto; lra.
    - destruct L as (h & c & a & D & y & Hn & Hy & Hr & _ & -> & _). simpl. apply (H2 r h c a D); auto; lra.
    - destruct L as (c & k & cm & _ & _ & _ & -> & _). exact Hi.
    - destruct L as (c & k & cm & _ & _ & _ & -> & _). exact Hi. }
  unfold step_forward in H. pose proof (loop_chain S ms mp m us W Hu fuel 0 r Hd) as Hc.
  destruct (loop fuel S ms mp m us 0 r) as [l st]. simpl in Hc. injection H as H ->.
  assert (Hl : Forall (fun e => is_terminal (e_kind e) = false) l /\ end_ray r l = e_ray e).
  { destruct pre as [|y pre]; simpl in H; injection H as <- ->.
    - split; [constructor|reflexivity].
    - split; [|apply end_ray_last]. inversion Hp; subst. apply Forall_app. split; [assumption|]. constructor; [exact Et|constructor]. }
  destruct Hl as [Hl El]. destruct (G l r Hi Hd Hc Hl) as [G1 G2]. rewrite El in G1, G2. exact (H1 _ G1 G2 He).
Qed.
Print Assumptions C08_enclosed_partial.

(** The usual set-up meets it: a spherical world of radius [R] whose other objects
    only produce hits within radius [R'], R' + 1e-4 <= R, with every start inside
    R'.  (Objects are arbitrary node trees.) *)
Lemma norm_triangle a b : norm (vadd a b) <= norm a + norm b.
Proof.
  apply Rsqr_incr_0_var; [|pose proof (norm_nonneg a); pose proof (norm_nonneg b); lra]. unfold Rsqr. rewrite norm_sq.
  replace (dot (vadd a b) (vadd a b)) with (dot a a + 2 * dot a b + dot b b) by (unfold dot; simpl; ring).
  assert (dot a b <= norm a * norm b).
  { apply Rsqr_incr_0_var; [|apply Rmult_le_pos; apply norm_nonneg]. unfold Rsqr.
    replace (norm a * norm b * (norm a * norm b)) with ((norm a * norm a) * (norm b * norm b)) by ring.
    rewrite !norm_sq. apply cauchy_schwarz_sq. }
  replace ((norm a + norm b) * (norm a + norm b)) with (norm a * norm a + 2 * (norm a * norm b) + norm b * norm b) by ring.
  rewrite !norm_sq. lra.
Qed.

Lemma ball_convex R' p d x D : is_unit d -> norm p <= R' -> norm (vadd p (vscale D d)) <= R' -> 0 <= x <= D ->
  norm (vadd p (vscale x d)) <= R'.
Proof.
  intros Hd Hp Hq Hx. destruct (Req_dec D 0) as [->|HD].
  { assert (x = 0) by lra. subst x. exact Hq. }
  assert (E : vadd p (vscale x d) = vadd (vscale (1 - x / D) p) (vscale (x / D) (vadd p (vscale D d)))).
  { apply vec_eq; simpl; field; exact HD. }
  rewrite E. assert (0 <= x / D <= 1).
  { split; [apply Rmult_le_pos; [lra|left; apply Rinv_0_lt_compat; lra]|]. apply (Rmult_le_reg_r D); [lra|]. field_simplify; lra. }
  eapply Rle_trans; [apply norm_triangle|]. rewrite !norm_scale_pos by lra. nra.
Qed.

Lemma world_face_ahead R R' o d : 0 <= R' -> R' + / 10 ^ 4 <= R -> norm o <= R' -> is_unit d ->
  exists t, In t (sphere_ts R o d) /\ / 10 ^ 4 <= t.
Proof.
  intros H0 HR Ho Hd. assert (Hnz : d <> vzero) by (intros ->; unfold is_unit, dot in Hd; simpl in Hd; lra).
  assert (Hoo : dot o o <= R' * R') by (rewrite <- norm_sq; pose proof (norm_nonneg o); nra).
  assert (He : / 10 ^ 4 * / 10 ^ 4 = / 10 ^ 8) by (simpl; field).
  assert (Hpos : 0 < / 10 ^ 4) by lra.
  assert (Hgap : / 10 ^ 8 < 4 * (R * R - R' * R')).
  { rewrite <- He. assert ((R - R') * (R - R') >= / 10 ^ 4 * / 10 ^ 4) by nra. nra. }
  unfold is_unit in Hd.
  set (b := 2 * dot d o). set (c := dot o o - R * R).
  assert (Hdisc : 0 <= b * b - 4 * 1 * c) by (unfold b, c; assert (0 <= dot d o * dot d o) by nra; nra).
  destruct (quad_root 1 b c ((- b + sqrt (b * b - 4 * 1 * c)) / (2 * 1)) ltac:(lra) Hdisc) as [_ Q].
  assert (Ht : 1 * ((- b + sqrt (b * b - 4 * 1 * c)) / (2 * 1)) * ((- b + sqrt (b * b - 4 * 1 * c)) / (2 * 1)) + b * ((- b + sqrt (b * b - 4 * 1 * c)) / (2 * 1)) + c = 0) by (apply Q; now right).
  set (t := (- b + sqrt (b * b - 4 * 1 * c)) / (2 * 1)) in *. clear Q.
  assert (Hon : norm (at_ray o d t) = R).
  { apply norm_eq_sq; [lra|]. rewrite at_ray_sq, Hd. unfold b, c in Ht. lra. }
  assert (Htri : R <= norm o + Rabs t).
  { rewrite <- Hon. unfold at_ray. eapply Rle_trans; [apply norm_triangle|]. apply Rplus_le_compat_l.
    destruct (Rle_dec 0 t).
    - rewrite norm_scale_pos, (norm_unit d Hd), Rabs_right by lra. lra.
    - replace (vscale t d) with (vneg (vscale (- t) d)) by (apply vec_eq; simpl; ring).
      rewrite norm_neg, norm_scale_pos, (norm_unit d Hd), Rabs_left by lra. lra. }
  assert (Htpos : 0 <= t).
  { unfold t. assert (b <= sqrt (b * b - 4 * 1 * c)).
    { destruct (Rle_dec b 0); [pose proof (sqrt_pos (b * b - 4 * 1 * c)); lra|].
      rewrite <- (sqrt_square b) at 1 by lra. apply sqrt_le_1_alt. unfold c. nra. }
    lra. }
  rewrite Rabs_right in Htri by lra.
  exists t. split; [|lra]. apply sphere_ts_in; [lra|exact Hnz| |].
  - right. unfold sphere_disc. rewrite Hd. fold b. unfold c in *.
    assert (0 <= b * b) by nra. nra.
  - split; [exact Htpos|]. exact Hon.
Qed.

(** what the children of the root contribute, in root coordinates *)
Definition child_hits (children : list node) (o d : vec) : list intersection :=
  flat_map (fun c => match c with
                     | Node _ cp _ _ => node_hits c (rcomp rid cp) (to_point (ainv cp) o) (to_vector (ainv cp) d)
                     end) children.

Theorem C08_spherical_world_partial : forall S R R' children,
  wf_scene S -> 0 <= R' -> R' + / 10 ^ 4 <= R ->
  hits S = scene_intersections (Node (root S) rid (Some (sphere_intersections R)) children) ->
  (forall o d i, is_unit d -> In i (child_hits children o d) ->
     h_node i <> root S /\ norm (h_point i) <= R' /\ h_point i = vadd o (vscale (h_distance i) d)) ->
  forall fuel maxsteps maxpath m us r evs,
  (forall i, wf_draws (us i)) -> norm (position r) <= R' -> is_unit (direction r) ->
  step_forward fuel S maxsteps maxpath m us r = (evs, Done) ->
  exists pre e, evs = pre ++ [e] /\ Forall (fun e => is_terminal (e_kind e) = false) pre /\ is_terminal (e_kind e) = true.
Proof.
  intros S R R' children W H0 HR Hh Hch. apply (C08_enclosed_partial S (fun p => norm p <= R') W).
  - intros r Hi Hd. destruct (world_face_ahead R R' (position r) (direction r) H0 HR Hi Hd) as (t & Ht & Ht0).
    pose proof EPS_small as He. assert (He4 : / 10 ^ 9 < / 10 ^ 4) by (apply Rinv_lt_contravar; simpl; lra).
    set (i := Hit (root S) (at_ray (position r) (direction r) t) t).
    assert (Hin : In i (filter (fun i => negb (close_to_zero (h_distance i))) (hits S (position r) (direction r)))).
    { apply filter_In. split.
      - rewrite Hh. unfold scene_intersections. apply (Permutation_in _ (sort_by_perm _ _)). apply filter_In. split.
        + cbn [node_hits]. apply in_or_app. left. apply in_map_iff. exists (at_ray (position r) (direction r) t). split.
          * unfold i. rewrite to_point_rid. f_equal. apply distance_along; [exact Hd|lra].
          * unfold sphere_intersections. now apply in_map.
        + unfold intersection_point_is_ahead. apply Rltb_true. unfold i; cbn [h_point]. unfold at_ray.
          rewrite dot_add_r, dot_scale_r. unfold is_unit in Hd. rewrite Hd. lra.
      - unfold i, close_to_zero; cbn [h_distance]. rewrite Rabs_right by lra.
        rewrite (proj2 (Rltb_false t EPS_ZERO)) by lra. reflexivity. }
    unfold next_hit. cbv zeta. destruct (filter _ _) as [|x [|y rest]]; [contradiction|discriminate|].
    destruct (find_container _); discriminate.
  - intros r h c a D x Hi Hd Hn Hr Hx.
    assert (Hex : exists i, In i (hits S (position r) (direction r)) /\ h_node i = h /\ (D = h_distance i \/ D = distance_between (position r) (h_point i))).
    { unfold next_hit in Hn. cbv zeta in Hn. destruct (filter _ _) as [|i rest] eqn:Ef; [discriminate|].
      assert (Hin : In i (hits S (position r) (direction r))).
      { assert (H : In i (i :: rest)) by (left; reflexivity). rewrite <- Ef in H. now apply filter_In in H. }
      exists i. split; [exact Hin|]. destruct rest as [|j rest].
      - injection Hn as <- _ _ <-. auto.
      - destruct (find_container _); [|discriminate]. injection Hn as <- _ _ <-. auto. }
    destruct Hex as (i & Hin & Hid & HD). rewrite Hh in Hin. unfold scene_intersections in Hin.
    apply (Permutation_in _ (Permutation_sym (sort_by_perm _ _))) in Hin. apply filter_In in Hin. destruct Hin as [Hin _].
    pose proof (node_hits_nonneg _ _ _ _ _ Hin) as Hpos.
    cbn [node_hits] in Hin. apply in_app_or in Hin. destruct Hin as [Hin|Hin].
    { exfalso. apply in_map_iff in Hin. destruct Hin as (q & Eq & _). apply Hr. rewrite <- Hid, <- Eq. reflexivity. }
    destruct (Hch _ _ _ Hd Hin) as (_ & Hnorm & Hpt).
    assert (HD' : D = h_distance i).
    { destruct HD as [HD|HD]; [exact HD|]. rewrite HD, Hpt. now apply distance_along. }
    apply (ball_convex R' _ _ x D Hd Hi); [|exact Hx]. rewrite HD', <- Hpt. exact Hnorm.
Qed.
Print Assumptions C08_spherical_world_partial.

(** An instance: the glass ball in the spherical world meets all hypotheses. *)
Lemma ball_hits_inside id radius o d i : 0 < radius -> is_unit d -> In i (node_hits (ball id 0 radius) rid o d) ->
  h_node i = id /\ norm (h_point i) <= radius /\ h_point i = vadd o (vscale (h_distance i) d).
Proof.
  intros Hr Hd Hi. assert (Hnz : d <> vzero) by (intros ->; unfold is_unit, dot in Hd; simpl in Hd; lra).
  unfold ball in Hi. cbn [node_hits flat_map] in Hi. rewrite app_nil_r in Hi.
  apply in_map_iff in Hi. destruct Hi as (p & <- & Hp). rewrite to_point_rid. cbn [h_point h_distance h_node]. split; [reflexivity|].
  unfold sphere_intersections in Hp. apply in_map_iff in Hp. destruct Hp as (t & <- & Ht).
  assert (Ht0 : 0 <= t).
  { unfold sphere_ts in Ht. cbv zeta in Ht. destruct (Rltb _ 0); [contradiction|]. apply filter_In in Ht. now apply Rleb_true. }
  split; [|unfold at_ray; now rewrite distance_along].
  destruct (Rlt_dec (/ 10 ^ 8) (sphere_disc radius o d)) as [Hb|Hb].
  - apply sphere_ts_in in Ht; [|lra|exact Hnz|now right]. lra.
  - unfold sphere_ts in Ht. cbv zeta in Ht. fold (sphere_disc radius o d) in Ht.
    destruct (Rltb_spec (sphere_disc radius o d) 0) as [|Hd0]; [contradiction|].
    rewrite (proj2 (np_close_0 _)) in Ht by (rewrite Rabs_right; lra). apply filter_In in Ht. destruct Ht as [[Ht|[]] _].
    apply Rsqr_incr_0_var; [|lra]. unfold Rsqr. rewrite norm_sq, at_ray_sq. unfold sphere_disc in Hd0. unfold is_unit in Hd. rewrite Hd in *.
    rewrite <- Ht. field_simplify. nra.
Qed.
Example C08_example : wf_scene glass /\ hits glass = scene_intersections (Node (root glass) rid (Some (sphere_intersections 10)) [ball 1 0 1]) /\
  (forall o d i, is_unit d -> In i (child_hits [ball 1 0 1] o d) ->
     h_node i <> root glass /\ norm (h_point i) <= 1 /\ h_point i = vadd o (vscale (h_distance i) d)) /\
  norm (position start) <= 1 /\
  exists pre e, fst (step_forward 5 glass 7 None KT (fun _ => mid_draws) start) = pre ++ [e] /\ e_kind e = EXIT.
Proof.
  split; [exact glass_wf|]. split; [reflexivity|]. split; [|split].
  - intros o d i Hd Hi. unfold child_hits in Hi. cbn [flat_map] in Hi. rewrite app_nil_r in Hi.
    change (ball 1 0 1) with (Node 1 rid (Some (sphere_intersections 1)) []) in Hi. cbv iota beta in Hi.
    rewrite rcomp_id_l, ainv_rid, to_point_rid, to_vector_rid in Hi.
    destruct (ball_hits_inside 1 1 o d i ltac:(lra) Hd Hi) as (-> & H1 & H2). split; [discriminate|auto].
  - simpl. rewrite norm_axis, Rabs_R0. lra.
  - destruct (glass_history None ltac:(discriminate)) as (e1 & e2 & E & _ & _ & K & _). rewrite E. simpl.
    exists [Event GENERATE start None None None None None; e1], e2. split; [reflexivity|exact K].
Qed.

(** ** C77: absorption in every medium *)
Definition absorber : component := Component Absorber (DConst 1) 0 0 0 (fun _ _ => None) (DConst 1).
(** nothing but a world filled with an absorbing medium *)
Definition fog : scene := axis_scene_of [] (fun _ => 0) (fun _ => 1) (fun _ => [absorber]) null_surface.

Lemma fog_wf : wf_scene fog.
Proof.
  split.
  - intros n. split; [apply wf_translation|reflexivity].
  - intros n; simpl; lra.
  - intros p d i Hi. eapply scene_intersections_nonneg, Hi.
  - intros n c [<-|[]]; simpl. split; [lra|]. split; [lra|]. intros; discriminate.
  - exact null_wf.
Qed.
Lemma fog_hits : next_hit fog start = HitOk 0 0 None 10.
Proof.
  unfold next_hit. change (hits fog (position start) (direction start)) with (scene_intersections (world []) (V 0 0 0) (V 1 0 0)).
  replace (scene_intersections (world []) (V 0 0 0) (V 1 0 0)) with [Hit 0 (V 10 0 0) 10].
  2:{ symmetry. axis_norm. repeat f_equal; lra. }
  pose proof eps_tiny. cbn [filter h_distance]. unfold close_to_zero. rewrite Rabs_right by lra.
  rewrite (proj2 (Rltb_false 10 EPS_ZERO)) by lra. reflexivity.
Qed.

(** The medium of the world never absorbs a ray that is heading for the world's
    boundary, whatever its coefficient and the drawn depth. *)
Theorem C77_absorbed_in_every_medium_refuted : exists S r u h c a D alpha x,
  wf_scene S /\ is_unit (direction r) /\ wf_draws u /\
  next_hit S r = HitOk h c a D /\ total_attenuation (comps S c) (wavelength r) = Some alpha /\
  penetration_depth alpha (u_depth u) = Fin x /\ x < D /\
  kinds (fst (step_forward 5 S 7 None KT (fun _ => u) r)) = [GENERATE; EXIT].
Proof.
  exists fog, start, mid_draws, 0%nat, 0%nat, None, 10, (rsum [1]), (- ln (1 - 1/2) / rsum [1]).
  split; [exact fog_wf|]. split; [unfold is_unit, dot; simpl; ring|]. split; [exact wf_mid|]. split; [exact fog_hits|].
  split; [reflexivity|]. assert (Hr : rsum [1] = 1) by (simpl; lra). rewrite Hr. split; [|split].
  - unfold penetration_depth, isclose_zero, alpha_tol. rewrite Rabs_R1. rewrite (proj2 (Rleb_false 1 (/ 10 ^ 8))) by lra. reflexivity.
  - replace (1 - 1/2) with (/ 2) by lra. rewrite ln_Rinv by lra. pose proof ln_lt_2.
    assert (ln 2 < 2) by (replace 2 with (1 + 1) at 1 by ring; pose proof (exp_ineq1 1 ltac:(lra)) as He; apply exp_lt_inv; rewrite exp_ln by lra;
      pose proof (exp_increasing 1 2 ltac:(lra)); lra). lra.
  - unfold step_forward. cbn [loop]. unfold pass. rewrite fog_hits. reflexivity.
Qed.
Print Assumptions C77_absorbed_in_every_medium_refuted.

(** Away from the world's boundary the comparison of depth and distance decides. *)
Theorem C77_absorbed_in_every_medium_partial : forall S maxsteps maxpath m u count r h c a D alpha x,
  next_hit S r = HitOk h c a D -> h <> root S ->
  (count <= maxsteps)%nat -> over_path maxpath r = false ->
  total_attenuation (comps S c) (wavelength r) = Some alpha ->
  penetration_depth alpha (u_depth u) = Fin x ->
  let first := match pass S maxsteps maxpath m u count r with
               | Stop (e :: _) | Raise (e :: _) | Continue (e :: _) _ => Some e | _ => None end in
  forall e, first = Some e ->
  (x < D -> e_kind e = ABSORB /\ e_ray e = propagate r x (n_of S c)) /\
  (D <= x -> (e_kind e = REFLECT \/ e_kind e = TRANSMIT) /\
     position (e_ray e) = to_point (l2w S h) (to_point (w2l S h) (vadd (position r) (vscale D (direction r))))).
Proof.
  intros S ms mp m u count r h c a D alpha x Hn Hr Hc Ho Ha Hp first e. unfold first, pass. rewrite Hn.
  rewrite (proj2 (Nat.ltb_ge ms count) Hc), Ho. cbn [orb]. destruct (Nat.eqb_spec h (root S)) as [|_]; [contradiction|].
  rewrite Ha, Hp. intros He. split; intros Hx.
  - rewrite (proj2 (Rltb_true x D) Hx) in He. unfold absorb_step in He. cbv zeta in He.
    destruct (coefficients _ _); [|discriminate]. destruct (select_component _ _); [|discriminate]. destruct (nth_error _ _); [|discriminate].
    destruct (is_radiative _ _ _); [destruct (emit _ _ _ _ _ _)|]; injection He as <-; auto.
  - rewrite (proj2 (Rltb_false x D) Hx) in He. unfold surface_step in He. cbv zeta in He.
    destruct (normal_of _ _ _); [|discriminate]. destruct (s_reflectivity _ _ _ _ _ _); [|discriminate].
    destruct (is_reflected _ _); [destruct (s_reflected _ _ _ _ _ _); [|discriminate]|destruct (s_transmitted _ _ _ _ _ _); [|discriminate]; destruct a; [|discriminate]];
      injection He as <-; simpl; auto.
Qed.
Print Assumptions C77_absorbed_in_every_medium_partial.

(** The glass ball filled with the absorber: the ray is absorbed inside it. *)
Definition cloudy : scene := axis_scene_of [ball 1 0 1] (fun _ => 0) (fun _ => 1) (fun n => match n with O => [] | _ => [absorber] end) null_surface.
Example C77_example : next_hit cloudy start = HitOk 1 1 (Some 0%nat) 1 /\ (1%nat <> root cloudy) /\
  kinds (fst (step_forward 5 cloudy 7 None KT (fun _ => mid_draws) start)) = [GENERATE; ABSORB; NONRADIATIVE].
Proof.
  assert (Hn : next_hit cloudy start = HitOk 1 1 (Some 0%nat) 1) by exact glass_hits0.
  split; [exact Hn|]. split; [discriminate|]. unfold step_forward. cbn [loop].
  assert (Hp : kinds (match pass cloudy 7 None KT mid_draws 1 start with Stop l | Raise l | Continue l _ => l end) = [ABSORB; NONRADIATIVE] /\
    exists l, pass cloudy 7 None KT mid_draws 1 start = Stop l).
  { unfold pass. rewrite Hn. cbn [Nat.ltb Nat.leb orb over_path Nat.eqb root cloudy axis_scene_of].
    change (total_attenuation (comps cloudy 1) (wavelength start)) with (Some (rsum [1])). assert (Hr : rsum [1] = 1) by (simpl; lra).
    unfold penetration_depth, isclose_zero, alpha_tol. rewrite Hr, Rabs_R1. rewrite (proj2 (Rleb_false 1 (/ 10 ^ 8))) by lra.
    replace (1 - u_depth mid_draws) with (/ 2) by (simpl; lra). rewrite ln_Rinv by lra.
    assert (ln 2 < 1).
    { rewrite <- (ln_exp 1). apply ln_increasing; [lra|]. pose proof (exp_ineq1 1 ltac:(lra)). lra. }
    rewrite (proj2 (Rltb_true (- - ln 2 / 1) 1)) by lra. unfold absorb_step. cbv zeta.
    change (coefficients (comps cloudy 1) _) with (Some [1]).
    assert (Hs : select_component [1] (u_comp mid_draws) = Some 0%nat).
    { apply C33_component_choice_interval; [repeat constructor; lra|lra|simpl; lra|]. split; [simpl; lia|]. unfold psum, rsum; simpl. lra. }
    cbv iota beta. rewrite Hs. cbn [nth_error comps cloudy axis_scene_of]. split; [reflexivity|eexists; reflexivity]. }
  destruct Hp as [H1 (l & H2)]. rewrite H2 in *. simpl. unfold kinds in *. simpl. now rewrite H1.
Qed.
