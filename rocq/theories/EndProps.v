(** C138: the compiled engine, run on the tables that compiler.py makes of a scene, gives the
    history that the Python tracer gives in that scene. *)
From Coq Require Import Reals Lra Lia Psatz List Bool Arith String Permutation.
From Verif Require Import Base Vec Interp DistModel DistProofs DistProps MaterialModel MaterialSpec MaterialProofs MaterialProps
  OpticsModel OpticsProofs OpticsProps PhaseModel PhaseProofs PhaseProps TransformModel TransformProofs GeomModel GeomProofs GeomProps
  TracerModel TracerProofs TracerProps KernelModel KernelProofs KernelSim KernelProps BundleModel BundleProofs
  CompilerModel CompilerProofs CompilerProps EndModel EndProofs.
Import ListNotations.
Open Scope R_scope.

(** ** Conditions *)
(** The ray passes into or out of the box at parameter [t]. *)
Definition crosses (size o d : vec) (t : R) : Prop :=
  in_box size (vadd o (vscale t d)) /\
  forall e, 0 < e -> exists s, Rabs (s - t) < e /\ ~ in_box size (vadd o (vscale s d)).
(** No component of the direction is so small that the kernel takes it for zero, and the line
    misses the box or runs through it for some length. *)
Definition clear_of_box (size o d : vec) : Prop :=
  exact_component (vx d) /\ exact_component (vy d) /\ exact_component (vz d) /\
  ((forall t, ~ in_box size (vadd o (vscale t d))) \/
   exists s t, s < t /\ in_box size (vadd o (vscale s d)) /\ in_box size (vadd o (vscale t d))).
(** trimesh finds, beyond EPS_ZERO, exactly the crossings of such a ray *)
Definition exact_mesh (mesh : vec -> vec -> vec -> list vec) : Prop :=
  forall size o d, 0 < vx size -> 0 < vy size -> 0 < vz size -> is_unit d -> clear_of_box size o d ->
  exists ts, mesh size o d = map (at_ray o d) ts /\ Forall (fun t => 0 <= t) ts /\ NoDup ts /\
    forall t, EPS_ZERO < t -> (In t ts <-> crosses size o d t).

(** The ray, in the frame of the geometry, does not graze it. *)
Definition clear (g : sgeometry) (o d : vec) : Prop :=
  match g with
  | GBox s => clear_of_box s o d
  | GSphere r => sphere_disc r o d < 0 \/ / 10 ^ 8 < sphere_disc r o d
  | GCylinder l r =>
      (vx d = 0 /\ vy d = 0 \/ tiny < vx d * vx d + vy d * vy d) /\ (vz d = 0 \/ tiny < Rabs (vz d)) /\
      (forall t, EPS_ZERO < t -> ~ on_rim l r (vadd o (vscale t d)))
  | GOther => True
  end.
Definition positive_size (g : sgeometry) : Prop :=
  match g with
  | GBox s => 0 < vx s /\ 0 < vy s /\ 0 < vz s
  | GSphere r => 0 < r
  | GCylinder l r => 0 < l /\ 0 < r
  | GOther => True
  end.
Record good_comp (c : scomp) : Prop := {
  gc_coef : forall nm a, dist_call (sc_abs c) nm = Some a -> 0 <= a;
  gc_rad : 0 <= tau_or_zero (sc_tau_rad c);
  gc_nr : 0 <= tau_or_zero (sc_tau_nr c);
  gc_phase : forall g, sc_phase c = SHenyeyGreenstein g -> EPS_ZERO <= Rabs g }.
(** A scene of library objects.  The numbers [p_id] only tell the node objects apart; here they
    count the nodes in pre-order. *)
Record usable (root : stree) : Prop := {
  rd_ids : map p_id (geometry_nodes root) = seq 0 (List.length (geometry_nodes root));
  rd_count : (List.length (geometry_nodes root) <= 128)%nat;
  rd_poses : poses_below wf_rigid root;
  rd_built : spectra_built root;
  rd_size : forall n, In n (geometry_nodes root) -> positive_size (p_geometry n);
  rd_index : forall n m, In n (geometry_nodes root) -> p_material n = Some m -> 0 < sm_index m;
  rd_comp : forall n m c, In n (geometry_nodes root) -> p_material n = Some m -> In c (sm_comps m) -> good_comp c }.
(** In addition, nodes that can re-emit are not turned (see C78). *)
Record ready (root : stree) : Prop := {
  rd_usable : usable root;
  rd_upright : forall n m c, In n (geometry_nodes root) -> p_material n = Some m -> In c (sm_comps m) ->
    sc_class c = ClsScatterer \/ sc_class c = ClsLuminophore -> rot (p_to_root n) = mid }.

(** What must not happen at a ray of the history: grazing, a draw that falls exactly on the
    border between two components, an angle so small that np.allclose takes it for zero. *)
Record ordinary (S : scene) (root : stree) (u : draws) (r : ray) : Prop := {
  od_clear : forall n, In n (geometry_nodes root) ->
    clear (p_geometry n) (to_point (ainv (p_to_root n)) (position r)) (to_vector (ainv (p_to_root n)) (direction r));
  od_choice : forall n coefs i, coefficients (comps S n) (wavelength r) = Some coefs -> 0 < rsum coefs ->
    (i <= List.length coefs)%nat -> u_comp u * rsum coefs <> psum coefs i;
  od_angle : forall h c a D v, next_hit S r = HitOk h c a D ->
    let d := to_vector (w2l S h) (direction r) in
    normal_of S h (to_point (w2l S h) (vadd (position r) (vscale D (direction r)))) = Some v ->
    np_allclose (along v d) d = true -> along v d = d }.

(** ** Boxes *)
Lemma box_regular mesh size o d : exact_mesh mesh -> positive_size (GBox size) -> is_unit d -> clear_of_box size o d ->
  regular (mesh size) o d (k_intersect_box size o d).
Proof.
  intros M (Sx & Sy & Sz) Hd C. destruct (M size o d Sx Sy Sz Hd C) as (ts & E & P & ND & X). exists ts. split; [exact E|]. split; [exact P|].
  destruct C as (Ex & Ey & Ez & Hthrough). pose proof EPS_pos as Ep.
  assert (F : forall t, In t (filter (fun t => Rltb EPS_ZERO t) ts) <-> EPS_ZERO < t /\ crosses size o d t).
  { intros t. rewrite filter_In, Rltb_true. split; [intros [h1 h2]|intros [h1 h2]]; (split; [|assumption || (now apply X)]); [assumption|now apply X]. }
  assert (Nd : NoDup (filter (fun t => Rltb EPS_ZERO t) ts)) by (apply NoDup_filter; exact ND).
  destruct (C52_kernel_box_exact size o d Sx Sy Sz (unit_nonzero d Hd) Ex Ey Ez) as [[-> H]|[(M1 & -> & HM & H)|(m & M1 & -> & Hm & H)]].
  - apply NoDup_Permutation; [exact Nd|constructor|]. intros t. rewrite F. split; [|intros []]. intros [h1 [h2 _]]. exfalso. exact (H t h1 h2).
  - apply NoDup_Permutation; [exact Nd|constructor; [intros []|constructor]|]. intros t. rewrite F. split.
    + intros [h1 [h2 h3]]. left. apply H in h2; [|exact h1]. destruct (Rle_lt_or_eq_dec _ _ h2) as [L|L]; [exfalso|now symmetry].
      destruct (h3 (Rmin (t - EPS_ZERO) (M1 - t))) as (s & h4 & h5); [apply Rmin_glb_lt; lra|]. apply h5.
      pose proof (Rmin_l (t - EPS_ZERO) (M1 - t)). pose proof (Rmin_r (t - EPS_ZERO) (M1 - t)). apply Rabs_def2 in h4. apply H; lra.
    + intros [<-|[]]. split; [exact HM|]. split; [apply H; lra|]. intros e He. exists (M1 + e / 2). split.
      * replace (M1 + e / 2 - M1) with (e / 2) by ring. rewrite Rabs_right; lra.
      * intros Q. apply H in Q; lra.
  - assert (Hlt : m < M1).
    { destruct Hthrough as [Hn|(s & t & Hst & h1 & h2)]; [exfalso; apply (Hn m), H; lra|]. apply H in h1. apply H in h2. lra. }
    apply NoDup_Permutation; [exact Nd|constructor; [intros [Q|[]]; lra|constructor; [intros []|constructor]]|]. intros t. rewrite F. split.
    + intros [h1 [h2 h3]]. apply H in h2. destruct (Req_dec t m) as [->|Nm]; [now left|]. destruct (Req_dec t M1) as [->|NM]; [right; now left|].
      exfalso. destruct (h3 (Rmin (t - m) (M1 - t))) as (s & h4 & h5); [apply Rmin_glb_lt; lra|]. apply h5.
      pose proof (Rmin_l (t - m) (M1 - t)). pose proof (Rmin_r (t - m) (M1 - t)). apply Rabs_def2 in h4. apply H; lra.
    + assert (Ar : forall x e, 0 < e -> Rabs (x + e / 2 - x) < e /\ Rabs (x - e / 2 - x) < e).
      { intros x e He. replace (x + e / 2 - x) with (e / 2) by ring. replace (x - e / 2 - x) with (- (e / 2)) by ring.
        rewrite Rabs_Ropp, Rabs_right by lra. lra. }
      intros [<-|[<-|[]]]; (split; [lra|]); (split; [apply H; lra|]); intros e He; destruct (Ar m e He), (Ar M1 e He);
        [exists (m - e / 2)|exists (M1 + e / 2)]; (split; [assumption|]); intros Q; apply H in Q; lra.
Qed.

(** ** The kernel's view of the scene *)
Definition kernel_scene (root : stree) : kscene :=
  KScene (List.length (geometry_nodes root)) 0
    (of_node root rid (fun n _ => p_to_root n)) (of_node root rid (fun n _ => ainv (p_to_root n)))
    (of_node root (KernelModel.Box vzero) (fun n _ => match shape_of (p_geometry n) with Some s => s | None => KernelModel.Box vzero end))
    (of_node root 1 (fun _ m => sm_index m))
    (of_node root false (fun _ m => match sm_delegate m with FresnelDelegate => true | _ => false end))
    (of_node root [] (fun _ m => map (fun c => (py_component c, match phase_of (sc_phase c) with Some p => p | None => PhIsotropic end)) (sm_comps m))).

Lemma find_seq ns : forall s i, map p_id ns = seq s (List.length ns) -> find (fun n => Nat.eqb (p_id n) (s + i)) ns = nth_error ns i.
Proof.
  induction ns as [|n ns IH]; intros s i H; [now destruct i|]. cbn [map List.length seq] in H. injection H as Hn H. cbn [find].
  rewrite Hn. destruct i as [|i].
  - rewrite Nat.add_0_r, Nat.eqb_refl. reflexivity.
  - destruct (Nat.eqb_spec s (s + S i)); [lia|]. cbn [nth_error]. rewrite <- (IH (S s) i H). f_equal.
    replace (S s + i)%nat with (s + S i)%nat by lia. reflexivity.
Qed.
Lemma of_node_nth root {A} (d : A) f i : usable root ->
  of_node root d f i = match nth_error (geometry_nodes root) i with Some n => match p_material n with Some m => f n m | None => d end | None => d end.
Proof. intros R. unfold of_node. pose proof (find_seq _ 0 i (rd_ids _ R)) as F. cbn [Nat.add] in F. rewrite F. reflexivity. Qed.
Lemma of_node_cases root {A} (P : A -> Prop) (d : A) f i : P d ->
  (forall n m, In n (geometry_nodes root) -> p_material n = Some m -> P (f n m)) -> P (of_node root d f i).
Proof.
  intros Hd Hf. unfold of_node. destruct (find _ _) as [n|] eqn:E; [|exact Hd]. apply find_some in E.
  destruct (p_material n) as [m|] eqn:Em; [|exact Hd]. apply Hf; tauto.
Qed.
(** two attributes of the same node *)
Lemma of_node_cases2 root {A B} (P : A -> B -> Prop) (d : A) (d' : B) f f' i : P d d' ->
  (forall n m, In n (geometry_nodes root) -> p_material n = Some m -> P (f n m) (f' n m)) -> P (of_node root d f i) (of_node root d' f' i).
Proof.
  intros Hd Hf. unfold of_node. destruct (find _ _) as [n|] eqn:E; [|exact Hd]. apply find_some in E.
  destruct (p_material n) as [m|] eqn:Em; [|exact Hd]. apply Hf; tauto.
Qed.

Section EndToEnd.
Variable mesh : vec -> vec -> vec -> list vec.
Variable root : stree.
Variables (T : tables) (root_id : nat).
Hypothesis M : exact_mesh mesh.
Hypothesis R : usable root.
Hypothesis C : compile_scene root = Some (T, root_id).
Let S := python_scene mesh root.
Let K := kernel_scene root.

Lemma all_supported n : In n (geometry_nodes root) -> supported_node n.
Proof.
  destruct root as [id name pose g cs] eqn:Er. rewrite <- Er in *. intros Hn. pose proof C as C'. rewrite Er in C'.
  destruct (compile_scene_inv _ _ _ _ _ _ _ C') as (_ & _ & HT). rewrite <- Er in HT.
  assert (F : Forall supported_node (geometry_nodes root)) by (apply (compile_nodes_some _ tables0); now exists T).
  rewrite Forall_forall in F. now apply F.
Qed.
Lemma place_rigid n : In n (geometry_nodes root) -> wf_rigid (p_to_root n).
Proof.
  intros Hn. destruct (preorder_in _ _ _ Hn) as (poses & h1 & ->). apply wf_fold; [exact orthogonal_id|].
  exact (poses_chain _ (rd_poses _ R) _ _ h1).
Qed.

Lemma tables_within fuel budget ms m us r :
  trace_one fuel (read_scene T root_id) budget ms m us r = trace_one fuel K budget ms m us r.
Proof.
  rewrite (C90_same_histories _ _ _ (rd_built _ R) C). apply within_trace. unfold K, kernel_scene, scene_of.
  constructor; cbn [k_nodes k_root k_l2w k_w2l k_shape k_idx k_fresnel k_comps]; try reflexivity; intros i Hi; rewrite of_node_nth by exact R;
    destruct (nth_error (geometry_nodes root) i) as [n|] eqn:Ei; try reflexivity; try constructor.
  - destruct (p_material n) as [mt|] eqn:Em; [reflexivity|]. exfalso. apply nth_error_In in Ei.
    destruct (all_supported n Ei) as (_ & _ & mt & h & _). congruence.
  - apply nth_error_None in Ei. lia.
  - destruct (p_material n) as [mt|] eqn:Em; [|constructor].
    destruct (all_supported n (nth_error_In _ _ Ei)) as (_ & _ & mt' & h & _ & Hc). assert (mt' = mt) by congruence. subst mt'.
    clear - Hc. induction Hc as [|c l (h1 & h2 & _) _ IH]; cbn; constructor; [|exact IH].
    constructor; cbn [fst snd comp_of py_component c_kind c_qy c_tau_rad c_tau_nr c_dist c_ems]; try reflexivity.
    destruct (sc_class c); cbn in *; try reflexivity.
Qed.

Lemma comp_in n c : In c (comps S n) -> exists pl mt c0, In pl (geometry_nodes root) /\ p_material pl = Some mt /\ In c0 (sm_comps mt) /\
  c = py_component c0 /\ l2w S n = p_to_root pl.
Proof.
  unfold S, python_scene. cbn [comps l2w].
  apply (of_node_cases2 root (fun cs g => In c cs -> exists pl mt c0, In pl (geometry_nodes root) /\ p_material pl = Some mt /\ In c0 (sm_comps mt) /\
    c = py_component c0 /\ g = p_to_root pl)); [intros []|].
  intros pl mt h1 h2 H. apply in_map_iff in H. destruct H as (c0 & <- & h3). exists pl, mt, c0. auto.
Qed.
Lemma normal_unit n p v : normal_of S n p = Some v -> local_normal (k_shape K n) p = v /\ is_unit v.
Proof.
  unfold S, K, python_scene, kernel_scene. cbn [normal_of k_shape]. intros H. revert H.
  apply (of_node_cases2 root (fun a s => a = Some v -> local_normal s p = v /\ is_unit v)); [discriminate|].
  intros pl mt h1 h2 H. pose proof (rd_size _ R _ h1) as Hs. destruct (p_geometry pl) as [size|r|l r|]; cbn [shape_of local_normal py_normal positive_size] in *.
  - split; [now apply C76_box_normals_agree|]. unfold box_normal in H. destruct (on_aabb_surface _ _ _) as [|i [|]]; try discriminate.
    destruct i as [|[|[|[|[|[|i]]]]]]; cbn in H; try (now destruct i); injection H as <-; unfold is_unit, dot; cbn; ring.
  - now apply unit_vector_kernel.
  - split; [now apply (C76_cylinder_normals_agree l r)|]. unfold cylinder_normal in H.
    destruct (np_close _ _); [injection H as <-; unfold is_unit, dot; cbn; ring|].
    destruct (np_close _ _); [injection H as <-; unfold is_unit, dot; cbn; ring|].
    destruct (np_close _ _); [|discriminate]. now apply unit_vector_unit in H.
  - discriminate.
Qed.
Lemma index_pos n : 0 < n_of S n.
Proof. unfold S, python_scene. cbn [n_of]. apply of_node_cases; [lra|]. intros pl mt h1 h2. exact (rd_index _ R _ _ h1 h2). Qed.
Lemma frames_rigid n : wf_rigid (l2w S n) /\ w2l S n = rinv (l2w S n).
Proof.
  unfold S, python_scene. cbn [l2w w2l]. apply (of_node_cases2 root (fun a b => wf_rigid a /\ b = rinv a)).
  - split; [exact orthogonal_id|]. now rewrite rinv_rid.
  - intros pl mt h1 _. pose proof (place_rigid _ h1) as W. split; [exact W|now apply ainv_rinv].
Qed.
Lemma surf_cases n : surf S n = if k_fresnel K n then fresnel_surface (n_of S) (normal_of S) else null_surface.
Proof.
  unfold S, K, python_scene, kernel_scene. cbn [surf k_fresnel n_of normal_of].
  apply (of_node_cases2 root (fun a b => a = if (b : bool) then _ else _)); [reflexivity|]. intros pl mt _ _. now destruct (sm_delegate mt).
Qed.
Lemma built_table c n mt : In n (geometry_nodes root) -> p_material n = Some mt -> In c (sm_comps mt) ->
  good_component (py_component c) /\
  (sc_class c = ClsLuminophore -> exists xs ys cdf, sc_ems c = DTable false xs ys cdf /\ List.length xs = List.length ys /\ mk_dist xs ys false = MkOk (DTable false xs ys cdf)).
Proof.
  intros h1 h2 h3. destruct (rd_built _ R n mt c h1 h2 h3) as [B1 B2]. destruct (all_supported n h1) as (_ & _ & mt' & h4 & _ & Hc).
  assert (mt' = mt) by congruence. subst mt'. rewrite Forall_forall in Hc. destruct (Hc c h3) as (_ & _ & q1 & q2). split.
  - unfold good_component, py_component. cbn [c_dist]. destruct B1 as [[y ->]|(xs & ys & h & L & E)]; [exact I|]. destruct h.
    + destruct (mk_dist_ok_hist _ _ _ L E) as (cdf & E' & _). rewrite E' in q1. destruct q1.
    + destruct (mk_dist_ok _ _ _ L E) as (cdf & E' & _). rewrite E'. rewrite E' in E. auto.
  - intros Hl. specialize (q2 Hl). destruct B2 as [[y E]|(xs & ys & h & L & E)]; [rewrite E in q2; destruct q2|]. destruct h.
    + destruct (mk_dist_ok_hist _ _ _ L E) as (cdf & E' & _). rewrite E' in q2. destruct q2.
    + destruct (mk_dist_ok _ _ _ L E) as (cdf & E' & _). exists xs, ys, cdf. rewrite E' in E. auto.
Qed.
Lemma tree_compiled : compiled S K.
Proof.
  split.
  - exact (rd_count _ R).
  - reflexivity.
  - intros n. destruct (frames_rigid n) as [h1 h2]. auto.
  - intros n. split; [reflexivity|apply index_pos].
  - intros n. unfold S, K, python_scene, kernel_scene. cbn [k_comps comps].
    apply (of_node_cases2 root (fun a b => map fst a = b)); [reflexivity|]. intros pl mt _ _. rewrite map_map. reflexivity.
  - exact surf_cases.
  - exact normal_unit.
  - intros n c H. destruct (comp_in _ _ H) as (pl & mt & c0 & h1 & h2 & h3 & -> & _). split; [apply (built_table c0 pl mt h1 h2 h3)|].
    exact (gc_coef _ (rd_comp _ R _ _ _ h1 h2 h3)).
  - intros n c H. destruct (comp_in _ _ H) as (pl & mt & c0 & h1 & h2 & h3 & -> & _). pose proof (rd_comp _ R _ _ _ h1 h2 h3) as G.
    split; [exact (gc_rad _ G)|exact (gc_nr _ G)].
  - intros n c H Hk. destruct (comp_in _ _ H) as (pl & mt & c0 & h1 & h2 & h3 & -> & _). apply (built_table c0 pl mt h1 h2 h3).
    cbn in Hk. destruct (sc_class c0); try discriminate. reflexivity.
Qed.
Lemma tree_phases : compiled_phases K.
Proof.
  intros n c ph. unfold K, kernel_scene. cbn [k_comps].
  apply (of_node_cases root (fun cs => In (c, ph) cs -> forall u v d, 0 <= u < 1 -> 0 <= v < 1 -> c_phase c u v = Some d -> k_sample_phase ph u v = d)); [intros []|].
  intros pl mt h1 h2 H u v d Hu Hv. apply in_map_iff in H. destruct H as (c0 & [= <- <-] & h3). pose proof (rd_comp _ R _ _ _ h1 h2 h3) as G.
  unfold py_component. cbn [c_phase]. destruct (sc_phase c0) as [|g|t|] eqn:Ep; cbn [py_phase phase_of].
  - intros [= <-]. reflexivity.
  - intros H. apply (C43_kernel_henyey_greenstein g u v 0); [exact (gc_phase _ G g Ep)|exact H].
  - intros H. now apply C42_engines_agree.
  - discriminate.
Qed.
Lemma tree_upright : ready root -> upright S.
Proof.
  intros Q n c H Hk. destruct (comp_in _ _ H) as (pl & mt & c0 & h1 & h2 & h3 & -> & ->). apply (rd_upright _ Q _ _ _ h1 h2 h3).
  cbn in Hk. destruct (sc_class c0); cbn in Hk; destruct Hk; try discriminate; auto.
Qed.
Lemma tree_wf : wf_scene S.
Proof.
  split.
  - exact frames_rigid.
  - exact index_pos.
  - intros p d i Hi. eapply scene_intersections_nonneg, Hi.
  - intros n c H. destruct (comp_in _ _ H) as (pl & mt & c0 & h1 & h2 & h3 & -> & _). pose proof (rd_comp _ R _ _ _ h1 h2 h3) as G.
    split; [exact (gc_rad _ G)|]. split; [exact (gc_nr _ G)|]. intros u v d _ _. cbn [py_component c_phase].
    destruct (sc_phase c0) as [|g|t|]; cbn [py_phase].
    + intros [= <-]. apply spherical_unit.
    + unfold henyey_greenstein. destruct (Reqb _ _); [discriminate|]. destruct (Reqb _ _); [discriminate|]. cbv zeta.
      destruct (close_to_zero g); intros [= <-]; apply spherical_unit.
    + unfold cone. destruct (_ || _); [discriminate|]. intros [= <-]. apply spherical_unit.
    + discriminate.
  - intros n u r c a Hu Hd. rewrite surf_cases. destruct (k_fresnel K n); [|now apply null_wf].
    apply C03_fresnel_surface_wf; [exact index_pos| |exact Hu|exact Hd]. intros n0 p v H. now apply normal_unit in H.
Qed.

Lemma ordinary_generic u r : wf_draws u -> 0 < u_comp u -> 0 < u_wl u -> is_unit (direction r) -> ordinary S root u r -> generic S K u r.
Proof.
  intros Hu H1 H2 Hd [Oc Oh Oa]. split; [|auto|exact Oh|exact Oa].
  apply (C09_geometry_agrees S K (py_tree mesh root)
    (fun i => match nth_error (geometry_nodes root) i with Some n => py_geometry mesh (p_geometry n) | None => fun _ _ => [] end)).
  - reflexivity.
  - apply below_tree, (rd_poses _ R).
  - exact Hd.
  - rewrite placements_tree. unfold K, kernel_scene. cbn [k_nodes k_l2w]. apply nth_ext with (d := (rid, 0%nat, fun _ _ => [])) (d' := (rid, 0%nat, fun _ _ => [])).
    + now rewrite !map_length, seq_length.
    + rewrite map_length. intros i Hi. destruct (nth_error (geometry_nodes root) i) as [n|] eqn:Ei; [|apply nth_error_None in Ei; lia].
      rewrite (nth_error_nth _ _ _ (map_nth_error _ _ _ Ei)).
      rewrite (nth_error_nth _ _ _ (nth_error_map_seq _ 0 _ i Hi)). cbn [Nat.add]. rewrite of_node_nth, Ei by exact R.
      destruct (all_supported n (nth_error_In _ _ Ei)) as (_ & _ & mt & -> & _). f_equal. f_equal.
      pose proof (nth_error_nth _ _ 0%nat (map_nth_error p_id _ _ Ei)) as Q. rewrite (rd_ids _ R), seq_nth in Q by exact Hi. now symmetry.
  - intros i. destruct (frames_rigid i) as [h1 h2]. split; [exact h1|exact h2].
  - intros i Hi. unfold K, kernel_scene, node_ts in *. cbn [k_nodes k_w2l k_shape] in *. rewrite !of_node_nth by exact R.
    destruct (nth_error (geometry_nodes root) i) as [n|] eqn:Ei; [|apply nth_error_None in Ei; lia]. apply nth_error_In in Ei.
    destruct (all_supported n Ei) as (Hs & _ & mt & -> & _). specialize (Oc n Ei). pose proof (rd_size _ R _ Ei) as Hp.
    assert (Hu' : is_unit (to_vector (ainv (p_to_root n)) (direction r))).
    { unfold is_unit. pose proof (place_rigid _ Ei) as W. rewrite ainv_rinv, to_vector_dot by (exact W || now apply wf_rinv). exact Hd. }
    destruct (p_geometry n) as [size|rad|l rad|]; cbn [py_geometry shape_of intersect_node clear positive_size] in *.
    + now apply box_regular.
    + now apply C09_sphere_regular.
    + destruct Oc as (q1 & q2 & q3). apply C09_cylinder_regular; tauto.
    + congruence.
Qed.
End EndToEnd.

(** ** C138 *)
Lemma reaches_unit S ms m us r0 i r : wf_scene S -> (forall i, wf_draws (us i)) -> is_unit (direction r0) ->
  reaches S ms m us r0 i r -> is_unit (direction r).
Proof.
  intros W Hus Hd H. induction H as [|i r evs r' _ IH P]; [exact Hd|].
  pose proof (pass_chain S ms None m (us (Datatypes.S i)) (Datatypes.S i) r W (Hus _) IH) as Ch. rewrite P in Ch. destruct Ch as [Hc He].
  rewrite <- He. now apply (chain_end_unit S).
Qed.

(** Event by event the same history, if the event log has room for it. *)
Theorem C138_same_history : forall mesh root T root_id fuel ms m us r max_events evs st,
  exact_mesh mesh -> ready root -> compile_scene root = Some (T, root_id) ->
  let S := python_scene mesh root in
  (forall i, wf_draws (us i) /\ 0 < u_comp (us i) /\ 0 < u_wl (us i)) -> is_unit (direction r) ->
  (forall i r', reaches S ms m us r i r' -> ordinary S root (us (Datatypes.S i)) r') ->
  step_forward fuel S ms None m us r = (evs, st) -> st <> Raised -> (List.length evs + 1 < max_events)%nat ->
  exists ts kst, trace_one fuel (read_scene T root_id) (Some max_events) ms m us r = (evs, ts, kst) /\ status_match st kst.
Proof.
  intros mesh root T root_id fuel ms m us r max_events evs st M Q C S Hus Hd Ho E Hst Hb. pose proof (rd_usable _ Q) as R.
  rewrite (tables_within mesh root T root_id R C).
  assert (W : wf_scene S) by exact (tree_wf mesh root R).
  assert (Hus' : forall i, wf_draws (us i)) by (intros i; apply Hus).
  apply (C09_same_draws S (kernel_scene root)); try assumption.
  - exact (tree_compiled mesh root T root_id R C).
  - exact (tree_phases root R).
  - exact (tree_upright mesh root Q).
  - intros i r' H. destruct (Hus (Datatypes.S i)) as (h1 & h2 & h3).
    apply (ordinary_generic mesh root T root_id M R C); auto. exact (reaches_unit S ms m us r i r' W Hus' Hd H).
Qed.
Print Assumptions C138_same_history.

(** A ray caster like that exists: the kernel's own. *)
Definition kernel_mesh (size o d : vec) : list vec := map (at_ray o d) (k_intersect_box size o d).
Lemma k_box_crossings size o d : 0 < vx size -> 0 < vy size -> 0 < vz size -> is_unit d -> clear_of_box size o d ->
  Forall (fun t => 0 <= t) (k_intersect_box size o d) /\ NoDup (k_intersect_box size o d) /\
  forall t, EPS_ZERO < t -> (In t (k_intersect_box size o d) <-> crosses size o d t).
Proof.
  intros Sx Sy Sz Hd (Ex & Ey & Ez & Ht). pose proof EPS_pos as Ep.
  assert (Ar : forall x e, 0 < e -> Rabs (x + e / 2 - x) < e /\ Rabs (x - e / 2 - x) < e).
  { intros x e He. replace (x + e / 2 - x) with (e / 2) by ring. replace (x - e / 2 - x) with (- (e / 2)) by ring.
    rewrite Rabs_Ropp, Rabs_right by lra. lra. }
  destruct (C52_kernel_box_exact size o d Sx Sy Sz (unit_nonzero d Hd) Ex Ey Ez) as [[-> H]|[(M1 & -> & HM & H)|(m & M1 & -> & Hm & H)]].
  - split; [constructor|]. split; [constructor|]. intros t Hlt. split; [intros []|]. intros [Q _]. exact (H t Hlt Q).
  - split; [repeat constructor; lra|]. split; [repeat constructor; intros []|]. intros t Hlt. split.
    + intros [<-|[]]. split; [apply H; lra|]. intros e He. exists (M1 + e / 2). split; [apply Ar, He|]. intros Q. apply H in Q; lra.
    + intros [h2 h3]. left. apply H in h2; [|exact Hlt]. destruct (Rle_lt_or_eq_dec _ _ h2) as [L|L]; [exfalso|now symmetry].
      destruct (h3 (Rmin (t - EPS_ZERO) (M1 - t))) as (s & h4 & h5); [apply Rmin_glb_lt; lra|]. apply h5.
      pose proof (Rmin_l (t - EPS_ZERO) (M1 - t)). pose proof (Rmin_r (t - EPS_ZERO) (M1 - t)). apply Rabs_def2 in h4. apply H; lra.
  - assert (Hlt : m < M1).
    { destruct Ht as [Hn|(s & t & Hst & h1 & h2)]; [exfalso; apply (Hn m), H; lra|]. apply H in h1. apply H in h2. lra. }
    split; [repeat constructor; lra|]. split; [constructor; [intros [Q|[]]; lra|repeat constructor; intros []]|]. intros t Hlt'. split.
    + intros [<-|[<-|[]]]; (split; [apply H; lra|]); intros e He; destruct (Ar m e He), (Ar M1 e He);
        [exists (m - e / 2)|exists (M1 + e / 2)]; (split; [assumption|]); intros Q; apply H in Q; lra.
    + intros [h2 h3]. apply H in h2. destruct (Req_dec t m) as [->|Nm]; [now left|]. destruct (Req_dec t M1) as [->|NM]; [right; now left|].
      exfalso. destruct (h3 (Rmin (t - m) (M1 - t))) as (s & h4 & h5); [apply Rmin_glb_lt; lra|]. apply h5.
      pose proof (Rmin_l (t - m) (M1 - t)). pose proof (Rmin_r (t - m) (M1 - t)). apply Rabs_def2 in h4. apply H; lra.
Qed.
Lemma kernel_mesh_exact : exact_mesh kernel_mesh.
Proof. intros size o d Sx Sy Sz Hd Hc. exists (k_intersect_box size o d). split; [reflexivity|]. now apply k_box_crossings. Qed.

(** ** A glass ball in an empty world, from the tree of nodes to the event log *)
Definition plain (n : R) : option smaterial := Some (SMaterial n NullDelegate []).
Definition ball_tree : stree :=
  SNode 0 "world" rid (Some (GSphere 10, plain 1)) [SNode 1 "ball" (translation_matrix (V 0 0 0)) (Some (GSphere 1, plain (3/2))) []].
Lemma ball_place : rcomp rid (translation_matrix (V 0 0 0)) = rid.
Proof. now rewrite rcomp_id_l, (proj2 translation0). Qed.
Lemma ball_nodes : geometry_nodes ball_tree = [Placed 0 "world" rid (GSphere 10) (plain 1); Placed 1 "ball" rid (GSphere 1) (plain (3/2))].
Proof. unfold geometry_nodes, ball_tree. cbn [preorder flat_map app]. now rewrite ball_place. Qed.
Lemma ball_usable : usable ball_tree.
Proof.
  split.
  - rewrite ball_nodes. reflexivity.
  - rewrite ball_nodes. cbn. lia.
  - constructor. intros c [<-|[]]. split; [constructor; intros c []|apply wf_translation].
  - intros n m c. rewrite ball_nodes. intros [<-|[<-|[]]] [= <-] [].
  - intros n. rewrite ball_nodes. intros [<-|[<-|[]]]; cbn; lra.
  - intros n m. rewrite ball_nodes. intros [<-|[<-|[]]] [= <-]; cbn; lra.
  - intros n m c. rewrite ball_nodes. intros [<-|[<-|[]]] [= <-] [].
Qed.
Lemma ball_ready : ready ball_tree.
Proof. split; [exact ball_usable|]. intros n m c. rewrite ball_nodes. intros [<-|[<-|[]]] [= <-] []. Qed.
Lemma ball_compiles : exists T, compile_scene ball_tree = Some (T, 0%nat).
Proof.
  destruct (compile_scene ball_tree) as [[T i]|] eqn:E.
  - exists T. destruct (compile_scene_inv _ _ _ _ _ _ _ E) as (_ & -> & _). reflexivity.
  - apply C90_refused_iff_unsupported in E. exfalso. apply E. split; [discriminate|]. intros n. rewrite ball_nodes.
    assert (Q : rigid_check (rot rid) = true).
    { unfold rigid_check, np_allclose3, np_allclose1, rid, mmul, mtrans, mid, dot. cbn.
      repeat match goal with |- context [Rleb ?a ?b] => replace (Rleb a b) with true
        by (symmetry; apply Rleb_true; rewrite ?Rmult_0_l, ?Rmult_0_r, ?Rmult_1_r, ?Rplus_0_l, ?Rplus_0_r, ?Rminus_0_r, ?Rminus_diag_eq, ?Rabs_R0, ?Rabs_R1 by lra; lra) end.
      reflexivity. }
    intros [<-|[<-|[]]]; (split; [discriminate|]); (split; [exact Q|]); eexists; (split; [reflexivity|]); (split; [discriminate|constructor]).
Qed.
Definition ball_scene : scene := python_scene kernel_mesh ball_tree.
Lemma ball_at {A} (d : A) f : of_node ball_tree d f 0 = f (Placed 0 "world" rid (GSphere 10) (plain 1)) (SMaterial 1 NullDelegate []) /\
  of_node ball_tree d f 1 = f (Placed 1 "ball" rid (GSphere 1) (plain (3/2))) (SMaterial (3/2) NullDelegate []).
Proof. unfold of_node. rewrite ball_nodes. split; reflexivity. Qed.
Lemma ball_pass1 : pass ball_scene 7 None KT mid_draws 1 start
  = Continue [Event TRANSMIT after (Some 1%nat) (Some 1%nat) (Some 0%nat) None (Some (V 1 0 0))] after.
Proof.
  unfold pass. change (next_hit ball_scene start) with (next_hit glass start). rewrite glass_hits0. cbn [over_path Nat.ltb Nat.leb orb Nat.eqb root ball_scene python_scene].
  change (comps ball_scene 1) with (of_node ball_tree [] (fun _ m => map py_component (sm_comps m)) 1). rewrite (proj2 (ball_at _ _)). cbn [sm_comps map].
  rewrite (proj2 (no_attenuation (wavelength start) 0)), (proj1 (no_attenuation 0 _)).
  unfold surface_step. cbv zeta.
  change (w2l ball_scene 1) with (of_node ball_tree rid (fun n _ => ainv (p_to_root n)) 1). change (l2w ball_scene 1) with (of_node ball_tree rid (fun n _ => p_to_root n) 1).
  rewrite !(proj2 (ball_at _ _)). cbn [p_to_root]. rewrite ainv_rid.
  assert (Ea : propagate start 1 (n_of ball_scene 1) = after).
  { change (n_of ball_scene 1) with (of_node ball_tree 1 (fun _ m => sm_index m) 1). rewrite (proj2 (ball_at _ _)). cbn [sm_index].
    unfold propagate, after, start; cbn [position direction wavelength travelled duration source]. f_equal.
    - apply vec_eq; simpl; ring.
    - ring.
    - rewrite flight_time_eq by lra. unfold Rdiv. ring. }
  rewrite Ea. unfold representation. rewrite !to_point_rid, !to_vector_rid. cbn [position after direction wavelength travelled duration source].
  change (normal_of ball_scene 1 (V 1 0 0)) with (of_node ball_tree None (fun n _ => py_normal (p_geometry n) (V 1 0 0)) 1). rewrite !(proj2 (ball_at _ _)).
  cbn [p_geometry py_normal]. unfold sphere_normal, unit_vector. rewrite norm_axis, Rabs_R1.
  replace (surf ball_scene 1) with null_surface by (unfold ball_scene, python_scene; cbn [surf]; rewrite (proj2 (ball_at _ _)); reflexivity).
  destruct (Reqb_spec 1 0); [lra|]. cbn [s_reflectivity s_reflected s_transmitted null_surface].
  unfold is_reflected, null_reflectivity. destruct (Reqb_spec 0 0); [|lra]. unfold null_transmitted, with_direction.
  cbn [position after direction wavelength travelled duration source]. rewrite !to_vector_rid, to_point_rid.
  replace (vscale (/ 1) (V 1 0 0)) with (V 1 0 0) by (apply vec_eq; simpl; field). reflexivity.
Qed.
Lemma ball_pass2 : pass ball_scene 7 None KT mid_draws 2 after = Stop [Event EXIT outside (Some 0%nat) (Some 0%nat) None None None].
Proof.
  assert (En : n_of ball_scene 0 = 1) by exact (proj1 (ball_at 1 (fun _ m => sm_index m))).
  unfold pass. change (next_hit ball_scene after) with (next_hit glass after). rewrite glass_hits1. rewrite En. cbn [over_path Nat.ltb Nat.leb orb Nat.eqb root ball_scene python_scene].
  do 3 f_equal. unfold propagate, after, outside; cbn [position direction wavelength travelled duration source]. f_equal.
  - apply vec_eq; simpl; ring.
  - ring.
  - rewrite flight_time_eq by lra. unfold Rdiv. ring.
Qed.
Lemma ball_ordinary r : position r = V 0 0 0 \/ position r = V 1 0 0 -> direction r = V 1 0 0 ->
  (forall h c a D, next_hit ball_scene r = HitOk h c a D -> 0 <= vx (position r) + D) -> ordinary ball_scene ball_tree mid_draws r.
Proof.
  intros Hp Hd Hn. split.
  - intros n. rewrite ball_nodes. assert (Hs : forall k, 1 <= k -> / 10 ^ 8 < sphere_disc k (position r) (direction r)).
    { intros k Hk. rewrite Hd. unfold sphere_disc, dot. destruct Hp as [-> | ->]; cbn [vx vy vz]; nra. }
    intros [<-|[<-|[]]]; cbn [p_to_root p_geometry clear]; rewrite ainv_rid, to_point_rid, to_vector_rid; right; apply Hs; lra.
  - intros n coefs i. unfold ball_scene, python_scene. cbn [comps].
    apply (of_node_cases ball_tree (fun cs => coefficients cs (wavelength r) = Some coefs -> 0 < rsum coefs -> (i <= List.length coefs)%nat -> u_comp mid_draws * rsum coefs <> psum coefs i)).
    + intros [= <-] H. cbn in H. lra.
    + intros pl mt. rewrite ball_nodes. intros [<-|[<-|[]]] [= <-] [= <-] H; cbn in H; lra.
  - intros h c a D v En d Hv _. unfold d. specialize (Hn _ _ _ _ En).
    assert (Ew : w2l ball_scene h = rid).
    { unfold ball_scene, python_scene. cbn [w2l]. apply (of_node_cases ball_tree (fun g => g = rid)); [reflexivity|].
      intros pl mt. rewrite ball_nodes. intros [<-|[<-|[]]] _; cbn [p_to_root]; apply ainv_rid. }
    rewrite Ew, to_vector_rid in *. rewrite to_point_rid, Hd in Hv. rewrite Hd.
    assert (Ep : vadd (position r) (vscale D (V 1 0 0)) = V (vx (position r) + D) 0 0) by (destruct Hp as [-> | ->]; apply vec_eq; simpl; ring).
    rewrite Ep in Hv. assert (Hs : unit_vector (V (vx (position r) + D) 0 0) = Some v).
    { revert Hv. unfold ball_scene, python_scene. cbn [normal_of].
      apply (of_node_cases ball_tree (fun o => o = Some v -> unit_vector (V (vx (position r) + D) 0 0) = Some v)); [discriminate|].
      intros pl mt. rewrite ball_nodes. intros [<-|[<-|[]]] _ Q; exact Q. }
    unfold unit_vector in Hs. rewrite norm_axis, Rabs_right in Hs by lra. destruct (Reqb_spec (vx (position r) + D) 0) as [E|E]; [discriminate|]. injection Hs as <-.
    replace (vscale (/ (vx (position r) + D)) (V (vx (position r) + D) 0 0)) with (V 1 0 0) by (apply vec_eq; simpl; field; exact E).
    unfold along. rewrite (proj2 (Rltb_false _ _)); [reflexivity|]. unfold dot; simpl; lra.
Qed.
Example C138_example : exists T ts, compile_scene ball_tree = Some (T, 0%nat) /\
  trace_one 5 (read_scene T 0) (Some 10%nat) 7 KT (fun _ => mid_draws) start =
    ([Event GENERATE start None None None None None; Event TRANSMIT after (Some 1%nat) (Some 1%nat) (Some 0%nat) None (Some (V 1 0 0));
      Event EXIT outside (Some 0%nat) (Some 0%nat) None None None], ts, KDone).
Proof.
  destruct ball_compiles as [T C]. exists T.
  assert (Hr : forall i r, reaches ball_scene 7 KT (fun _ => mid_draws) start i r -> (i = 0%nat /\ r = start) \/ (i = 1%nat /\ r = after)).
  { intros i r H. induction H as [|i r evs r' _ [[-> ->]|[-> ->]] P]; [now left| |].
    - right. split; [reflexivity|]. rewrite ball_pass1 in P. injection P as _ <-. reflexivity.
    - rewrite ball_pass2 in P. discriminate. }
  assert (E : step_forward 5 ball_scene 7 None KT (fun _ => mid_draws) start =
    ([Event GENERATE start None None None None None; Event TRANSMIT after (Some 1%nat) (Some 1%nat) (Some 0%nat) None (Some (V 1 0 0));
      Event EXIT outside (Some 0%nat) (Some 0%nat) None None None], Done)).
  { unfold step_forward. cbn [loop]. rewrite ball_pass1, ball_pass2. reflexivity. }
  destruct (fun a b c d e => C138_same_history kernel_mesh ball_tree T 0 5 7 KT (fun _ => mid_draws) start 10 _ _ kernel_mesh_exact ball_ready C a b c E d e) as (ts & kst & Ek & Hm).
  - intros _. unfold wf_draws, mid_draws; simpl. lra.
  - unfold is_unit, dot; simpl; ring.
  - intros i r H. destruct (Hr i r H) as [[_ ->]|[_ ->]]; apply ball_ordinary; auto; intros h c a D.
    + change (next_hit ball_scene start) with (next_hit glass start). rewrite glass_hits0. intros [= _ _ _ <-]. simpl. lra.
    + change (next_hit ball_scene after) with (next_hit glass after). rewrite glass_hits1. intros [= _ _ _ <-]. simpl. lra.
  - discriminate.
  - simpl. lia.
  - exists ts. split; [exact C|]. destruct kst; try contradiction. exact Ek.
Qed.
