(** C148: a photon that the spectra cover is traced to one of its final events without an
    exception. *)
From Coq Require Import Reals Lra Lia Psatz List Bool Arith String Permutation.
From Verif Require Import Base Vec Interp DistModel DistProofs DistProps MaterialModel MaterialSpec MaterialProofs MaterialProps
  OpticsModel OpticsProofs OpticsProps PhaseModel PhaseProofs TransformModel TransformProofs GeomModel GeomProofs GeomProps
  TracerModel TracerProofs TracerProps KernelModel KernelProofs KernelSim KernelProps CompilerModel CompilerProofs CompilerProps ComponentProps EndModel EndProofs EndProps RaiseProofs.
Import ListNotations.
Open Scope R_scope.

(** ** Conditions *)
Definition solid (g : sgeometry) (p : vec) : Prop :=
  match g with
  | GBox s => in_box s p
  | GSphere r => norm p <= r
  | GCylinder l r => in_cylinder l r p
  | GOther => False
  end.
(** The root is a sphere of radius [Rw] and everything else lies within [R'] of its centre. *)
Record sphere_world (root : stree) (Rw R' : R) : Prop := {
  sw_root : exists id name pose m cs, root = SNode id name pose (Some (GSphere Rw, m)) cs;
  sw_radius : 0 <= R';
  sw_gap : R' + / 10 ^ 4 <= Rw;
  sw_inside : forall n, In n (tl (geometry_nodes root)) -> forall p, solid (p_geometry n) p -> norm (to_point (p_to_root n) p) <= R' }.
(** Every spectrum of the scene covers the wavelengths from lo to hi. *)
Definition absorption_covers (lo hi : R) (d : dist) : Prop :=
  match d with DConst _ => True | DTable _ xs _ _ => hd 0 xs <= lo /\ hi <= last xs 0 end.
Record spectra_cover (root : stree) (m : emit_method) (lo hi : R) : Prop := {
  sp_abs : forall n mt c, In n (geometry_nodes root) -> p_material n = Some mt -> In c (sm_comps mt) -> absorption_covers lo hi (sc_abs c);
  sp_ems : forall n mt c, In n (geometry_nodes root) -> p_material n = Some mt -> In c (sm_comps mt) -> sc_class c = ClsLuminophore ->
    emission_covers m lo hi (sc_ems c) }.
Definition phases_usable (root : stree) : Prop :=
  forall n mt c, In n (geometry_nodes root) -> p_material n = Some mt -> In c (sm_comps mt) ->
    sc_class c = ClsScatterer \/ sc_class c = ClsLuminophore -> phase_usable (sc_phase c).
(** boxes are thicker than the tolerance *)
Definition thick_boxes (root : stree) : Prop :=
  forall n s, In n (geometry_nodes root) -> p_geometry n = GBox s -> EPS_ZERO <= vx s /\ EPS_ZERO <= vy s /\ EPS_ZERO <= vz s.
(** The ray does not meet a box at an edge, nor run along the surface that it meets. *)
Record clean_hit (S : scene) (root : stree) (r : ray) : Prop := {
  ch_edge : forall h c a D pl s, next_hit S r = HitOk h c a D -> nth_error (geometry_nodes root) h = Some pl -> p_geometry pl = GBox s ->
    off_edges s (to_point (ainv (p_to_root pl)) (vadd (position r) (vscale D (direction r))));
  ch_slant : forall h c a D v, next_hit S r = HitOk h c a D ->
    normal_of S h (to_point (w2l S h) (vadd (position r) (vscale D (direction r)))) = Some v -> dot v (to_vector (w2l S h) (direction r)) <> 0 }.

Section NoRaise.
Variable mesh : vec -> vec -> vec -> list vec.
Variable root : stree.
Variables (T : tables) (root_id : nat).
Hypothesis M : exact_mesh mesh.
Hypothesis U : usable root.
Hypothesis C : compile_scene root = Some (T, root_id).
Variables Rw R' : R.
Hypothesis W : sphere_world root Rw R'.
Variables (m : emit_method) (lo hi : R).
Hypothesis Sp : spectra_cover root m lo hi.
Hypothesis Ph : phases_usable root.
Hypothesis Tb : thick_boxes root.
Let S := python_scene mesh root.
Let K := kernel_scene root.

Lemma nodes_split : exists n0 ns, geometry_nodes root = n0 :: ns /\ p_to_root n0 = rid /\ p_geometry n0 = GSphere Rw.
Proof.
  destruct (sw_root _ _ _ W) as (id & name & pose & mt & cs & ->). unfold geometry_nodes. cbn [preorder app]. do 2 eexists. split; [reflexivity|]. split; reflexivity.
Qed.
Lemma material_of pl : In pl (geometry_nodes root) -> exists mt, p_material pl = Some mt.
Proof. intros H. destruct (all_supported mesh root T root_id U C pl H) as (_ & _ & mt & h & _). eauto. Qed.
Lemma shape_of_node i pl : nth_error (geometry_nodes root) i = Some pl ->
  k_w2l K i = ainv (p_to_root pl) /\ shape_of (p_geometry pl) = Some (k_shape K i) /\ w2l S i = ainv (p_to_root pl) /\
  (forall p, normal_of S i p = py_normal (p_geometry pl) p).
Proof.
  intros H. destruct (material_of pl (nth_error_In _ _ H)) as [mt Em]. unfold K, S, kernel_scene, python_scene. cbn [k_w2l k_shape w2l normal_of].
  rewrite !of_node_nth by exact U. rewrite H, Em. split; [reflexivity|].
  destruct (all_supported mesh root T root_id U C pl (nth_error_In _ _ H)) as (Hs & _).
  split; [destruct (shape_of (p_geometry pl)) eqn:E; [reflexivity|]|].
  - destruct (p_geometry pl); cbn in *; try discriminate; congruence.
  - split; [reflexivity|]. intros p. rewrite of_node_nth by exact U. now rewrite H, Em.
Qed.
Lemma world_ts p d : norm p <= R' -> is_unit d -> exists t, node_ts K p d 0 = [t].
Proof.
  intros Hp Hd. destruct nodes_split as (n0 & ns & En & E0 & Eg). destruct (shape_of_node 0 n0) as (h1 & h2 & _); [rewrite En; reflexivity|].
  unfold node_ts. rewrite h1, E0, ainv_rid, to_point_rid, to_vector_rid. rewrite Eg in h2. cbn [shape_of] in h2. set (sh := k_shape K 0) in *. clearbody sh. injection h2 as <-. cbn [intersect_node].
  exact (world_once Rw R' p d (sw_radius _ _ _ W) (sw_gap _ _ _ W) Hp Hd).
Qed.
Lemma count_world p d t : node_ts K p d 0 = [t] -> count_node 0 (all_hits K p d) = 1%nat /\ In (0%nat, t) (all_hits K p d).
Proof.
  intros E. destruct nodes_split as (n0 & ns & En & _). unfold all_hits. assert (EN : k_nodes K = Datatypes.S (List.length ns)) by (unfold K, kernel_scene; cbn [k_nodes]; now rewrite En).
  rewrite EN. cbn [seq flat_map]. rewrite E. cbn [map app]. split; [|now left].
  unfold count_node. cbn [filter fst Nat.eqb List.length]. f_equal.
  enough (Q : forall l, (forall n, In n l -> (0 < n)%nat) ->
     filter (fun q : nat * R => Nat.eqb (fst q) 0) (flat_map (fun n => map (pair n) (node_ts K p d n)) l) = []).
  { rewrite Q; [reflexivity|]. intros n Hn. apply in_seq in Hn. lia. }
  clear. generalize (node_ts K p d). intros f. induction l as [|n l IH]; intros Hl; [reflexivity|]. cbn [flat_map]. rewrite filter_app, IH by (intros k Hk; apply Hl; now right).
  rewrite app_nil_r.
  assert (0 < n)%nat by (apply Hl; now left). induction (f n) as [|x l' IH']; [reflexivity|]. cbn [map filter fst].
  destruct (Nat.eqb_spec n 0); [lia|exact IH'].
Qed.

(** ** What the ray meets next *)
Lemma hit_found r : norm (position r) <= R' -> is_unit (direction r) -> KernelProofs.same_hits S K (position r) (direction r) ->
  exists h c a D, next_hit S r = HitOk h c a D /\
    (h <> 0%nat -> a <> None /\ exists pl, In pl (tl (geometry_nodes root)) /\ nth_error (geometry_nodes root) h = Some pl /\ In D (node_ts K (position r) (direction r) h)).
Proof.
  intros Hp Hd (Hm & Hpt). destruct (world_ts _ _ Hp Hd) as [t Ht]. destruct (count_world _ _ _ Ht) as [Hc Hin].
  unfold next_hit. cbv zeta. set (l := filter _ (hits S (position r) (direction r))) in *. clearbody l.
  assert (P : Permutation (map node_dist l) (all_hits K (position r) (direction r))) by (rewrite Hm; symmetry; apply sort_by_perm).
  assert (Nd : forall i, In i l -> h_node i <> 0%nat -> exists pl, In pl (tl (geometry_nodes root)) /\ nth_error (geometry_nodes root) (h_node i) = Some pl /\
     In (h_distance i) (node_ts K (position r) (direction r) (h_node i))).
  { intros i Hi Hne. assert (Q : In (node_dist i) (all_hits K (position r) (direction r))) by (apply (Permutation_in _ P), in_map, Hi).
    unfold all_hits in Q. apply in_flat_map in Q. destruct Q as (n & Hn & Q). apply in_map_iff in Q. destruct Q as (x & Ex & Hx).
    unfold node_dist in Ex. injection Ex as -> ->. apply in_seq in Hn. unfold K, kernel_scene in Hn. cbn [k_nodes] in Hn.
    destruct (nth_error (geometry_nodes root) (h_node i)) as [pl|] eqn:E; [|apply nth_error_None in E; lia]. exists pl. split; [|auto].
    destruct nodes_split as (n0 & ns & En & _). rewrite En in *. cbn [tl]. destruct (h_node i); [congruence|]. cbn in E. now apply nth_error_In in E. }
  assert (Cw : count_hits 0 l = 1%nat).
  { rewrite count_hits_node. rewrite <- Hc. now apply count_node_perm. }
  destruct l as [|i [|j l']].
  - discriminate.
  - exists (h_node i), (h_node i), None, (h_distance i). split; [reflexivity|]. intros Hne. exfalso.
    unfold count_hits in Cw. cbn in Cw. destruct (Nat.eqb_spec (h_node i) 0); [contradiction|discriminate].
  - assert (Fc : find_container (i :: j :: l') <> None).
    { unfold find_container. set (L := i :: j :: l') in *.
      assert (Hw : exists k, In k L /\ h_node k = 0%nat).
      { unfold count_hits in Cw. destruct (filter (fun x => Nat.eqb (h_node x) 0) L) as [|k q] eqn:E; [discriminate|].
        exists k. assert (Q : In k (k :: q)) by now left. rewrite <- E in Q. apply filter_In in Q. destruct Q as [q1 q2]. apply Nat.eqb_eq in q2. auto. }
      destruct Hw as (k & Hk & Ek).
      assert (Q : In k (sort_by h_distance (filter (fun x => Nat.eqb (count_hits (h_node x) L) 1) L))).
      { apply (Permutation_in _ (sort_by_perm _ _)). apply filter_In. split; [exact Hk|]. rewrite Ek, Cw. reflexivity. }
      change (match sort_by h_distance (filter (fun x => Nat.eqb (count_hits (h_node x) L) 1) L) with [] => None | x :: _ => Some (h_node x) end <> None).
      revert Q. generalize (sort_by h_distance (filter (fun x => Nat.eqb (count_hits (h_node x) L) 1) L)). intros [|x q] Q; [destruct Q|discriminate]. }
    destruct (find_container (i :: j :: l')) as [c|]; [|congruence].
    assert (Ed : distance_between (position r) (h_point i) = h_distance i).
    { destruct (Hpt i (or_introl eq_refl)) as [H0 ->]. unfold at_ray. now apply distance_along. }
    exists (h_node i), c, (Some (if Nat.eqb c (h_node i) then h_node j else h_node i)), (h_distance i). rewrite Ed. split; [reflexivity|]. intros Hne.
    split; [discriminate|]. exact (Nd i (or_introl eq_refl) Hne).
Qed.

(** ** The point of a surface that it meets *)
Lemma met_point u r h pl D : is_unit (direction r) -> ordinary S root u r ->
  In pl (tl (geometry_nodes root)) -> nth_error (geometry_nodes root) h = Some pl -> In D (node_ts K (position r) (direction r) h) ->
  let p := vadd (position r) (vscale D (direction r)) in
  norm p <= R' /\ ((forall s, p_geometry pl = GBox s -> off_edges s (to_point (ainv (p_to_root pl)) p)) ->
    exists v, normal_of S h (to_point (w2l S h) p) = Some v).
Proof.
  intros Hd Ho Htl Hn Hin p. destruct (shape_of_node h pl Hn) as (h1 & h2 & h3 & h4).
  pose proof (nth_error_In _ _ Hn) as Hg. pose proof (place_rigid root U pl Hg) as Rg. pose proof (od_clear _ _ _ _ Ho pl Hg) as Cl.
  unfold node_ts in Hin. rewrite h1 in Hin. rewrite h3, h4.
  set (o := to_point (ainv (p_to_root pl)) (position r)) in *. set (d := to_vector (ainv (p_to_root pl)) (direction r)) in *.
  assert (Ud : is_unit d).
  { unfold is_unit, d. rewrite ainv_rinv, to_vector_dot by (exact Rg || now apply wf_rinv). exact Hd. }
  assert (Ep : to_point (ainv (p_to_root pl)) p = vadd o (vscale D d)).
  { unfold p, o, d. rewrite to_point_line. reflexivity. }
  assert (Back : norm p = norm (to_point (p_to_root pl) (vadd o (vscale D d)))).
  { rewrite <- Ep. rewrite ainv_rinv by exact Rg. now rewrite rinv_point_r. }
  rewrite Ep. pose proof (rd_size _ U pl Hg) as Sz.
  set (sh := k_shape K h) in *. clearbody sh.
  assert (G : solid (p_geometry pl) (vadd o (vscale D d)) /\
     ((forall s, p_geometry pl = GBox s -> off_edges s (vadd o (vscale D d))) -> exists v, py_normal (p_geometry pl) (vadd o (vscale D d)) = Some v)).
  { destruct (p_geometry pl) as [s|rad|l rad|] eqn:Eg; cbn [shape_of] in h2; [injection h2 as <-|injection h2 as <-|injection h2 as <-|discriminate];
      cbn [intersect_node positive_size clear solid py_normal] in *.
    - destruct Sz as (Sx & Sy & Sz). destruct (box_regular mesh s o d M (conj Sx (conj Sy Sz)) Ud Cl) as (ts & E & Pos & P).
      assert (Q : crosses s o d D).
      { apply (Permutation_in _ (Permutation_sym P)) in Hin as Hf. apply filter_In in Hf. destruct Hf as [_ Hf]. apply Rltb_true in Hf.
        apply (proj2 (proj2 (k_box_crossings s o d Sx Sy Sz Ud Cl)) D Hf), Hin. }
      destruct (crosses_on_box s o d D Ud Q) as [q1 q2]. split; [exact q1|]. intros Hoff.
      destruct (Tb pl s Hg Eg) as (t1 & t2 & t3). apply box_normal_exists; auto. now split.
    - pose proof (proj1 (proj1 (C50_kernel_sphere_exact rad o d Sz Ud) D) Hin) as (_ & Q). split; [rewrite Q; lra|]. intros _.
      destruct (C51_normal_unit_outward rad _ Sz Q) as (v & Ev & _). eauto.
    - destruct Sz as [Sl Sr]. destruct Cl as (c1 & c2 & c3).
      destruct (C09_cylinder_regular l rad o d Sl Sr c1 c2 c3) as (ts & E & Pos & P). cbn [intersect_node] in P.
      assert (Q : In (vadd o (vscale D d)) (cylinder_intersections l rad o d)).
      { rewrite E. apply in_map_iff. exists D. split; [reflexivity|]. apply (Permutation_in _ (Permutation_sym P)) in Hin. now apply filter_In in Hin. }
      destruct (C54_reported_points_on_surface l rad o d _ Sl Sr Q) as [On _]. split; [|intros _; now apply cylinder_normal_exists].
      unfold in_cylinder. destruct On as [(q1 & q2)|[(q1 & q2)|(q1 & q2)]]; split; try lra; destruct q2; lra. }
  destruct G as [G1 G2]. split; [|exact G2]. rewrite Back. exact (sw_inside _ _ _ W pl Htl _ G1).
Qed.

(** ** One pass of the loop *)
Lemma spectrum_defined d w : absorption_covers lo hi d -> match d with DConst _ => True | DTable h xs ys cdf => h = false /\ List.length xs = List.length ys /\ mk_dist xs ys false = MkOk (DTable h xs ys cdf) end -> lo <= w <= hi ->
  exists a, dist_call d w = Some a.
Proof.
  intros Hc Hg Hw. destruct d as [y|h xs ys cdf]; [cbn; eauto|]. destruct Hg as (-> & L & E). destruct Hc as [h1 h2].
  unfold dist_call, x_min, x_max. rewrite allinrange_true by lra. cbn [negb].
  destruct xs as [|x0 xs], ys as [|y0 ys]; try discriminate. pose proof (last_combine (x0 :: xs) (y0 :: ys) (x0, y0) L ltac:(discriminate)) as El.
  cbn [combine np_interp fst hd] in *. rewrite (proj2 (Rltb_false w x0)) by lra. rewrite El, (proj2 (Rltb_false _ w)) by lra. eauto.
Qed.
Lemma coefs_defined n w : lo <= w <= hi -> exists coefs, coefficients (comps S n) w = Some coefs /\ Forall (fun a => 0 <= a) coefs.
Proof.
  intros Hw. assert (Q : exists coefs, coefficients (comps S n) w = Some coefs).
  { assert (A : forall c, In c (comps S n) -> exists a, dist_call (c_dist c) w = Some a).
    { intros c Hc. destruct (comp_in mesh root n c Hc) as (pl & mt & c0 & h1 & h2 & h3 & -> & _). cbn [py_component c_dist].
      apply spectrum_defined; [exact (sp_abs _ _ _ _ Sp pl mt c0 h1 h2 h3)| |exact Hw].
      pose proof (proj1 (built_table mesh root T root_id U C c0 pl mt h1 h2 h3)) as G. exact G. }
    induction (comps S n) as [|c cs IH]; [cbn; eauto|]. destruct (A c (or_introl eq_refl)) as [a Ea].
    destruct IH as [l El]; [intros c' Hc'; apply A; now right|]. cbn [coefficients]. rewrite Ea, El. eauto. }
  destruct Q as [coefs E]. exists coefs. split; [exact E|]. apply (coefs_nonneg _ _ _) in E; [exact E|].
  intros c Hc. destruct (comp_in mesh root n c Hc) as (pl & mt & c0 & h1 & h2 & h3 & -> & _). exact (gc_coef _ (rd_comp _ U _ _ _ h1 h2 h3)).
Qed.
Definition within (r : ray) : Prop := norm (position r) <= R' /\ is_unit (direction r) /\ lo <= wavelength r <= hi.

Lemma absorb_ok u n x D r : wf_draws u -> within r -> 0 <= x <= D -> norm (vadd (position r) (vscale D (direction r))) <= R' ->
  (exists coefs, coefficients (comps S n) (wavelength r) = Some coefs /\ 0 < rsum coefs) ->
  match absorb_step S m u n x r with
  | Raise _ => False
  | Stop evs => exists e e', evs = [e; e'] /\ is_terminal (e_kind e') = true
  | Continue _ r' => norm (position r') <= R' /\ lo <= wavelength r' <= hi
  end.
Proof.
  intros Hu (Hp & Hd & Hw) Hx HD (coefs0 & E0 & Hs). destruct (coefs_defined n (wavelength r) Hw) as (coefs & E & F). assert (coefs0 = coefs) by congruence. subst coefs0.
  destruct (C33_component_exists_and_attenuates coefs (u_comp u) F Hs (proj1 (proj2 Hu))) as (k & Ek & Hk & _).
  unfold absorb_step. cbv zeta. change (wavelength (propagate r x (n_of S n))) with (wavelength r). rewrite E, Ek.
  destruct (nth_error (comps S n) k) as [c|] eqn:Ec; [|apply nth_error_None in Ec; rewrite (coefficients_length _ _ _ E) in Hk; lia].
  assert (Pos : norm (vadd (position r) (vscale x (direction r))) <= R') by exact (ball_convex R' _ _ x D Hd Hp HD Hx).
  destruct (is_radiative (c_kind c) (c_qy c) (u_rad u)) eqn:Er.
  - destruct (comp_in mesh root n c (nth_error_In _ _ Ec)) as (pl & mt & c0 & h1 & h2 & h3 & -> & _).
    destruct (frames_rigid mesh root U n) as [Rg Ew].
    assert (Kc : sc_class c0 = ClsScatterer \/ sc_class c0 = ClsLuminophore).
    { cbn in Er. destruct (sc_class c0); cbn in Er; try discriminate; auto. }
    unfold emit. cbn [py_component c_phase c_kind c_ems c_tau_rad] in *.
    destruct (phase_defined (sc_phase c0) (u_ph1 u) (u_ph2 u) (Ph pl mt c0 h1 h2 h3 Kc) (proj1 (proj2 (proj2 (proj2 Hu)))) (proj1 (proj2 (proj2 (proj2 (proj2 Hu)))))) as [dd Ed]. rewrite Ed.
    assert (Fin : forall q, position q = to_point (w2l S n) (vadd (position r) (vscale x (direction r))) -> lo <= wavelength q <= hi ->
       norm (position (representation (l2w S n) q)) <= R' /\ lo <= wavelength (representation (l2w S n) q) <= hi).
    { intros q Eq Hq. unfold representation. cbn [position wavelength]. split; [|exact Hq]. fold S in Rg, Ew. rewrite Eq, Ew, rinv_point_r by exact Rg. exact Pos. }
    destruct Kc as [Kc|Kc]; rewrite Kc; cbn [kind_of].
    + apply Fin; [reflexivity|exact Hw].
    + destruct (emission_defined m lo hi (sc_ems c0) (wavelength r) (u_wl u) (sp_ems _ _ _ _ Sp pl mt c0 h1 h2 h3 Kc) Hw (proj1 (proj2 (proj2 (proj2 (proj2 (proj2 Hu))))))) as (w' & Ew' & Hw').
      change (wavelength (representation (w2l S n) (propagate r x (n_of S n)))) with (wavelength r). rewrite Ew'. apply Fin; [reflexivity|exact Hw'].
  - do 2 eexists. split; [reflexivity|]. cbn [e_kind]. destruct (c_kind c); reflexivity.
Qed.
Lemma surface_ok u h c a D r v : wf_draws u -> is_unit (direction r) -> lo <= wavelength r <= hi ->
  norm (vadd (position r) (vscale D (direction r))) <= R' -> a <> None ->
  normal_of S h (to_point (w2l S h) (vadd (position r) (vscale D (direction r)))) = Some v ->
  dot v (to_vector (w2l S h) (direction r)) <> 0 ->
  (np_allclose (along v (to_vector (w2l S h) (direction r))) (to_vector (w2l S h) (direction r)) = true ->
    along v (to_vector (w2l S h) (direction r)) = to_vector (w2l S h) (direction r)) ->
  exists evs r', surface_step S u h c a D r = Continue evs r' /\ norm (position r') <= R' /\ lo <= wavelength r' <= hi.
Proof.
  intros Hu Hd Hw HD Ha Hv Hdot Hal. destruct a as [a|]; [clear Ha|congruence]. destruct (frames_rigid mesh root U h) as [Rg Ew]. fold S in Rg, Ew.
  pose proof (normal_unit mesh root U h _ _ Hv) as [_ Uv].
  assert (Ud : is_unit (to_vector (w2l S h) (direction r))).
  { unfold is_unit. rewrite Ew, to_vector_dot by now apply wf_rinv. exact Hd. }
  unfold surface_step. cbv zeta. set (lr := representation (w2l S h) (propagate r D (n_of S c))).
  change (position lr) with (to_point (w2l S h) (vadd (position r) (vscale D (direction r)))). rewrite Hv.
  assert (Fin : forall d, norm (position (representation (l2w S h) (with_direction lr d))) <= R' /\
     lo <= wavelength (representation (l2w S h) (with_direction lr d)) <= hi).
  { intros d. split; [|exact Hw]. change (position (representation (l2w S h) (with_direction lr d)))
      with (to_point (l2w S h) (to_point (w2l S h) (vadd (position r) (vscale D (direction r))))). rewrite Ew, rinv_point_r by exact Rg. exact HD. }
  pose proof (surf_cases mesh root h) as Es. fold S in Es. rewrite Es. destruct (k_fresnel (kernel_scene root) h).
  - cbn [fresnel_surface s_reflectivity s_reflected s_transmitted].
    change (position lr) with (to_point (w2l S h) (vadd (position r) (vscale D (direction r)))). rewrite Hv.
    change (direction lr) with (to_vector (w2l S h) (direction r)).
    destruct (fresnel_defined v (to_vector (w2l S h) (direction r)) (n_of S c) (n_of S a) Uv Ud (index_pos mesh root U c) (index_pos mesh root U a) Hdot Hal)
      as (rho & Er & Hr & Ht). rewrite Er. destruct (is_reflected rho (u_surf u)) eqn:Ei.
    + do 2 eexists. split; [reflexivity|apply Fin].
    + destruct Ht as [t Et]; [|rewrite Et; do 2 eexists; split; [reflexivity|apply Fin]].
      intros ->. unfold is_reflected in Ei. destruct (Reqb_spec 1 0); [lra|]. apply Rltb_false in Ei. pose proof (proj1 (proj2 (proj2 (proj2 (proj2 (proj2 (proj2 (proj2 Hu)))))))). lra.
  - cbn [null_surface s_reflectivity s_reflected s_transmitted]. unfold is_reflected, null_reflectivity. destruct (Reqb_spec 0 0); [|lra].
    do 2 eexists. split; [reflexivity|apply Fin].
Qed.
Lemma pass_ok ms mp u count r : wf_draws u -> 0 < u_comp u -> 0 < u_wl u -> within r -> ordinary S root u r -> clean_hit S root r ->
  match pass S ms mp m u count r with
  | Raise _ => False
  | Stop evs => exists pre e, evs = pre ++ [e] /\ is_terminal (e_kind e) = true
  | Continue _ r' => within r'
  end.
Proof.
  intros Hu Hc Hl Hw Ho Hh. pose proof Hw as (Hp & Hd & Hwl).
  pose proof (pass_chain S ms mp m u count r (tree_wf mesh root U) Hu Hd) as Ch.
  enough (G : match pass S ms mp m u count r with
    | Raise _ => False
    | Stop evs => exists pre e, evs = pre ++ [e] /\ is_terminal (e_kind e) = true
    | Continue _ r' => norm (position r') <= R' /\ lo <= wavelength r' <= hi end).
  { destruct (pass S ms mp m u count r) as [evs|evs|evs r']; [exact G|exact G|]. destruct G as [g1 g2]. destruct Ch as [c1 c2].
    split; [exact g1|]. split; [|exact g2]. rewrite <- c2. now apply (chain_end_unit S). }
  clear Ch.
  pose proof (ordinary_generic mesh root T root_id M U C u r Hu Hc Hl Hd Ho) as [Gh _ _ Ga].
  destruct (hit_found r Hp Hd Gh) as (h & c & a & D & En & Hn). unfold pass. rewrite En.
  destruct (_ || _); [exists []; eexists; split; reflexivity|].
  destruct (Nat.eqb_spec h (TracerModel.root S)) as [Er|Er]; [exists []; eexists; split; reflexivity|].
  destruct (Hn Er) as (Ha & pl & h1 & h2 & h3). destruct (met_point u r h pl D Hd Ho h1 h2 h3) as [q1 q2].
  destruct q2 as [v Hv]; [intros s Es; exact (ch_edge _ _ _ Hh h c a D pl s En h2 Es)|].
  destruct (surface_ok u h c a D r v Hu Hd Hwl q1 Ha Hv (ch_slant _ _ _ Hh h c a D v En Hv)) as (evs & r' & Esf & g1 & g2);
    [exact (od_angle _ _ _ _ Ho h c a D v En Hv)|].
  destruct (coefs_defined c (wavelength r) Hwl) as (coefs & E & F). unfold total_attenuation. rewrite E.
  unfold penetration_depth. destruct (isclose_zero (rsum coefs)) eqn:Ez; [rewrite Esf; auto|].
  assert (Pos : 0 < rsum coefs).
  { unfold isclose_zero in Ez. apply Rleb_false in Ez. assert (0 <= rsum coefs) by (now apply rsum_nonneg).
    rewrite Rabs_right in Ez by lra. unfold alpha_tol in Ez. assert (0 < / 10 ^ 8) by (apply Rinv_0_lt_compat; simpl; lra). lra. }
  destruct (Rltb _ D) eqn:Ed; [|rewrite Esf; auto]. apply Rltb_true in Ed.
  assert (X : 0 <= - ln (1 - u_depth u) / rsum coefs).
  { apply Rmult_le_pos; [|left; now apply Rinv_0_lt_compat]. pose proof (proj1 Hu). assert (ln (1 - u_depth u) <= 0); [|lra].
    destruct (Req_dec (u_depth u) 0) as [-> |]; [rewrite Rminus_0_r, ln_1; lra|]. rewrite <- ln_1. left. apply ln_increasing; lra. }
  pose proof (absorb_ok u c _ D r Hu Hw (conj X (Rlt_le _ _ Ed)) q1 (ex_intro _ coefs (conj E Pos))) as G.
  destruct (absorb_step _ _ _ _ _ _) as [evs'|evs'|evs' r2]; [|exact G|exact G].
  destruct G as (e & e' & -> & G). exists [e], e'. auto.
Qed.
End NoRaise.

(** ** C148 *)
(** The photon ends in one of the four final events; no exception escapes. *)
Theorem C148_traced_to_an_end_partial : forall mesh root T root_id Rw R' m lo hi fuel ms mp us r evs st,
  exact_mesh mesh -> usable root -> compile_scene root = Some (T, root_id) ->
  sphere_world root Rw R' -> spectra_cover root m lo hi -> phases_usable root -> thick_boxes root ->
  let S := python_scene mesh root in
  (forall i, wf_draws (us i) /\ 0 < u_comp (us i) /\ 0 < u_wl (us i)) ->
  norm (position r) <= R' -> is_unit (direction r) -> lo <= wavelength r <= hi ->
  (forall i r', reaches S ms m us r i r' -> ordinary S root (us (Datatypes.S i)) r' /\ clean_hit S root r') ->
  (ms + 1 <= fuel)%nat -> step_forward fuel S ms mp m us r = (evs, st) ->
  st = Done /\ exists pre e, evs = pre ++ [e] /\ is_terminal (e_kind e) = true.
Proof.
  intros mesh root T root_id Rw R' m lo hi fuel ms mp us r evs st M U C W Sp Ph Tb S Hus Hp Hd Hw Ho Hf E.
  pose proof (proj1 (C02_terminates_within_budget fuel S ms mp m us r Hf)) as Nf. rewrite E in Nf. cbn [snd] in Nf.
  assert (G : forall fuel i q evs st, reaches S ms m us r i q -> within R' lo hi q -> loop fuel S ms mp m us i q = (evs, st) ->
     st <> Raised /\ (st = Done -> exists pre e, evs = pre ++ [e] /\ is_terminal (e_kind e) = true)).
  { clear - M U C W Sp Ph Tb Hus Ho. induction fuel as [|fuel IH]; intros i q evs st Hq Hin; cbn [loop]; [intros [= <- <-]; split; discriminate|].
    destruct (Ho i q Hq) as [O1 O2]. destruct (Hus (Datatypes.S i)) as (u1 & u2 & u3).
    pose proof (pass_ok mesh root T root_id M U C Rw R' W m lo hi Sp Ph Tb ms mp (us (Datatypes.S i)) (Datatypes.S i) q u1 u2 u3 Hin O1 O2) as P. fold S in P.
    destruct (pass S ms mp m (us (Datatypes.S i)) (Datatypes.S i) q) as [e|e|e q'] eqn:Ep; [|destruct P|].
    - intros [= <- <-]. split; [discriminate|]. auto.
    - assert (Hq' : reaches S ms m us r (Datatypes.S i) q').
      { apply (reachS _ _ _ _ _ i q e); [exact Hq|]. revert Ep. unfold pass. destruct (next_hit S q) as [| |h c a D]; try discriminate.
        destruct (Nat.ltb ms (Datatypes.S i)); cbn [orb over_path]; [discriminate|]. destruct (over_path mp q); [discriminate|]. auto. }
      destruct (loop fuel S ms mp m us (Datatypes.S i) q') as [rest st'] eqn:El. destruct (IH _ _ _ _ Hq' P El) as [I1 I2].
      intros [= <- <-]. split; [exact I1|]. intros Hst. destruct (I2 Hst) as (pre & x & -> & Hx). exists (e ++ pre)%list, x. split; [apply app_assoc|exact Hx]. }
  unfold step_forward in E. destruct (loop fuel S ms mp m us 0 r) as [rest st'] eqn:El. injection E as <- ->.
  destruct (G fuel 0%nat r rest st (reach0 _ _ _ _ _) (conj Hp (conj Hd Hw)) El) as [g1 g2].
  assert (Ed : st = Done) by (destruct st; congruence). split; [exact Ed|]. destruct (g2 Ed) as (pre & x & -> & Hx).
  exists (Event GENERATE r None None None None None :: pre), x. split; [reflexivity|exact Hx].
Qed.
Print Assumptions C148_traced_to_an_end_partial.

(** Then the compiled engine ends it the same way, with the same events. *)
Theorem C148_both_engines_end_it_partial : forall mesh root T root_id Rw R' m lo hi fuel ms us r max_events,
  exact_mesh mesh -> ready root -> compile_scene root = Some (T, root_id) ->
  sphere_world root Rw R' -> spectra_cover root m lo hi -> phases_usable root -> thick_boxes root ->
  let S := python_scene mesh root in
  (forall i, wf_draws (us i) /\ 0 < u_comp (us i) /\ 0 < u_wl (us i)) ->
  norm (position r) <= R' -> is_unit (direction r) -> lo <= wavelength r <= hi ->
  (forall i r', reaches S ms m us r i r' -> ordinary S root (us (Datatypes.S i)) r' /\ clean_hit S root r') ->
  (ms + 1 <= fuel)%nat -> (2 * ms + 3 < max_events)%nat ->
  exists pre e ts, is_terminal (e_kind e) = true /\
    step_forward fuel S ms None m us r = (pre ++ [e], Done) /\
    trace_one fuel (read_scene T root_id) (Some max_events) ms m us r = (pre ++ [e], ts, KDone).
Proof.
  intros mesh root T root_id Rw R' m lo hi fuel ms us r max_events M Q C W Sp Ph Tb S Hus Hp Hd Hw Ho Hf Hm. pose proof (rd_usable _ Q) as U.
  pose proof (proj2 (C02_terminates_within_budget fuel S ms None m us r Hf)) as L.
  destruct (step_forward fuel S ms None m us r) as [evs st] eqn:E. cbn [fst] in L.
  destruct (C148_traced_to_an_end_partial mesh root T root_id Rw R' m lo hi fuel ms None us r evs st M U C W Sp Ph Tb Hus Hp Hd Hw Ho Hf E) as (-> & pre & e & -> & He).
  destruct (C138_same_history mesh root T root_id fuel ms m us r max_events _ Done M Q C Hus Hd (fun i r' H => proj1 (Ho i r' H)) E) as (ts & kst & Ek & Hk);
    [discriminate|lia|]. destruct kst; try contradiction. exists pre, e, ts. auto.
Qed.
Print Assumptions C148_both_engines_end_it_partial.

(** ** A dye in a ball: a photon on the axis *)
Definition flat : dist := DTable false [300; 800] [1; 1] [0; 1].
Lemma flat_made : mk_dist [300; 800] [1; 1] false = MkOk flat.
Proof.
  unfold mk_dist; simpl; rdec; simpl; unfold np_max; simpl; rdec. unfold flat. do 3 f_equal. apply f_equal2; [field|reflexivity].
Qed.
Definition dye : scomp := SComp ClsLuminophore "dye" SIsotropic flat flat 1 None None.
Definition dyed : option smaterial := Some (SMaterial (3/2) NullDelegate [dye]).
Definition dye_tree : stree :=
  SNode 0 "world" rid (Some (GSphere 10, plain 1)) [SNode 1 "ball" (translation_matrix (V 0 0 0)) (Some (GSphere 1, dyed)) []].
Lemma dye_nodes : geometry_nodes dye_tree = [Placed 0 "world" rid (GSphere 10) (plain 1); Placed 1 "ball" rid (GSphere 1) dyed].
Proof. unfold geometry_nodes, dye_tree. cbn [preorder flat_map app]. now rewrite ball_place. Qed.
Lemma flat_nonneg nm a : dist_call flat nm = Some a -> 0 <= a.
Proof.
  unfold dist_call, flat. destruct (negb _); [discriminate|]. cbn [combine np_interp last fst]. destruct (Rltb nm 300); [discriminate|]. destruct (Rltb 800 nm); [discriminate|].
  intros [= <-]. cbn [interp_from fst snd]. destruct (Rltb nm 800); cbn [interp_from fst snd]; [|lra]. replace ((1 - 1) / (800 - 300)) with 0 by field. lra.
Qed.
Lemma dye_good : good_comp dye.
Proof. split; cbn; try lra; [exact flat_nonneg|discriminate]. Qed.
Lemma dye_usable : usable dye_tree.
Proof.
  split.
  - rewrite dye_nodes. reflexivity.
  - rewrite dye_nodes. cbn. lia.
  - constructor. intros c [<-|[]]. split; [constructor; intros c []|apply wf_translation].
  - intros n m c. rewrite dye_nodes. intros [<-|[<-|[]]] [= <-]; [intros []|]. intros [<-|[]].
    split; right; exists [300; 800], [1; 1], false; (split; [reflexivity|exact flat_made]).
  - intros n. rewrite dye_nodes. intros [<-|[<-|[]]]; cbn; lra.
  - intros n m. rewrite dye_nodes. intros [<-|[<-|[]]] [= <-]; cbn; lra.
  - intros n m c. rewrite dye_nodes. intros [<-|[<-|[]]] [= <-]; [intros []|]. intros [<-|[]]. exact dye_good.
Qed.
Lemma dye_ready : ready dye_tree.
Proof. split; [exact dye_usable|]. intros n m c. rewrite dye_nodes. intros [<-|[<-|[]]] _ _ _; reflexivity. Qed.
Lemma dye_compiles : exists T, compile_scene dye_tree = Some (T, 0%nat).
Proof.
  destruct (compile_scene dye_tree) as [[T i]|] eqn:E.
  - exists T. destruct (compile_scene_inv _ _ _ _ _ _ _ E) as (_ & -> & _). reflexivity.
  - apply C90_refused_iff_unsupported in E. exfalso. apply E. split; [discriminate|]. intros n. rewrite dye_nodes.
    assert (Q : rigid_check (rot rid) = true).
    { unfold rigid_check, np_allclose3, np_allclose1, rid, mmul, mtrans, mid, dot. cbn.
      repeat match goal with |- context [Rleb ?a ?b] => replace (Rleb a b) with true
        by (symmetry; apply Rleb_true; rewrite ?Rmult_0_l, ?Rmult_0_r, ?Rmult_1_r, ?Rplus_0_l, ?Rplus_0_r, ?Rminus_0_r, ?Rminus_diag_eq, ?Rabs_R0, ?Rabs_R1 by lra; lra) end.
      reflexivity. }
    intros [<-|[<-|[]]]; (split; [discriminate|]); (split; [exact Q|]); eexists; (split; [reflexivity|]); (split; [discriminate|]); repeat constructor; discriminate.
Qed.
Lemma dye_world : sphere_world dye_tree 10 2.
Proof.
  split; [unfold dye_tree, plain; do 5 eexists; reflexivity|lra|lra|]. intros n. rewrite dye_nodes. cbn [tl]. intros [<-|[]] p. cbn [p_geometry p_to_root solid].
  rewrite to_point_rid. lra.
Qed.
Definition covers_range (root : stree) (lo hi : R) : Prop :=
  forall n mt c, In n (geometry_nodes root) -> p_material n = Some mt -> In c (sm_comps mt) ->
    absorption_covers lo hi (sc_abs c) /\ (sc_class c = ClsLuminophore -> absorption_covers lo hi (sc_ems c)).
Lemma dye_covers : covers_range dye_tree 300 800 /\ spectra_cover dye_tree Full 300 800 /\ phases_usable dye_tree /\ thick_boxes dye_tree.
Proof.
  split; [|split; [split|split]].
  - intros n mt c. rewrite dye_nodes. intros [<-|[<-|[]]] [= <-]; [intros []|]. intros [<-|[]]. cbn. lra.
  - intros n mt c. rewrite dye_nodes. intros [<-|[<-|[]]] [= <-]; [intros []|]. intros [<-|[]]. cbn. lra.
  - intros n mt c. rewrite dye_nodes. intros [<-|[<-|[]]] [= <-]; [intros []|]. intros [<-|[]] _. exists [300; 800], [1; 1].
    split; [reflexivity|]. split; [exact flat_made|]. cbn. lra.
  - intros n mt c. rewrite dye_nodes. intros [<-|[<-|[]]] [= <-]; [intros []|]. intros [<-|[]] _. exact I.
  - intros n s. rewrite dye_nodes. intros [<-|[<-|[]]]; discriminate.
Qed.
Definition dye_scene : scene := python_scene kernel_mesh dye_tree.
Lemma dye_at {A} (d : A) f : of_node dye_tree d f 0 = f (Placed 0 "world" rid (GSphere 10) (plain 1)) (SMaterial 1 NullDelegate []) /\
  of_node dye_tree d f 1 = f (Placed 1 "ball" rid (GSphere 1) dyed) (SMaterial (3/2) NullDelegate [dye]).
Proof. unfold of_node. rewrite dye_nodes. split; reflexivity. Qed.
Lemma dye_frames n : w2l dye_scene n = rid /\ l2w dye_scene n = rid /\ surf dye_scene n = null_surface.
Proof.
  unfold dye_scene, python_scene. cbn [w2l l2w surf]. split; [|split].
  - apply (of_node_cases dye_tree (fun g => g = rid)); [reflexivity|]. intros pl mt. rewrite dye_nodes. intros [<-|[<-|[]]] _; apply ainv_rid.
  - apply (of_node_cases dye_tree (fun g => g = rid)); [reflexivity|]. intros pl mt. rewrite dye_nodes. intros [<-|[<-|[]]] _; reflexivity.
  - apply (of_node_cases dye_tree (fun g => g = null_surface)); [reflexivity|]. intros pl mt. rewrite dye_nodes. intros [<-|[<-|[]]] [= <-]; reflexivity.
Qed.
(** moving along the x axis *)
Definition on_axis (r : ray) : Prop := vy (position r) = 0 /\ vz (position r) = 0 /\ (direction r = V 1 0 0 \/ direction r = V (-1) 0 0).
Lemma axis_normal r h D v : on_axis r -> normal_of dye_scene h (vadd (position r) (vscale D (direction r))) = Some v ->
  v = V 1 0 0 \/ v = V (-1) 0 0.
Proof.
  intros (Hy & Hz & Hd) Hv. set (x := vx (vadd (position r) (vscale D (direction r)))).
  assert (Ep : vadd (position r) (vscale D (direction r)) = V x 0 0) by (unfold x; destruct Hd as [-> | ->]; apply vec_eq; simpl; rewrite ?Hy, ?Hz; ring).
  rewrite Ep in Hv. clearbody x.
  assert (Hs : unit_vector (V x 0 0) = Some v).
  { revert Hv. unfold dye_scene, python_scene. cbn [normal_of].
    apply (of_node_cases dye_tree (fun o => o = Some v -> unit_vector (V x 0 0) = Some v)); [discriminate|].
    intros pl mt. rewrite dye_nodes. intros [<-|[<-|[]]] _ Q; exact Q. }
  unfold unit_vector in Hs. rewrite norm_axis in Hs. destruct (Reqb_spec (Rabs x) 0) as [E|E]; [discriminate|]. injection Hs as <-.
  destruct (Rle_dec 0 x).
  - left. rewrite Rabs_right in * by lra. apply vec_eq; simpl; field; lra.
  - right. rewrite Rabs_left in * by lra. apply vec_eq; simpl; field; lra.
Qed.
Lemma dye_ordinary r : on_axis r ->
  ordinary dye_scene dye_tree mid_draws r /\ clean_hit dye_scene dye_tree r.
Proof.
  intros Ha. pose proof Ha as (Hy & Hz & Hd).
  assert (Al : forall v, v = V 1 0 0 \/ v = V (-1) 0 0 -> along v (direction r) = direction r /\ dot v (direction r) <> 0).
  { intros v Hv. unfold along. destruct Hv as [-> | ->], Hd as [-> | ->]; unfold dot; cbn [vx vy vz]; (split; [|lra]);
      [rewrite (proj2 (Rltb_false _ _)) by lra|rewrite (proj2 (Rltb_true _ _)) by lra|rewrite (proj2 (Rltb_true _ _)) by lra|rewrite (proj2 (Rltb_false _ _)) by lra];
      try reflexivity; apply vec_eq; simpl; ring. }
  split; split.
  - intros n. rewrite dye_nodes. assert (Hs : forall k, 1 <= k -> / 10 ^ 8 < sphere_disc k (position r) (direction r)).
    { intros k Hk. unfold sphere_disc, dot. rewrite Hy, Hz. destruct Hd as [-> | ->]; cbn [vx vy vz]; nra. }
    intros [<-|[<-|[]]]; cbn [p_to_root p_geometry clear]; rewrite ainv_rid, to_point_rid, to_vector_rid; right; apply Hs; lra.
  - intros n coefs i. unfold dye_scene, python_scene. cbn [comps].
    apply (of_node_cases dye_tree (fun cs => coefficients cs (wavelength r) = Some coefs -> 0 < rsum coefs -> (i <= List.length coefs)%nat -> u_comp mid_draws * rsum coefs <> psum coefs i)).
    + intros [= <-] H. cbn in H. lra.
    + intros pl mt. rewrite dye_nodes. intros [<-|[<-|[]]] [= <-]; cbn [sm_comps map]; [intros [= <-] H; cbn in H; lra|].
      cbn [coefficients py_component c_dist dye sc_abs]. destruct (dist_call flat (wavelength r)) as [a|]; [|discriminate]. intros [= <-] H Hi. cbn in H, Hi.
      destruct i as [|[|i]]; [| |lia]; unfold psum; cbn; lra.
  - intros h c a D v En d Hv _. destruct (dye_frames h) as (Ew & _). unfold d. rewrite Ew, to_vector_rid in *. rewrite to_point_rid in Hv.
    apply Al. exact (axis_normal r h D v Ha Hv).
  - intros h c a D pl s _ Hn. apply nth_error_In in Hn. rewrite dye_nodes in Hn. destruct Hn as [<-|[<-|[]]]; discriminate.
  - intros h c a D v En Hv. destruct (dye_frames h) as (Ew & _). rewrite Ew, to_vector_rid in *. rewrite to_point_rid in Hv.
    apply Al. exact (axis_normal r h D v Ha Hv).
Qed.
Lemma backwards : isotropic (1/2) (1/2) = V (-1) 0 0.
Proof.
  unfold isotropic, spherical_to_cart. cbv zeta. replace (2 * (1 / 2) - 1) with 0 by field. replace (2 * PI * (1 / 2)) with PI by field.
  rewrite acos_0, sin_PI2, cos_PI2, cos_PI, sin_PI. apply vec_eq; simpl; ring.
Qed.
Lemma axis_moved r x n : on_axis r -> on_axis (propagate r x n).
Proof. intros (Hy & Hz & Hd). unfold on_axis, propagate. cbn [position direction vadd vscale vy vz]. split; [|split; [|exact Hd]]; destruct Hd as [-> | ->]; cbn [vy vz]; lra. Qed.
Lemma axis_kept m ms count r evs r' : on_axis r -> pass dye_scene ms None m mid_draws count r = Continue evs r' -> on_axis r'.
Proof.
  intros Ha. unfold pass. destruct (next_hit dye_scene r) as [| |h c a D]; try discriminate. destruct (_ || _); [discriminate|]. destruct (Nat.eqb _ _); [discriminate|].
  destruct (total_attenuation _ _) as [alpha|]; [|discriminate].
  assert (Sf : forall D, surface_step dye_scene mid_draws h c a D r = Continue evs r' -> on_axis r').
  { intros D'. unfold surface_step. cbv zeta. destruct (normal_of _ _ _); [|discriminate]. destruct (dye_frames h) as (E1 & E2 & E3). rewrite E3.
    cbn [null_surface s_reflectivity s_reflected s_transmitted]. destruct (is_reflected _ _); [discriminate|]. destruct a; [|discriminate]. intros Eq; apply (f_equal (fun o => match o with Continue _ q => q | _ => r' end)) in Eq; cbv beta iota in Eq; rewrite <- Eq; clear Eq.
    pose proof (axis_moved r D' (n_of dye_scene c) Ha) as (Hy & Hz & Hd). rewrite E1, E2. unfold on_axis, representation, with_direction, null_transmitted.
    cbn [position direction]. rewrite !to_point_rid, !to_vector_rid. auto. }
  destruct (penetration_depth _ _) as [x|]; [|apply Sf]. destruct (Rltb x D); [|apply Sf].
  unfold absorb_step. cbv zeta. destruct (coefficients _ _); [|discriminate]. destruct (select_component _ _) as [k|]; [|discriminate].
  destruct (nth_error (comps dye_scene c) k) as [cm|] eqn:Ec; [|discriminate]. destruct (is_radiative _ _ _); [|discriminate].
  assert (Ecm : cm = py_component dye).
  { apply nth_error_In in Ec. destruct (comp_in kernel_mesh dye_tree c cm Ec) as (pl & mt & c0 & h1 & h2 & h3 & -> & _). rewrite dye_nodes in h1.
    destruct h1 as [<-|[<-|[]]]; injection h2 as <-; [destruct h3|]. destruct h3 as [<-|[]]. reflexivity. }
  subst cm. unfold emit. cbn [py_component c_phase c_kind dye sc_phase sc_class py_phase py_kind c_ems c_tau_rad].
  change (isotropic (u_ph1 mid_draws) (u_ph2 mid_draws)) with (isotropic (1/2) (1/2)). rewrite backwards.
  destruct (emit_wavelength _ _ _ _ _) as [w|]; [|discriminate]. intros Eq; apply (f_equal (fun o => match o with Continue _ q => q | _ => r' end)) in Eq; cbv beta iota in Eq; rewrite <- Eq; clear Eq. destruct (dye_frames c) as (E1 & E2 & _). rewrite E1, E2.
  destruct (axis_moved r x (n_of dye_scene c) Ha) as (Hy & Hz & _). unfold on_axis, representation. cbn [position direction]. rewrite !to_point_rid, to_vector_rid. auto.
Qed.
Lemma axis_reached m ms r i r' : on_axis r -> reaches dye_scene ms m (fun _ => mid_draws) r i r' -> on_axis r'.
Proof. intros Ha H. induction H as [|i q evs q' _ IH P]; [exact Ha|]. exact (axis_kept _ _ _ _ _ _ IH P). Qed.
Definition blue : ray := Ray (V 0 0 0) (V 1 0 0) 302 0 0 (Light 0).
Lemma blue_axis : on_axis blue.
Proof. split; [reflexivity|]. split; [reflexivity|now left]. Qed.
Lemma mid_positive : forall i : nat, wf_draws mid_draws /\ 0 < u_comp mid_draws /\ 0 < u_wl mid_draws.
Proof. intros _. split; [exact wf_mid|]. unfold mid_draws; simpl. lra. Qed.

(** The photon is absorbed and re-emitted at any wavelength of the spectrum, and followed to its end. *)
Example C148_example : exists T pre e ts, compile_scene dye_tree = Some (T, 0%nat) /\ is_terminal (e_kind e) = true /\
  step_forward 9 dye_scene 7 None Full (fun _ => mid_draws) blue = (pre ++ [e], Done) /\
  trace_one 9 (read_scene T 0) (Some 20%nat) 7 Full (fun _ => mid_draws) blue = (pre ++ [e], ts, KDone).
Proof.
  destruct dye_compiles as [T C]. destruct dye_covers as (_ & Sp & Ph & Tb).
  destruct (C148_both_engines_end_it_partial kernel_mesh dye_tree T 0 10 2 Full 300 800 9 7 (fun _ => mid_draws) blue 20 kernel_mesh_exact dye_ready C dye_world Sp Ph Tb mid_positive)
    as (pre & e & ts & h1 & h2 & h3).
  - unfold blue. cbn [position]. rewrite norm_axis, Rabs_R0. lra.
  - unfold is_unit, dot; simpl; ring.
  - simpl. lra.
  - intros i r' H. apply dye_ordinary. exact (axis_reached _ _ _ _ _ blue_axis H).
  - lia.
  - lia.
  - exists T, pre, e, ts. auto.
Qed.

(** It is not enough that the spectra contain the photon's wavelength: with the default method
    "kT" the wavelength that is looked up lies further in the blue (component.py 402-410). *)
Theorem C148_kT_refuted : exists root T root_id Rw R' us r lo hi,
  ready root /\ compile_scene root = Some (T, root_id) /\ sphere_world root Rw R' /\ covers_range root lo hi /\ phases_usable root /\ thick_boxes root /\
  (forall i, wf_draws (us i) /\ 0 < u_comp (us i) /\ 0 < u_wl (us i)) /\
  norm (position r) <= R' /\ is_unit (direction r) /\ lo < wavelength r < hi /\
  let S := python_scene kernel_mesh root in
  (forall i r', reaches S 7 KT us r i r' -> ordinary S root (us (Datatypes.S i)) r' /\ clean_hit S root r') /\
  exists evs, step_forward 9 S 7 None KT us r = (evs, Raised) /\ map e_kind evs = [GENERATE; ABSORB].
Proof.
  destruct dye_compiles as [T C]. destruct dye_covers as (Cv & _ & Ph & Tb).
  exists dye_tree, T, 0%nat, 10, 2, (fun _ => mid_draws), blue, 300, 800.
  split; [exact dye_ready|]. split; [exact C|]. split; [exact dye_world|]. split; [exact Cv|]. split; [exact Ph|]. split; [exact Tb|]. split; [exact mid_positive|].
  split; [unfold blue; cbn [position]; rewrite norm_axis, Rabs_R0; lra|]. split; [unfold is_unit, dot; simpl; ring|]. split; [simpl; lra|].
  intros S. split; [intros i r' H; apply dye_ordinary; exact (axis_reached _ _ _ _ _ blue_axis H)|]. change S with dye_scene. clear S.
  assert (Hn : next_hit dye_scene blue = HitOk 1 1 (Some 0%nat) 1) by exact glass_hits0.
  assert (Hc : comps dye_scene 1 = [py_component dye]) by exact (proj2 (dye_at [] (fun _ m => map py_component (sm_comps m)))).
  assert (Ha : dist_call flat 302 = Some 1).
  { unfold dist_call, flat, x_min, x_max. rewrite allinrange_true by (cbn; lra). cbn [negb combine np_interp last fst]. rdec. cbn [interp_from fst snd]. rdec. f_equal. field. }
  assert (Hk : coefficients (comps dye_scene 1) 302 = Some [1]) by (rewrite Hc; cbn [coefficients py_component c_dist dye sc_abs]; now rewrite Ha).
  assert (P : exists e, pass dye_scene 7 None KT mid_draws 1 blue = Raise [e] /\ e_kind e = ABSORB).
  { unfold pass. rewrite Hn. cbn [Nat.ltb Nat.leb orb over_path Nat.eqb TracerModel.root dye_scene python_scene]. fold dye_scene. change (python_scene kernel_mesh dye_tree) with dye_scene.
    change (wavelength blue) with 302. unfold total_attenuation. rewrite Hk. assert (Hr : rsum [1] = 1) by (simpl; lra).
    unfold penetration_depth, isclose_zero, alpha_tol. rewrite Hr, Rabs_R1. rewrite (proj2 (Rleb_false 1 (/ 10 ^ 8))) by lra.
    replace (1 - u_depth mid_draws) with (/ 2) by (simpl; lra). rewrite ln_Rinv by lra.
    assert (ln 2 < 1).
    { rewrite <- (ln_exp 1). apply ln_increasing; [lra|]. pose proof (exp_ineq1 1 ltac:(lra)). lra. }
    rewrite (proj2 (Rltb_true (- - ln 2 / 1) 1)) by lra. unfold absorb_step. cbv zeta.
    change (wavelength (propagate blue _ _)) with 302. rewrite Hk.
    assert (Hs : select_component [1] (u_comp mid_draws) = Some 0%nat).
    { apply C33_component_choice_interval; [repeat constructor; lra|lra|simpl; lra|]. split; [simpl; lia|]. unfold psum, rsum; simpl. lra. }
    rewrite Hs, Hc. cbn [nth_error py_component c_kind c_qy dye sc_class py_kind sc_qy is_radiative].
    change (u_rad mid_draws) with (1/2). rewrite (proj2 (Rltb_true (1/2) 1)) by lra.
    unfold emit. cbn [py_component c_phase c_kind c_ems py_phase py_kind sc_class sc_phase sc_ems dye]. change (wavelength (representation _ _)) with 302.
    assert (En : emit_wavelength flat KT T_default 302 (u_wl mid_draws) = None).
    { unfold emit_wavelength. assert (Hl : dist_lookup flat (kT_shift 302 T_default) = None); [|now rewrite Hl].
      unfold dist_lookup, flat, x_min, allinrange. cbn [hd]. assert (Hlt : kT_shift 302 T_default < 300).
      { unfold kT_shift, T_default, kB_eV. apply Rmult_lt_reg_r with (1240 / 302 + 3 / 2 * (1380649 / 1000000 / 10 ^ 23 / (160217662 / 100000000 / 10 ^ 19)) * 300); [lra|].
        unfold Rdiv at 1. rewrite Rmult_assoc, Rinv_l by lra. lra. }
      rewrite (proj2 (Rltb_true _ _) Hlt). reflexivity. }
    rewrite En. eexists. split; reflexivity. }
  destruct P as (e & P & He). eexists. unfold step_forward. cbn [loop]. rewrite P. split; [reflexivity|]. cbn [map e_kind]. now rewrite He.
Qed.
Print Assumptions C148_kT_refuted.
