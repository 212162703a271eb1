(** C90, C91: the compiled tables. *)
From Coq Require Import Reals Lra Lia Psatz List Bool Arith String.
From Verif Require Import Base Vec Interp DistModel DistProofs DistProps MaterialModel OpticsModel PhaseModel
  TransformModel TransformProofs TracerModel KernelModel CompilerModel CompilerProofs.
Import ListNotations.
Open Scope R_scope.

(** ** What the scene means *)
(** a Distribution object with arrays of the same length *)
Definition built (d : dist) : Prop :=
  (exists y, d = DConst y) \/ exists xs ys h, List.length xs = List.length ys /\ mk_dist xs ys h = MkOk d.
(** every spectrum of the scene is one *)
Definition spectra_built (root : stree) : Prop :=
  forall n m c, In n (geometry_nodes root) -> p_material n = Some m -> In c (sm_comps m) ->
    built (sc_abs c) /\ built (sc_ems c).

(** the geometry, class and phase function as the kernel model names them *)
Definition shape_of (g : sgeometry) : option shape :=
  match g with
  | GBox s => Some (KernelModel.Box s) | GSphere r => Some (KernelModel.Sphere r)
  | GCylinder l r => Some (KernelModel.Cylinder l r) | GOther => None
  end.
Definition kind_of (c : sclass) : option ckind :=
  match c with
  | ClsReactor => Some Reactor | ClsAbsorber => Some Absorber | ClsLuminophore => Some Luminophore
  | ClsScatterer => Some Scatterer | ClsOther => None
  end.
Definition phase_of (p : sphase) : option phase :=
  match p with
  | SIsotropic => Some PhIsotropic | SHenyeyGreenstein g => Some (PhHenyeyGreenstein g)
  | SCone t => Some (PhCone t) | SCustom => None
  end.
Definition not_histogram (d : dist) : Prop := match d with DTable true _ _ _ => False | _ => True end.
Definition sampled_linearly (d : dist) : Prop := match d with DTable false _ _ _ => True | _ => False end.
Definition supported_component (c : scomp) : Prop :=
  kind_of (sc_class c) <> None /\ phase_of (sc_phase c) <> None /\ not_histogram (sc_abs c) /\
  (sc_class c = ClsLuminophore -> sampled_linearly (sc_ems c)).
Definition supported_node (n : placed) : Prop :=
  shape_of (p_geometry n) <> None /\ rigid_check (rot (p_to_root n)) = true /\
  exists m, p_material n = Some m /\ sm_delegate m <> CustomDelegate /\ Forall supported_component (sm_comps m).
Definition has_geometry (t : stree) : Prop := match t with SNode _ _ _ g _ => g <> None end.

(** ** C90 *)
Lemma compile_component_some T c : supported_component c <-> exists T', compile_component T c = Some T'.
Proof.
  unfold supported_component, compile_component. split.
  - intros (h1 & h2 & h3 & h4).
    destruct (sc_class c) eqn:Ec; cbn in h1; try congruence;
    (destruct (sc_phase c) as [|g|t|] eqn:Ep; cbn in h2; try congruence;
     (destruct (sc_abs c) as [y|[] xs ys cdf] eqn:Ea; cbn in h3; try contradiction;
      (cbn [class_tag phase_tag distribution_columns];
       try (cbn; eexists; reflexivity);
       specialize (h4 eq_refl); destruct (sc_ems c) as [y'|[] ex ey ec]; cbn in h4; try contradiction;
       cbn; eexists; reflexivity))).
  - intros [T' H]. destruct (class_tag (sc_class c)) as [tag|] eqn:Et; [|discriminate].
    destruct (phase_tag (sc_phase c)) as [[pt pp]|] eqn:Ep; [|discriminate].
    destruct (distribution_columns (sc_abs c)) as [[xs ys]|] eqn:Ed; [|discriminate].
    destruct (emission_columns tag (sc_ems c)) as [[ex ec]|] eqn:Ee; [|discriminate].
    split; [destruct (sc_class c); cbn in *; discriminate|]. split; [destruct (sc_phase c); discriminate|].
    split; [destruct (sc_abs c) as [|[]]; cbn in *; [exact I|discriminate|exact I]|].
    intros Ec. rewrite Ec in Et. cbn in Et. injection Et as <-. cbn in Ee.
    destruct (sc_ems c) as [|[]]; cbn; [discriminate..|exact I].
Qed.
Lemma compile_components_some cs : forall T, Forall supported_component cs <-> exists T', compile_components T cs = Some T'.
Proof.
  induction cs as [|c cs IH]; intros T.
  - split; [exists T; reflexivity|constructor].
  - rewrite Forall_cons_iff. cbn [compile_components]. rewrite (compile_component_some T c). split.
    + intros [[T1 E] H]. rewrite E. apply IH, H.
    + intros [T' H]. destruct (compile_component T c) as [T1|]; [|discriminate].
      split; [eexists; reflexivity|]. apply (IH T1). exists T'. exact H.
Qed.
Lemma compile_node_some T n : supported_node n <-> exists T', compile_node T n = Some T'.
Proof.
  unfold supported_node, compile_node, compile_transform. split.
  - intros (h1 & h2 & m & h3 & h4 & h5). rewrite h2, h3.
    destruct (p_geometry n); cbn in h1; try congruence; cbn [compile_geometry];
    (destruct (sm_delegate m); try congruence; cbn [surface_tag]; apply compile_components_some; exact h5).
  - intros [T' H]. destruct (compile_geometry (p_geometry n)) as [[gt gp]|] eqn:Eg; [|discriminate].
    destruct (rigid_check (rot (p_to_root n))); [|discriminate].
    destruct (p_material n) as [m|]; [|discriminate].
    destruct (surface_tag (sm_delegate m)) as [st|] eqn:Es; [|discriminate].
    split; [destruct (p_geometry n); discriminate|]. split; [reflexivity|].
    exists m. split; [reflexivity|]. split; [destruct (sm_delegate m); discriminate|].
    eapply compile_components_some. eexists. exact H.
Qed.
Lemma compile_nodes_some ns : forall T, Forall supported_node ns <-> exists T', compile_nodes T ns = Some T'.
Proof.
  induction ns as [|c cs IH]; intros T.
  - split; [exists T; reflexivity|constructor].
  - rewrite Forall_cons_iff. cbn [compile_nodes]. rewrite (compile_node_some T c). split.
    + intros [[T1 E] H]. rewrite E. apply IH, H.
    + intros [T' H]. destruct (compile_node T c) as [T1|]; [|discriminate].
      split; [eexists; reflexivity|]. apply (IH T1). exists T'. exact H.
Qed.

(** A scene is refused exactly when one of its nodes cannot be represented. *)
Theorem C90_refused_iff_unsupported : forall root,
  compile_scene root = None <-> ~ (has_geometry root /\ forall n, In n (geometry_nodes root) -> supported_node n).
Proof.
  intros [id name pose g cs]. split.
  - intros H [Hg Hn]. cbn in Hg. destruct g as [[g m]|]; [|congruence].
    assert (F : Forall supported_node (geometry_nodes (SNode id name pose (Some (g, m)) cs))) by (apply Forall_forall; exact Hn).
    apply (compile_nodes_some _ tables0) in F. destruct F as [T HT]. revert H. unfold compile_scene.
    unfold geometry_nodes in *. cbn [preorder app index_of p_id] in *. rewrite Nat.eqb_refl, HT. discriminate.
  - intros H. destruct (compile_scene _) as [[T r]|] eqn:E; [|reflexivity]. exfalso. apply H.
    destruct (compile_scene_inv _ _ _ _ _ _ _ E) as ([gm ->] & -> & HT). split; [discriminate|].
    apply Forall_forall. apply (compile_nodes_some _ tables0). exists T. exact HT.
Qed.
Print Assumptions C90_refused_iff_unsupported.

Lemma spectra_built_nodes root : spectra_built root -> Forall node_built (geometry_nodes root).
Proof.
  intros H. apply Forall_forall. intros n Hn. unfold node_built. destruct (p_material n) as [m|] eqn:Em; [|exact I].
  apply Forall_forall. intros c Hc. destruct (H n m c Hn Em Hc) as [[[y Ea]|(xs & ys & h & L & Ea)] [[y' Ee]|(xs' & ys' & h' & L' & Ee)]].
  - unfold comp_built. rewrite Ea, Ee. split; exact I.
  - unfold comp_built. rewrite Ea. split; [exact I|eapply mk_dist_columns; eassumption].
  - unfold comp_built. rewrite Ee. split; [eapply mk_dist_columns; eassumption|exact I].
  - split; [exact (mk_dist_columns _ _ _ _ L Ea)|exact (mk_dist_columns _ _ _ _ L' Ee)].
Qed.
Lemma compiled_nodes root T root_id : spectra_built root -> compile_scene root = Some (T, root_id) ->
  root_id = 0%nat /\ wide (List.length (geometry_nodes root)) T /\
  forall i n, nth_error (geometry_nodes root) i = Some n -> node_ok T i n.
Proof.
  intros B H. destruct root as [id name pose g cs]. destruct (compile_scene_inv _ _ _ _ _ _ _ H) as (_ & -> & HT).
  destruct (compile_nodes_ok _ _ _ 0%nat aligned0 wide0 (spectra_built_nodes _ B) HT) as (_ & _ & W & K).
  split; [reflexivity|]. split; [exact W|exact K].
Qed.

Lemma nth_some {A} (l : list A) i x d : nth_error l i = Some x -> nth i l d = x.
Proof. intros H. apply nth_error_nth with (d := d) in H. exact H. Qed.
Lemma nth_error_map_seq {A} (f : nat -> A) s n k : (k < n)%nat -> nth_error (map f (seq s n)) k = Some (f (s + k)%nat).
Proof.
  intros H. erewrite map_nth_error; [reflexivity|]. rewrite nth_error_nth' with (d := 0%nat) by (rewrite seq_length; exact H).
  rewrite seq_nth by exact H. reflexivity.
Qed.

(** what [read_component] finds in a row that describes [c] *)
Lemma read_component_ok T c r j : nth_error (t_rows T) j = Some r -> row_ok T c r ->
  exists cc ph, read_component T j = (cc, ph) /\
    kind_of (sc_class c) = Some (c_kind cc) /\ phase_of (sc_phase c) = Some ph /\
    c_qy cc = sc_qy c /\ c_tau_rad cc = tau_or_zero (sc_tau_rad c) /\ c_tau_nr cc = tau_or_zero (sc_tau_nr c) /\
    (forall nm, k_coefficient (c_dist cc) nm = k_coefficient (sc_abs c) nm) /\
    (sc_class c = ClsLuminophore -> ems_columns (c_ems cc) = ems_columns (sc_ems c) /\ ems_columns (sc_ems c) <> None).
Proof.
  intros Hr [h1 h2 h3 h4 h5 _ h7 _ h9]. unfold read_component. rewrite (nth_some _ _ _ row0 Hr). cbv zeta.
  eexists _, _. split; [reflexivity|]. cbn [c_kind c_qy c_tau_rad c_tau_nr c_dist c_ems].
  split; [destruct (sc_class c); cbn in h1; try discriminate; injection h1 as <-; reflexivity|].
  split; [destruct (sc_phase c); cbn in h5; try discriminate; injection h5 as <- <-; reflexivity|].
  do 3 (split; [assumption|]). split.
  - intros nm. destruct (sc_abs c) as [y|[] xs ys cdf]; cbn [distribution_columns] in h7; [|discriminate|];
      injection h7 as Ex Ey; cbn [k_coefficient]; rewrite <- Ex, <- Ey; reflexivity.
  - intros Ec. rewrite Ec in h1. cbn in h1. injection h1 as Et. rewrite <- Et in h9. cbn in h9.
    destruct (sc_ems c) as [y|[] xs ys cdf]; try discriminate. injection h9 as Ex Ey. cbn [ems_columns].
    rewrite <- Ex, <- Ey. split; [reflexivity|discriminate].
Qed.

(** Every node and component of the scene is found, with its own data, where the kernel
    looks it up: node [i] in pre-order, component [k] of it. *)
Theorem C90_tables_hold_the_scene : forall root T root_id,
  spectra_built root -> compile_scene root = Some (T, root_id) ->
  let K := read_scene T root_id in
  k_nodes K = List.length (geometry_nodes root) /\ k_root K = 0%nat /\
  forall i n, nth_error (geometry_nodes root) i = Some n ->
    exists m, p_material n = Some m /\
      nth_error (t_names T) i = Some (p_name n) /\ shape_of (p_geometry n) = Some (k_shape K i) /\
      k_idx K i = sm_index m /\ (k_fresnel K i = true <-> sm_delegate m = FresnelDelegate) /\
      List.length (k_comps K i) = List.length (sm_comps m) /\
      forall k c, nth_error (sm_comps m) k = Some c ->
        nth_error (t_comp_names T) (nth i (t_comp_start T) 0%nat + k) = Some (sc_name c) /\
        exists cc ph, nth_error (k_comps K i) k = Some (cc, ph) /\
          kind_of (sc_class c) = Some (c_kind cc) /\ phase_of (sc_phase c) = Some ph /\ c_qy cc = sc_qy c /\
          (forall nm v, dist_call (sc_abs c) nm = Some v -> k_coefficient (c_dist cc) nm = v) /\
          (sc_class c = ClsLuminophore -> exists xs ys cdf, c_ems cc = DTable false xs ys cdf /\
             forall md nm u w, 0 < u < 1 -> emit_wavelength (sc_ems c) md 300 nm u = Some w -> k_emit_wavelength xs cdf md nm u = w) /\
          (forall t, sc_tau_rad c = Some t -> c_tau_rad cc = t) /\ (sc_tau_rad c = None -> c_tau_rad cc = 0) /\
          (forall t, sc_tau_nr c = Some t -> c_tau_nr cc = t) /\ (sc_tau_nr c = None -> c_tau_nr cc = 0).
Proof.
  intros root T root_id B H K. destruct (compiled_nodes _ _ _ B H) as (-> & W & N).
  split; [apply (wi_gt _ _ W)|]. split; [reflexivity|]. intros i n Hi.
  destruct (N i n Hi) as (m & gt & gp & l2w & w2l & st & s & h1 & h2 & h3 & h4 & h5 & h6 & h7 & h8 & h9 & h10 & h11 & h12 & h13 & h14).
  exists m. split; [exact h1|]. split; [exact h5|]. subst K. unfold read_scene. cbn [k_shape k_idx k_fresnel k_comps].
  split; [unfold read_shape; rewrite (nth_some _ _ _ [] h7), (nth_some _ _ _ 0%nat h6); cbv zeta;
    destruct (p_geometry n) as [[a b c]|r|l r|]; cbn in h2; try discriminate; injection h2 as <- <-; reflexivity|].
  split; [apply (nth_some _ _ _ _ h10)|].
  split; [rewrite (nth_some _ _ _ _ h11); destruct (sm_delegate m); cbn in h4; try discriminate; injection h4 as <-; cbn;
    split; (reflexivity || discriminate)|].
  rewrite (nth_some _ _ _ _ h12), (nth_some _ _ _ _ h13).
  split; [rewrite map_length, seq_length; reflexivity|].
  intros k c Hk. destruct (h14 k c Hk) as (Hn & r & Hr & Ho). split; [exact Hn|].
  destruct (read_component_ok _ _ _ _ Hr Ho) as (cc & ph & E & q1 & q2 & q3 & q4 & q5 & q6 & q7).
  exists cc, ph. rewrite nth_error_map_seq by (apply nth_error_Some; congruence). rewrite E.
  split; [reflexivity|]. split; [exact q1|]. split; [exact q2|]. split; [exact q3|].
  destruct (B n m c (nth_error_In _ _ Hi) h1 (nth_error_In _ _ Hk)) as [B1 B2].
  split.
  { intros nm v Hv. rewrite q6. destruct B1 as [[y Ey]|(xs & ys & h & L & Ed)].
    - rewrite Ey in *. pose proof (C68_kernel_constant_agrees y nm) as Hc. congruence.
    - pose proof (ro_abs _ _ _ Ho) as Hc. destruct h.
      + exfalso. destruct (mk_dist_ok_hist _ _ _ L Ed) as (cdf & Edd & _). rewrite Edd in Hc. discriminate.
      + eapply C68_kernel_coefficient_agrees; eassumption. }
  split.
  { intros Hc. destruct (q7 Hc) as [q8 q9]. destruct (sc_ems c) as [y|h xs ys cdf] eqn:Ee; [cbn in q9; congruence|].
    unfold read_component in E. cbv zeta in E. injection E as <- Eph. cbn [c_ems ems_columns] in *.
    injection q8 as Ex Ey. rewrite Ex, Ey.
    exists xs, [], cdf. split; [reflexivity|]. intros md nm u w Hu Hw.
    destruct B2 as [[y Ey']|(xs' & ys' & h' & L & Ed)]; [discriminate|].
    pose proof (ro_ems _ _ _ Ho) as Hce. pose proof (ro_type _ _ _ Ho) as Ht. rewrite Hc in Ht. cbn in Ht. injection Ht as Ht.
    rewrite <- Ht in Hce. rewrite Ee in Hce. cbn in Hce. destruct h; [discriminate|].
    destruct h'.
    - destruct (mk_dist_ok_hist _ _ _ L Ed) as (cdf' & Edd & _). discriminate.
    - destruct (mk_dist_ok _ _ _ L Ed) as (cdf' & Edd & _). injection Edd as <- <- <-.
      eapply C68_kernel_emission_agrees; eassumption. }
  rewrite q4, q5. split; [intros t ->; reflexivity|]. split; [intros ->; reflexivity|].
  split; [intros t ->; reflexivity|intros ->; reflexivity].
Qed.
Print Assumptions C90_tables_hold_the_scene.

(** The scene of the kernel model read directly off the list of nodes *)
Definition comp_of (c : scomp) : component * phase :=
  (Component (match kind_of (sc_class c) with Some k => k | None => Absorber end) (sc_abs c) (sc_qy c)
     (tau_or_zero (sc_tau_rad c)) (tau_or_zero (sc_tau_nr c)) (fun _ _ => None) (sc_ems c),
   match phase_of (sc_phase c) with Some p => p | None => PhIsotropic end).
Definition scene_of (ns : list placed) : kscene :=
  let node {A} (d : A) (f : placed -> smaterial -> A) i :=
    match nth_error ns i with
    | Some n => match p_material n with Some m => f n m | None => d end
    | None => d
    end in
  KScene (List.length ns) 0
    (node rid (fun n _ => p_to_root n)) (node rid (fun n _ => ainv (p_to_root n)))
    (node (KernelModel.Box vzero) (fun n _ => match shape_of (p_geometry n) with Some s => s | None => KernelModel.Box vzero end))
    (node 0 (fun _ m => sm_index m))
    (node false (fun _ m => match sm_delegate m with FresnelDelegate => true | _ => false end))
    (node [] (fun _ m => map comp_of (sm_comps m))).

Lemma compiled_same_scene root T root_id : spectra_built root -> compile_scene root = Some (T, root_id) ->
  same_scene (read_scene T root_id) (scene_of (geometry_nodes root)).
Proof.
  intros B H. destruct (compiled_nodes _ _ _ B H) as (-> & W & N).
  set (ns := geometry_nodes root) in *.
  assert (Out : forall i, nth_error ns i = None -> forall (X : Type) (l : list X), List.length l = List.length ns -> forall d, nth i l d = d).
  { intros i Hi X l L d. apply nth_overflow. rewrite L. apply nth_error_None. exact Hi. }
  destruct W.
  constructor; unfold read_scene, scene_of; cbn [k_nodes k_root k_l2w k_w2l k_shape k_idx k_fresnel k_comps]; try assumption; try reflexivity;
    intros i; (destruct (nth_error ns i) as [n|] eqn:Ei; [destruct (N i n Ei) as
      (m & gt & gp & l2w & w2l & st & s & h1 & h2 & h3 & h4 & h5 & h6 & h7 & h8 & h9 & h10 & h11 & h12 & h13 & h14); rewrite h1|]).
  - unfold compile_transform in h3. destruct (rigid_check _); [|discriminate]. injection h3 as <- <-. apply (nth_some _ _ _ _ h8).
  - apply Out; assumption.
  - unfold compile_transform in h3. destruct (rigid_check _); [|discriminate]. injection h3 as <- <-. apply (nth_some _ _ _ _ h9).
  - apply Out; assumption.
  - unfold read_shape. rewrite (nth_some _ _ _ [] h7), (nth_some _ _ _ 0%nat h6). cbv zeta.
    destruct (p_geometry n) as [[a b c]|r|l r|]; cbn in h2; try discriminate; injection h2 as <- <-; reflexivity.
  - unfold read_shape. rewrite (Out i Ei _ _ wi_gp), (Out i Ei _ _ wi_gt). reflexivity.
  - apply (nth_some _ _ _ _ h10).
  - apply Out; assumption.
  - rewrite (nth_some _ _ _ _ h11). destruct (sm_delegate m); cbn in h4; try discriminate; injection h4 as <-; reflexivity.
  - rewrite (Out i Ei _ _ wi_surf). reflexivity.
  - rewrite (nth_some _ _ _ _ h12), (nth_some _ _ _ _ h13).
    assert (G : forall l t, (forall k c, nth_error l k = Some c -> exists r, nth_error (t_rows T) (t + k) = Some r /\ row_ok T c r) ->
              Forall2 same_comp (map (read_component T) (seq t (List.length l))) (map comp_of l)).
    { induction l as [|c l IH]; intros t Hl; cbn [List.length seq map]; constructor.
      - destruct (Hl 0%nat c eq_refl) as (r & Hr & Ho). rewrite Nat.add_0_r in Hr.
        destruct (read_component_ok _ _ _ _ Hr Ho) as (cc & ph & E & q1 & q2 & q3 & q4 & q5 & q6 & q7). rewrite E.
        constructor; unfold comp_of; cbn [fst snd c_kind c_qy c_tau_rad c_tau_nr c_dist c_ems]; try assumption.
        + rewrite q1. reflexivity.
        + intros Hk. apply q7. rewrite Hk in q1. destruct (sc_class c); cbn in q1; try discriminate. reflexivity.
        + rewrite q2. reflexivity.
      - apply IH. intros k c' Hk. destruct (Hl (S k) c' Hk) as (r & Hr & Ho).
        exists r. replace (S t + k)%nat with (t + S k)%nat by lia. split; assumption. }
    apply G. intros k c Hk. apply (h14 k c Hk).
  - rewrite (Out i Ei _ _ wi_cc). constructor.
Qed.

(** A photon traced over the flat tables has exactly the history, tallies and fate it has in
    the scene they were made from, for all random numbers, limits and emission methods. *)
Theorem C90_same_histories : forall root T root_id,
  spectra_built root -> compile_scene root = Some (T, root_id) ->
  forall fuel budget maxsteps m us r,
    trace_one fuel (read_scene T root_id) budget maxsteps m us r
    = trace_one fuel (scene_of (geometry_nodes root)) budget maxsteps m us r.
Proof.
  intros root T root_id B H fuel budget maxsteps m us r. apply same_trace. apply compiled_same_scene; assumption.
Qed.
Print Assumptions C90_same_histories.

(** ** C91 *)
Lemma tol_bounds : 0 < otol /\ otol <= 1 / 1000000000 /\ 0 < dtol /\ dtol <= 10001 / 1000000000.
Proof. unfold otol, dtol. lra. Qed.

Lemma Rabs_le_inv x d : Rabs x <= d -> - d <= x <= d.
Proof. intros H. unfold Rabs in H. destruct (Rcase_abs x); lra. Qed.

(** determinant of R Rᵀ *)
Lemma det_gram m : mdet m * mdet m =
  let a := dot (r1 m) (r1 m) in let b := dot (r2 m) (r2 m) in let c := dot (r3 m) (r3 m) in
  let d := dot (r1 m) (r2 m) in let e := dot (r1 m) (r3 m) in let f := dot (r2 m) (r3 m) in
  a * b * c + 2 * d * e * f - a * f * f - b * e * e - c * d * d.
Proof. destruct m as [[a b c] [d e f] [g h i]]. unfold mdet, dot, cross. cbn. ring. Qed.

Lemma small_prod x y d : - d <= x <= d -> - d <= y <= d -> - (d * d) <= x * y <= d * d.
Proof. intros [h1 h2] [h3 h4]. split; nra. Qed.
Lemma rigid_check_det m : rigid_check m = true -> mdet m <> 0.
Proof.
  intros H. apply rigid_check_true in H. destruct H as (h1 & h2 & h3 & h4 & h5 & h6).
  apply Rabs_le_inv in h1, h2, h3, h4, h5, h6. pose proof (det_gram m) as G. cbv zeta in G.
  set (a := dot (r1 m) (r1 m)) in *. set (b := dot (r2 m) (r2 m)) in *. set (c := dot (r3 m) (r3 m)) in *.
  set (d := dot (r1 m) (r2 m)) in *. set (e := dot (r1 m) (r3 m)) in *. set (f := dot (r2 m) (r3 m)) in *.
  clearbody a b c d e f. pose proof tol_bounds as (t1 & t2 & t3 & t4).
  assert (A : 9 / 10 <= a <= 11 / 10) by lra. assert (B : 9 / 10 <= b <= 11 / 10) by lra. assert (C : 9 / 10 <= c <= 11 / 10) by lra.
  assert (D : - (1 / 100) <= d <= 1 / 100) by lra. assert (E : - (1 / 100) <= e <= 1 / 100) by lra. assert (F : - (1 / 100) <= f <= 1 / 100) by lra.
  clear h1 h2 h3 h4 h5 h6 t1 t2 t3 t4.
  assert (ab : 81 / 100 <= a * b) by nra. assert (abc : 7 / 10 <= a * b * c) by nra.
  assert (ff : 0 <= f * f <= 1 / 10000) by nra. assert (ee : 0 <= e * e <= 1 / 10000) by nra. assert (dd : 0 <= d * d <= 1 / 10000) by nra.
  assert (de : - (1 / 10000) <= d * e <= 1 / 10000) by nra. assert (def : - (1 / 10000) <= d * e * f) by nra.
  assert (q1 : a * f * f <= 1 / 1000) by nra. assert (q2 : b * e * e <= 1 / 1000) by nra. assert (q3 : c * d * d <= 1 / 1000) by nra.
  intros Z. rewrite Z in G. lra.
Qed.

(** squared length of R u for u = Rᵀ w *)
Lemma gram_lengths m w : let v := mvec (mtrans m) w in
  let a := dot (r1 m) (r1 m) - 1 in let b := dot (r2 m) (r2 m) - 1 in let c := dot (r3 m) (r3 m) - 1 in
  let d := dot (r1 m) (r2 m) in let e := dot (r1 m) (r3 m) in let f := dot (r2 m) (r3 m) in
  let x := a * vx w + d * vy w + e * vz w in
  let y := d * vx w + b * vy w + f * vz w in
  let z := e * vx w + f * vy w + c * vz w in
  dot v v = dot w w + (vx w * x + vy w * y + vz w * z) /\
  dot (mvec m v) (mvec m v) - dot v v = (vx w * x + vy w * y + vz w * z) + (x * x + y * y + z * z).
Proof. destruct m as [[a b c] [d e f] [g h i]], w as [x y z]. unfold mvec, mtrans, dot. cbn. split; ring. Qed.

Lemma cs3 a b c x y z : (a * x + b * y + c * z) * (a * x + b * y + c * z) <= (a * a + b * b + c * c) * (x * x + y * y + z * z).
Proof.
  pose proof (cauchy_schwarz_sq (V a b c) (V x y z)) as H. unfold dot in H. cbn in H. exact H.
Qed.
Lemma row_small a d e q t x y z : - t <= a <= t -> - q <= d <= q -> - q <= e <= q ->
  (a * x + d * y + e * z) * (a * x + d * y + e * z) <= (t * t + 2 * (q * q)) * (x * x + y * y + z * z).
Proof.
  intros ha hd he. eapply Rle_trans; [apply cs3|]. apply Rmult_le_compat_r; [nra|].
  pose proof (small_prod a a t ha ha). pose proof (small_prod d d q hd hd). pose proof (small_prod e e q he he). lra.
Qed.
Lemma quad_small a b c d e f q t x y z : - t <= a <= t -> - t <= b <= t -> - t <= c <= t ->
  - q <= d <= q -> - q <= e <= q -> - q <= f <= q ->
  Rabs (x * (a * x + d * y + e * z) + y * (d * x + b * y + f * z) + z * (e * x + f * y + c * z)) <= (t + 2 * q) * (x * x + y * y + z * z).
Proof.
  intros ha hb hc hd he hf.
  assert (Q : forall s k u v, - k <= s <= k -> Rabs (2 * s * (u * v)) <= k * (u * u + v * v)).
  { intros s k u v Hs. apply Rabs_le. assert (0 <= k) by lra.
    pose proof (Rle_0_sqr (u - v)) as P. pose proof (Rle_0_sqr (u + v)) as M. unfold Rsqr in P, M.
    assert (U : - (u * u + v * v) <= 2 * (u * v) <= u * u + v * v) by lra.
    pose proof (small_prod s (2 * (u * v)) 0). destruct U as [U1 U2]. destruct Hs as [S1 S2].
    assert (K : k * - (u * u + v * v) <= k * (2 * (u * v)) <= k * (u * u + v * v)) by (split; apply Rmult_le_compat_l; lra).
    split; nra. }
  assert (P : forall s k u, - k <= s <= k -> Rabs (s * (u * u)) <= k * (u * u)).
  { intros s k u Hs. apply Rabs_le. pose proof (Rle_0_sqr u) as U. unfold Rsqr in U. split; nra. }
  pose proof (Rle_0_sqr x) as X. pose proof (Rle_0_sqr y) as Y. pose proof (Rle_0_sqr z) as Z. unfold Rsqr in X, Y, Z.
  pose proof (Q d q x y hd) as q1. pose proof (Q e q x z he) as q2. pose proof (Q f q y z hf) as q3.
  pose proof (P a t x ha) as p1. pose proof (P b t y hb) as p2. pose proof (P c t z hc) as p3.
  apply Rabs_le_inv in q1, q2, q3, p1, p2, p3. apply Rabs_le.
  replace (x * (a * x + d * y + e * z) + y * (d * x + b * y + f * z) + z * (e * x + f * y + c * z))
    with (a * (x * x) + b * (y * y) + c * (z * z) + 2 * d * (x * y) + 2 * e * (x * z) + 2 * f * (y * z)) by ring.
  replace ((t + 2 * q) * (x * x + y * y + z * z))
    with (t * (x * x) + t * (y * y) + t * (z * z) + q * (x * x + y * y) + q * (x * x + z * z) + q * (y * y + z * z)) by ring.
  lra.
Qed.

Lemma rigid_check_lengths m u : rigid_check m = true ->
  Rabs (dot (mvec m u) (mvec m u) - dot u u) <= 11 / 1000000 * dot u u.
Proof.
  intros H. pose proof (rigid_check_det m H) as D. apply rigid_check_true in H. destruct H as (h1 & h2 & h3 & h4 & h5 & h6).
  apply Rabs_le_inv in h1, h2, h3, h4, h5, h6.
  assert (E : u = mvec (mtrans m) (mvec (minv (mtrans m)) u)).
  { rewrite <- mvec_mmul, minv_r, mvec_id; [reflexivity|]. rewrite mdet_trans. exact D. }
  set (w := mvec (minv (mtrans m)) u) in *. clearbody w. subst u.
  pose proof (gram_lengths m w) as G. cbv zeta in G.
  set (v := mvec (mtrans m) w) in *. clearbody v.
  set (a := dot (r1 m) (r1 m) - 1) in *. set (b := dot (r2 m) (r2 m) - 1) in *. set (c := dot (r3 m) (r3 m) - 1) in *.
  set (d := dot (r1 m) (r2 m)) in *. set (e := dot (r1 m) (r3 m)) in *. set (f := dot (r2 m) (r3 m)) in *.
  clearbody a b c d e f. destruct w as [x y z]. cbn [vx vy vz] in G.
  destruct G as [G1 G2]. rewrite G2.
  pose proof (quad_small a b c d e f otol dtol x y z h1 h2 h3 h4 h5 h6) as q0.
  pose proof (row_small a d e otol dtol x y z h1 h4 h5) as q1.
  pose proof (row_small b d f otol dtol y x z h2 h4 h6) as q2.
  pose proof (row_small c e f otol dtol z x y h3 h5 h6) as q3.
  unfold dot in G1. cbn [vx vy vz] in G1. fold (dot v v) in G1.
  set (X := a * x + d * y + e * z) in *. set (Y := d * x + b * y + f * z) in *. set (Z := e * x + f * y + c * z) in *.
  assert (q2' : Y * Y <= (dtol * dtol + 2 * (otol * otol)) * (x * x + y * y + z * z)).
  { replace Y with (b * y + d * x + f * z) by (unfold Y; ring). replace (x * x + y * y + z * z) with (y * y + x * x + z * z) by ring. exact q2. }
  assert (q3' : Z * Z <= (dtol * dtol + 2 * (otol * otol)) * (x * x + y * y + z * z)).
  { replace Z with (c * z + e * x + f * y) by (unfold Z; ring). replace (x * x + y * y + z * z) with (z * z + x * x + y * y) by ring. exact q3. }
  clear q2 q3. set (W := x * x + y * y + z * z) in *.
  assert (HW : 0 <= W) by (unfold W; nra). set (S := x * X + y * Y + z * Z) in *.
  assert (P0 : 0 <= X * X + Y * Y + Z * Z) by nra.
  change (vx (V x y z) * vx (V x y z)) with (x * x) in G1.
  set (vv := dot v v) in *. change (x * x + y * y + z * z) with W in G1.
  assert (hW : vv = W + S) by exact G1.
  assert (HP : X * X + Y * Y + Z * Z <= 3 * (dtol * dtol + 2 * (otol * otol)) * W) by lra.
  clearbody X Y Z vv S. clearbody W. set (P := X * X + Y * Y + Z * Z) in *. clearbody P.
  pose proof tol_bounds as (t1 & t2 & t3 & t4).
  assert (k1 : dtol * dtol + 2 * (otol * otol) <= 2 / 10000000000) by nra.
  assert (k2 : (dtol + 2 * otol) * W <= 10003 / 1000000000 * W) by (apply Rmult_le_compat_r; lra).
  assert (k3 : 3 * (dtol * dtol + 2 * (otol * otol)) * W <= 6 / 10000000000 * W) by (apply Rmult_le_compat_r; lra).
  apply Rabs_le_inv in q0. apply Rabs_le. lra.
Qed.

(** Nodes placed by translations and rotations are always accepted ... *)
Definition poses_rigid (root : stree) : Prop :=
  forall poses n, chain root poses n -> Forall wf_rigid poses.
Lemma wf_fold poses : forall g, wf_rigid g -> Forall wf_rigid poses -> wf_rigid (fold_left rcomp poses g).
Proof.
  induction poses as [|p poses IH]; intros g Hg Hp; [exact Hg|]. apply Forall_cons_iff in Hp. destruct Hp as [h1 h2].
  cbn. apply IH; [apply wf_rcomp; assumption|exact h2].
Qed.
Lemma allclose_refl x : np_allclose1 x x = true.
Proof.
  unfold np_allclose1. apply Rleb_true. rewrite Rminus_diag_eq, Rabs_R0 by reflexivity.
  pose proof (Rabs_pos x). assert (0 <= / 10 ^ 5 * Rabs x) by (apply Rmult_le_pos; lra). lra.
Qed.
Lemma orthogonal_check m : orthogonal m -> rigid_check m = true.
Proof.
  intros [_ H]. unfold rigid_check. rewrite H. cbv zeta. unfold np_allclose3. rewrite !allclose_refl. reflexivity.
Qed.
Theorem C91_rotated_nodes_accepted : forall root n,
  poses_rigid root -> In n (geometry_nodes root) ->
  compile_transform (p_to_root n) = Some (p_to_root n, ainv (p_to_root n)) /\
  (forall p, to_point (ainv (p_to_root n)) (to_point (p_to_root n) p) = p) /\
  (forall p q, distance_between (to_point (p_to_root n) p) (to_point (p_to_root n) q) = distance_between p q).
Proof.
  intros root n H Hn. destruct (preorder_in _ _ _ Hn) as (poses & Hc & E).
  assert (W : wf_rigid (p_to_root n)) by (rewrite E; apply wf_fold; [apply wf_rid|eapply H; exact Hc]).
  split; [unfold compile_transform; rewrite orthogonal_check by exact W; reflexivity|].
  split; [intros p; apply ainv_point_l, wf_invertible, W|]. intros p q. apply to_point_distance, W.
Qed.
Print Assumptions C91_rotated_nodes_accepted.

(** ... and the tables hold the composed frame and its inverse. *)
Theorem C91_frames_compose : forall root n,
  In n (geometry_nodes root) -> forall l2w w2l, compile_transform (p_to_root n) = Some (l2w, w2l) ->
  (exists poses, chain root poses n /\ forall x, to_point l2w x = fold_right to_point x poses) /\
  (forall p, to_point w2l (to_point l2w p) = p) /\ (forall p, to_point l2w (to_point w2l p) = p) /\
  (forall v, to_vector l2w (to_vector w2l v) = v).
Proof.
  intros root n Hn l2w w2l H. unfold compile_transform in H. destruct (rigid_check (rot (p_to_root n))) eqn:Er; [|discriminate].
  injection H as <- <-. assert (I : invertible (p_to_root n)) by (apply rigid_check_det; exact Er).
  split; [|split; [|split]].
  - destruct (preorder_in _ _ _ Hn) as (poses & Hc & E). exists poses. split; [exact Hc|].
    intros x. rewrite E, to_point_chain. apply to_point_rid.
  - intros p. apply ainv_point_l, I.
  - intros p. apply ainv_point_r, I.
  - intros v. apply ainv_vector_r, I.
Qed.
Print Assumptions C91_frames_compose.

(** The comparison has a relative tolerance of 1e-5 that atol=1e-9 does not switch off:
    a node enlarged by four parts per million is accepted, and its distances are wrong. *)
Definition enlarged : rigid := Rigid (mscale (1 + 4 / 1000000) mid) vzero.
Lemma enlarged_check : rigid_check (rot enlarged) = true.
Proof.
  assert (E : mmul (rot enlarged) (mtrans (rot enlarged)) = M (V (1000008000016 / 1000000000000) 0 0)
    (V 0 (1000008000016 / 1000000000000) 0) (V 0 0 (1000008000016 / 1000000000000))).
  { unfold enlarged, mscale, mid, mmul, mtrans, vscale, dot. cbn [rot r1 r2 r3 vx vy vz].
    apply mat_eq; cbn [r1 r2 r3]; apply vec_eq; cbn [vx vy vz]; lra. }
  unfold rigid_check. cbv zeta. rewrite E. unfold np_allclose3, mid. cbn [r1 r2 r3 vx vy vz].
  rewrite !allclose_refl. unfold np_allclose1. rewrite (proj2 (Rleb_true _ _)); [reflexivity|].
  rewrite Rabs_R1, Rabs_right by lra. lra.
Qed.
Theorem C91_accepted_nodes_are_rigid_refuted : exists g l2w w2l p q,
  compile_transform g = Some (l2w, w2l) /\
  distance_between (to_point l2w p) (to_point l2w q) <> distance_between p q.
Proof.
  exists enlarged, enlarged, (ainv enlarged), (V 1 0 0), vzero. split.
  - unfold compile_transform. rewrite enlarged_check. reflexivity.
  - unfold distance_between, norm.
    replace (dot (vsub (V 1 0 0) vzero) (vsub (V 1 0 0) vzero)) with 1 by (unfold dot, vsub, vzero; cbn; lra).
    replace (dot _ _) with (1000008000016 / 1000000000000)
      by (unfold dot, vsub, vzero, enlarged, to_point, mvec, mscale, mid, vscale, vadd, dot; cbn [rot tra r1 r2 r3 vx vy vz]; lra).
    rewrite sqrt_1. intros H. assert (H2 : sqrt (1000008000016 / 1000000000000) * sqrt (1000008000016 / 1000000000000) = 1) by (rewrite H; lra).
    rewrite sqrt_sqrt in H2 by lra. lra.
Qed.
Print Assumptions C91_accepted_nodes_are_rigid_refuted.

(** What is guaranteed: squared distances are kept to eleven parts per million ... *)
Theorem C91_distances_kept_partial : forall g l2w w2l p q,
  compile_transform g = Some (l2w, w2l) ->
  Rabs (Rsqr (distance_between (to_point l2w p) (to_point l2w q)) - Rsqr (distance_between p q))
  <= 11 / 1000000 * Rsqr (distance_between p q).
Proof.
  intros g l2w w2l p q H. unfold compile_transform in H. destruct (rigid_check (rot g)) eqn:Er; [|discriminate].
  injection H as <- _. unfold distance_between, Rsqr. rewrite !norm_sq, to_point_sub. unfold to_vector.
  apply rigid_check_lengths. exact Er.
Qed.
Print Assumptions C91_distances_kept_partial.

(** ... and a node enlarged or shrunk along one of its axes by more than that is refused. *)
Theorem C91_scaled_nodes_refused_partial : forall g u,
  Rabs (dot (to_vector g u) (to_vector g u) - dot u u) > 11 / 1000000 * dot u u -> compile_transform g = None.
Proof.
  intros g u H. unfold compile_transform. destruct (rigid_check (rot g)) eqn:Er; [|reflexivity].
  pose proof (rigid_check_lengths _ u Er) as K. unfold to_vector in H. lra.
Qed.
Print Assumptions C91_scaled_nodes_refused_partial.

Example C91_example_refused : compile_transform (Rigid (mscale 2 mid) vzero) = None.
Proof.
  apply (C91_scaled_nodes_refused_partial _ (V 1 0 0)).
  unfold to_vector, mvec, mscale, mid, vscale, dot. cbn [rot r1 r2 r3 vx vy vz]. rewrite Rabs_right; lra.
Qed.

(** ** A scene: a world sphere holding a box with a dye and a background absorber; the box
    is moved to x = 1 and holds a rod at z = 2 of the box frame *)
Definition air : smaterial := SMaterial 1 FresnelDelegate [].
Definition dye : scomp := SComp ClsLuminophore "dye" SIsotropic (DTable false [400; 600] [3; 1] [0; 1])
  (DTable false [500; 700] [2; 2] [0; 1]) (9 / 10) (Some 5) None.
Definition loss : scomp := SComp ClsAbsorber "loss" SIsotropic (DConst (1 / 50)) (DConst 0) 0 None None.
Definition plastic : smaterial := SMaterial (3 / 2) FresnelDelegate [dye; loss].
Definition mirror : smaterial := SMaterial 1 NullDelegate [loss].
Definition demo : stree :=
  SNode 7 "world" (translation_matrix (V 9 9 9)) (Some (GSphere 10, Some air))
    [SNode 3 "holder" (translation_matrix (V 1 0 0)) None
       [SNode 4 "box" (translation_matrix (V 0 1 0)) (Some (GBox (V 1 2 3), Some plastic))
          [SNode 5 "rod" (translation_matrix (V 0 0 2)) (Some (GCylinder 1 (1 / 4), Some mirror)) []]]].

Example C90_demo_nodes : map (fun n => (p_name n, tra (p_to_root n))) (geometry_nodes demo)
  = [("world", V 0 0 0); ("box", V 1 1 0); ("rod", V 1 1 2)]%string.
Proof.
  unfold geometry_nodes, demo, rid, vzero, translation_matrix. cbn [preorder flat_map app map p_name p_to_root].
  unfold rcomp, mvec, mid, dot, vadd. cbn [rot tra vx vy vz r1 r2 r3].
  assert (E : forall (a b : string * vec) l l', a = b -> l = l' -> a :: l = b :: l') by (intros; congruence).
  assert (F : forall (a : string) (u v : vec), u = v -> (a, u) = (a, v)) by (intros; congruence).
  repeat apply E; try reflexivity; apply F; apply vec_eq; cbv [dot vx vy vz mvec r1 r2 r3 vadd rot tra mmul mtrans to_point]; ring.
Qed.
Example C90_demo_built : spectra_built demo.
Proof.
  assert (T : forall a b y0 y1, a < b -> 0 < y0 -> 0 <= y1 -> built (DTable false [a; b] [y0; y1] [0; 1])).
  { intros a b y0 y1 Hab H0 H1. right. exists [a; b], [y0; y1], false. split; [reflexivity|]. unfold mk_dist. cbn [ascending].
    rewrite (proj2 (Rltb_true 0 (b - a))) by lra. cbn [andb negb existsb].
    rewrite (proj2 (Rltb_false y0 0)), (proj2 (Rltb_false y1 0)) by lra. cbn [orb].
    unfold cumsum. cbn [midpoints cumsum_from]. cbv zeta. unfold np_max. cbn [fold_left].
    rewrite (proj2 (Reqb_false _ 0)) by lra. cbn [map]. do 4 f_equal. field. lra. }
  intros n m c Hn Hm Hc. unfold geometry_nodes, demo in Hn. cbn [preorder flat_map app] in Hn.
  destruct Hn as [ <- | [ <- | [ <- | [] ] ] ]; cbn [p_material] in Hm; injection Hm as <-; cbn [sm_comps air plastic mirror] in Hc.
  - destruct Hc.
  - destruct Hc as [ <- | [ <- | [] ] ]; cbn [sc_abs sc_ems dye loss].
    + split; apply T; lra.
    + split; left; eexists; reflexivity.
  - destruct Hc as [ <- | [] ]. split; left; eexists; reflexivity.
Qed.
Example C90_demo_compiles : exists T, compile_scene demo = Some (T, 0%nat) /\
  t_names T = ["world"; "box"; "rod"]%string /\ t_comp_names T = ["dye"; "loss"; "loss"]%string /\
  t_comp_start T = [0; 0; 2]%nat /\ t_comp_count T = [0; 2; 1]%nat /\ t_abs_x T = [400; 600; 0; 0] /\
  k_coefficient (c_dist (fst (nth 1 (k_comps (read_scene T 0) 1) (fst (comp_of dye), PhIsotropic)))) 555 = 1 / 50.
Proof.
  assert (K : forall g, orthogonal (rot g) -> compile_transform g = Some (g, ainv g)).
  { intros g Hg. unfold compile_transform. rewrite orthogonal_check by exact Hg. reflexivity. }
  assert (O : orthogonal (rot (rcomp (rcomp rid (translation_matrix (V 1 0 0))) (translation_matrix (V 0 1 0))))).
  { apply wf_rcomp; [apply wf_rcomp; [apply wf_rid|]|]; exact orthogonal_id. }
  assert (O2 : orthogonal (rot (rcomp (rcomp (rcomp rid (translation_matrix (V 1 0 0))) (translation_matrix (V 0 1 0))) (translation_matrix (V 0 0 2))))).
  { apply wf_rcomp; [exact O|exact orthogonal_id]. }
  unfold compile_scene, demo, geometry_nodes. cbn [preorder flat_map app index_of p_id Nat.eqb].
  pose proof (K _ wf_rid) as K0. apply K in O, O2.
  set (g2 := rcomp (rcomp (rcomp rid _) _) _) in *. set (g1 := rcomp (rcomp rid _) _) in *. set (g0 := rid) in *. clearbody g0 g1 g2.
  set (i0 := ainv g0) in *. set (i1 := ainv g1) in *. set (i2 := ainv g2) in *. clearbody i0 i1 i2.
  cbn [compile_nodes]. unfold compile_node. cbn [p_geometry p_to_root p_material p_name compile_geometry].
  rewrite K0, O, O2. eexists. split; [lazy -[Rplus Rmult Rinv Rminus Rdiv IZR Rltb Rleb Reqb Ropp]; reflexivity|]. cbn. do 5 (split; [reflexivity|]). reflexivity.
Qed.
