(** Step-by-step simulation of the Python tracer by the compiled one. *)
From Coq Require Import Reals Lra Psatz List Bool Arith Lia Permutation Sorted.
From Verif Require Import Base Vec Interp DistModel DistProps MaterialModel MaterialSpec MaterialProofs MaterialProps
  OpticsModel OpticsProofs OpticsProps PhaseModel TransformModel GeomModel GeomProofs TracerModel TracerProofs TracerProps
  KernelModel KernelProofs.
Import ListNotations.
Open Scope R_scope.

(** [K] holds the tables compiler.py makes of the scene [S]. *)
Record compiled (S : scene) (K : kscene) : Prop := {
  cp_nodes : (k_nodes K <= 128)%nat;
  cp_root : k_root K = root S;
  cp_frames : forall n, wf_rigid (l2w S n) /\ w2l S n = rinv (l2w S n) /\ k_l2w K n = l2w S n /\ k_w2l K n = w2l S n;
  cp_index : forall n, k_idx K n = n_of S n /\ 0 < n_of S n;
  cp_comps : forall n, map fst (k_comps K n) = comps S n;
  cp_surf : forall n, surf S n = if k_fresnel K n then fresnel_surface (n_of S) (normal_of S) else null_surface;
  cp_normal : forall n p v, normal_of S n p = Some v -> local_normal (k_shape K n) p = v /\ is_unit v;
  (** attenuation and emission tables passed the constructor *)
  cp_coef : forall n c, In c (comps S n) -> good_component c /\ (forall nm a, dist_call (c_dist c) nm = Some a -> 0 <= a);
  cp_life : forall n c, In c (comps S n) -> 0 <= c_tau_rad c /\ 0 <= c_tau_nr c;
  cp_ems : forall n c, In c (comps S n) -> c_kind c = Luminophore ->
    exists xs ys cdf, c_ems c = DTable false xs ys cdf /\ length xs = length ys /\ mk_dist xs ys false = MkOk (DTable false xs ys cdf) }.

(** compiler.py 34-54: the compiled phase function is the component's. *)
Definition compiled_phases (K : kscene) : Prop :=
  forall n c ph, In (c, ph) (k_comps K n) -> forall u v d, 0 <= u < 1 -> 0 <= v < 1 ->
    c_phase c u v = Some d -> k_sample_phase ph u v = d.

(** Nodes that can re-emit are not rotated (see C78). *)
Definition upright (S : scene) : Prop :=
  forall n c, In c (comps S n) -> (c_kind c = Scatterer \/ c_kind c = Luminophore) -> rot (l2w S n) = mid.

(** The draws [v] of the kernel lead to the same outcomes as the draws [u] of Python in the
    pass that starts with [r]: all are equal except the two of the phase function, and
    these make the component chosen in the container send the ray the same way in world
    coordinates. *)
Record same_outcomes (S : scene) (K : kscene) (u v : draws) (r : ray) : Prop := {
  so_draws : v = Draws (u_depth u) (u_comp u) (u_rad u) (u_ph1 v) (u_ph2 v) (u_wl u) (u_tau u) (u_surf u) (u_d1 u) (u_d2 u);
  so_direction : forall h n a D coefs cm ph d, next_hit S r = HitOk h n a D -> coefficients (comps S n) (wavelength r) = Some coefs ->
    nth_error (k_comps K n) (k_select coefs (u_comp u)) = Some (cm, ph) -> is_radiative (c_kind cm) (c_qy cm) (u_rad u) = true ->
    c_phase cm (u_ph1 u) (u_ph2 u) = Some d -> k_sample_phase ph (u_ph1 v) (u_ph2 v) = to_vector (l2w S n) d }.

(** The draws and the geometry of one pass are in general position. *)
Record generic (S : scene) (K : kscene) (u : draws) (r : ray) : Prop := {
  gn_hits : same_hits S K (position r) (direction r);
  gn_draws : wf_draws u /\ 0 < u_comp u /\ 0 < u_wl u;
  gn_choice : forall n coefs i, coefficients (comps S n) (wavelength r) = Some coefs -> 0 < rsum coefs ->
    (i <= length coefs)%nat -> u_comp u * rsum coefs <> psum coefs i;
  gn_angle : forall h c a D v, next_hit S r = HitOk h c a D ->
    let d := to_vector (w2l S h) (direction r) in
    normal_of S h (to_point (w2l S h) (vadd (position r) (vscale D (direction r)))) = Some v ->
    np_allclose (along v d) d = true -> along v d = d }.

Lemma along_frame m n d : orthogonal m -> along (mvec m n) (mvec m d) = mvec m (along n d).
Proof.
  intros Ho. unfold along. rewrite orthogonal_dot by assumption. destruct (Rltb _ _); [now rewrite mvec_neg|reflexivity].
Qed.

Lemma refraction_frame m d n n1 n2 : orthogonal m ->
  fresnel_refraction (mvec m d) (mvec m n) n1 n2 = option_map (mvec m) (fresnel_refraction d n n1 n2).
Proof.
  intros Ho. unfold fresnel_refraction. cbv zeta. rewrite orthogonal_dot by assumption.
  destruct (Rltb _ 0); [reflexivity|]. simpl. now rewrite mvec_add, !mvec_scale.
Qed.

Lemma not_antiparallel n d : is_unit n -> is_unit d -> 0 <= dot n d -> np_allclose (vneg n) d = false.
Proof.
  intros Hn Hd H. destruct (np_allclose (vneg n) d) eqn:E; [|reflexivity]. exfalso.
  unfold np_allclose in E. apply andb_true_iff in E as [E Ez]. apply andb_true_iff in E as [Ex Ey].
  unfold np_close in *. apply Rleb_true in Ex, Ey, Ez.
  assert (B : forall c, c * c <= 1 -> Rabs c <= 1).
  { intros c Hc. apply Rabs_le. split; nra. }
  unfold is_unit, dot in Hn, Hd, H.
  pose proof (B (vx d) ltac:(nra)). pose proof (B (vy d) ltac:(nra)). pose proof (B (vz d) ltac:(nra)).
  assert (S1 : forall a c, Rabs a <= / 10 ^ 8 + / 10 ^ 5 * Rabs c -> Rabs c <= 1 -> a * a <= / 100).
  { intros a c Ha Hc. assert (Ha' : Rabs a <= / 10) by lra.
    assert (Hap := Rabs_pos a). rewrite <- (Rabs_right (a * a)) by (apply Rle_ge, Rle_0_sqr). rewrite Rabs_mult. nra. }
  pose proof (S1 _ _ Ex ltac:(assumption)) as P1. pose proof (S1 _ _ Ey ltac:(assumption)) as P2. pose proof (S1 _ _ Ez ltac:(assumption)) as P3.
  unfold vneg in P1, P2, P3; cbn [vx vy vz] in P1, P2, P3. nra.
Qed.

(** In general position the two incidence angles are equal. *)
Lemma angles_agree m v d : orthogonal m -> is_unit v -> is_unit d ->
  (np_allclose (along v d) d = true -> along v d = d) ->
  angle_between (along v d) d = k_angle (mvec m v) (mvec m d).
Proof.
  intros Ho Hv Hd Hg. unfold k_angle. fold (along (mvec m v) (mvec m d)). rewrite along_frame, orthogonal_dot by assumption.
  pose proof (along_dot v d) as H0. pose proof (along_unit v d Hv) as Hu.
  pose proof (unit_dot_range _ _ Hu Hd) as Hr. cbv zeta.
  rewrite (proj2 (Rltb_false 1 _)) by lra. rewrite (proj2 (Rltb_false _ (-1))) by lra.
  unfold angle_between. destruct (np_allclose (along v d) d) eqn:E.
  - rewrite (Hg eq_refl). unfold is_unit in Hd. rewrite Hd. now rewrite acos_1.
  - now rewrite not_antiparallel.
Qed.

Lemma is_reflected_agree x u : 0 <= u -> k_is_reflected x u = is_reflected x u.
Proof.
  intros Hu. unfold k_is_reflected, is_reflected. destruct (Reqb_spec x 0) as [->|Hx].
  - rewrite (proj2 (Rltb_false 0 0)) by lra. apply Rltb_false. lra.
  - destruct (Rltb_spec 0 x) as [H|H]; [reflexivity|]. rewrite (proj2 (Rltb_false 1 x)) by lra. symmetry. apply Rltb_false. lra.
Qed.

Lemma propagate_agree r t n : 0 < n -> k_propagate r t n = propagate r t n.
Proof. intros Hn. unfold k_propagate, propagate. rewrite flight_time_eq by assumption. f_equal. unfold Rdiv. ring. Qed.

Lemma delay_agree tau u : 0 <= tau -> k_delay tau u = delay tau u.
Proof.
  intros H. unfold k_delay, delay. destruct (Reqb_spec tau 0) as [->|Hn]; [now rewrite (proj2 (Rltb_false 0 0)) by lra|].
  now rewrite (proj2 (Rltb_true 0 tau)) by lra.
Qed.

Lemma coefs_agree cs nm coefs : Forall good_component cs -> coefficients cs nm = Some coefs ->
  map (fun c => k_coefficient (c_dist c) nm) cs = coefs.
Proof.
  intros Hg. revert coefs. induction Hg as [|c cs Hc Hg IH]; intros coefs; simpl; [now injection 1|].
  destruct (dist_call _ _) as [a|] eqn:Ea; [|discriminate]. destruct (coefficients cs nm) as [l|]; [|discriminate].
  injection 1 as <-. now rewrite (good_component_coefficient c nm a Hc Ea), (IH l eq_refl).
Qed.

Lemma coefs_nonneg cs nm coefs : (forall c, In c cs -> forall x a, dist_call (c_dist c) x = Some a -> 0 <= a) ->
  coefficients cs nm = Some coefs -> Forall (fun a => 0 <= a) coefs.
Proof.
  revert coefs. induction cs as [|c cs IH]; intros coefs Hn; simpl; [injection 1 as <-; constructor|].
  destruct (dist_call _ _) as [a|] eqn:Ea; [|discriminate]. destruct (coefficients cs nm) as [l|]; [|discriminate].
  injection 1 as <-. constructor; [now apply (Hn c (or_introl eq_refl) nm)|]. apply IH; [|reflexivity]. intros c' Hc'. apply Hn. now right.
Qed.

Lemma surface_agrees S K u r h c a D : compiled S K -> is_unit (direction r) -> wf_draws u ->
  (forall v, let d := to_vector (w2l S h) (direction r) in
    normal_of S h (to_point (w2l S h) (vadd (position r) (vscale D (direction r)))) = Some v ->
    np_allclose (along v d) d = true -> along v d = d) ->
  match surface_step S u h c a D r with
  | Stop evs => exists ts, k_surface K u h c a D r = KStop evs ts
  | Continue evs r' => exists ts, k_surface K u h c a D r = KContinue evs ts r'
  | Raise _ => True
  end.
Proof.
  intros W Hu Hdraw Hg. unfold surface_step, k_surface. cbv zeta.
  destruct (cp_index _ _ W c) as [-> Hn]. rewrite propagate_agree by assumption.
  set (r1 := propagate r D (n_of S c)).
  destruct (normal_of S h (position (representation (w2l S h) r1))) as [v|] eqn:Ev; [|exact I].
  destruct (cp_frames _ _ W h) as (Wf & Ew & -> & ->).
  assert (Ep : position (representation (w2l S h) r1) = to_point (w2l S h) (position r1)) by reflexivity.
  rewrite Ep in Ev. destruct (cp_normal _ _ W h _ _ Ev) as [-> Hv]. set (d' := to_vector (w2l S h) (direction r)) in *.
  assert (Ed : to_vector (l2w S h) d' = direction r) by (unfold d'; rewrite Ew; now apply rinv_vector_r).
  assert (Hd' : is_unit d') by (unfold d', is_unit; rewrite Ew, to_vector_dot; [exact Hu|now apply wf_rinv]).
  specialize (Hg v Ev).
  assert (Hpos : to_point (l2w S h) (to_point (w2l S h) (position r1)) = position r1) by (rewrite Ew; now apply rinv_point_r).
  assert (Hrep : forall d, representation (l2w S h) (with_direction (representation (w2l S h) r1) d) = with_direction r1 (to_vector (l2w S h) d)).
  { intros d. unfold representation, with_direction; simpl. f_equal. exact Hpos. }
  assert (Hang : angle_between (along v d') d' = k_angle (to_vector (l2w S h) v) (direction r1)).
  { change (direction r1) with (direction r). rewrite <- Ed. apply angles_agree; assumption. }
  assert (Hflip : (if Rltb (dot (to_vector (l2w S h) v) (direction r1)) 0 then vneg (to_vector (l2w S h) v) else to_vector (l2w S h) v)
                  = to_vector (l2w S h) (along v d')).
  { change (direction r1) with (direction r). rewrite <- Ed. exact (along_frame (rot (l2w S h)) v d' Wf). }
  assert (U : 0 <= u_surf u) by apply Hdraw.
  rewrite (cp_surf _ _ W h). destruct (k_fresnel K h).
  - unfold fresnel_surface; cbn [s_reflectivity s_reflected s_transmitted]. rewrite Ep, Ev.
    destruct a as [b|]; [|exact I]. destruct (cp_index _ _ W b) as [-> Hb].
    unfold fresnel_delegate_reflectivity. change (direction (representation (w2l S h) r1)) with d'.
    rewrite Hang. change k_fresnel_reflectivity with fresnel_reflectivity.
    destruct (fresnel_reflectivity _ _ _) as [refl|]; [|exact I]. rewrite is_reflected_agree by exact U.
    destruct (is_reflected refl (u_surf u)).
    + rewrite Hrep. unfold fresnel_delegate_reflected.
      assert (Es : to_vector (l2w S h) (specular_reflection d' v) = k_specular_reflect (direction r1) (to_vector (l2w S h) v)).
      { change k_specular_reflect with specular_reflection. change (direction r1) with (direction r). rewrite <- Ed. symmetry. apply C39_frame_independent. exact Wf. }
      rewrite Es. eexists. reflexivity.
    + unfold fresnel_delegate_transmitted. rewrite Hflip. rewrite refract_eq.
      assert (Et : fresnel_refraction (direction r1) (to_vector (l2w S h) (along v d')) (n_of S c) (n_of S b)
        = option_map (to_vector (l2w S h)) (fresnel_refraction d' (along v d') (n_of S c) (n_of S b))).
      { change (direction r1) with (direction r). rewrite <- Ed at 1. exact (refraction_frame _ _ _ _ _ Wf). }
      rewrite Et.
      destruct (fresnel_refraction d' (along v d') (n_of S c) (n_of S b)) as [t|]; [|exact I]. simpl.
      rewrite Hrep. eexists. reflexivity.
  - unfold null_surface; cbn [s_reflectivity s_reflected s_transmitted].
    unfold null_reflectivity, null_transmitted.
    replace (is_reflected 0 (u_surf u)) with false by (unfold is_reflected; now rewrite (proj2 (Reqb_true 0 0))).
    destruct a as [b|]; [|exact I]. rewrite is_reflected_agree by exact U.
    replace (is_reflected 0 (u_surf u)) with false by (unfold is_reflected; now rewrite (proj2 (Reqb_true 0 0))).
    rewrite Hrep. change (direction (representation (w2l S h) r1)) with d'. rewrite Ed. eexists. reflexivity.
Qed.

Lemma absorb_agrees S K m u v r c x : compiled S K ->
  v = Draws (u_depth u) (u_comp u) (u_rad u) (u_ph1 v) (u_ph2 v) (u_wl u) (u_tau u) (u_surf u) (u_d1 u) (u_d2 u) ->
  (forall coefs cm ph d, coefficients (comps S c) (wavelength r) = Some coefs ->
    nth_error (k_comps K c) (k_select coefs (u_comp u)) = Some (cm, ph) -> is_radiative (c_kind cm) (c_qy cm) (u_rad u) = true ->
    c_phase cm (u_ph1 u) (u_ph2 u) = Some d -> k_sample_phase ph (u_ph1 v) (u_ph2 v) = to_vector (l2w S c) d) ->
  wf_draws u -> 0 < u_comp u -> 0 < u_wl u ->
  (forall coefs i, coefficients (comps S c) (wavelength r) = Some coefs -> 0 < rsum coefs ->
    (i <= length coefs)%nat -> u_comp u * rsum coefs <> psum coefs i) ->
  (forall coefs, coefficients (comps S c) (wavelength r) = Some coefs -> 0 < rsum coefs) ->
  match absorb_step S m u c x r with
  | Stop evs => exists ts, k_absorb K m v c x r = KStop evs ts
  | Continue evs r' => exists ts, k_absorb K m v c x r = KContinue evs ts r'
  | Raise _ => True
  end.
Proof.
  intros W Ev Hph Hu Hc Hw Hg Hpos. unfold absorb_step, k_absorb. cbv zeta.
  rewrite Ev. cbn [u_comp u_rad u_ph1 u_ph2 u_wl u_tau]. clear Ev.
  destruct (cp_index _ _ W c) as [-> Hn]. rewrite propagate_agree by assumption.
  set (r1 := propagate r x (n_of S c)).
  assert (Ewr : wavelength r1 = wavelength r) by reflexivity. clearbody r1. rewrite !Ewr.
  destruct (coefficients (comps S c) (wavelength r)) as [coefs|] eqn:Ec; [|exact I].
  destruct (select_component coefs (u_comp u)) as [k|] eqn:Ek; [|exact I].
  destruct (nth_error (comps S c) k) as [cm|] eqn:En; [|exact I].
  assert (Hgood : Forall good_component (comps S c)) by (apply Forall_forall; intros y Hy; now apply (cp_coef _ _ W c)).
  assert (Hnn : Forall (fun a => 0 <= a) coefs)
    by (apply (coefs_nonneg (comps S c) (wavelength r)); [intros y Hy; now apply (cp_coef _ _ W c)|exact Ec]).
  assert (Hsel : k_select coefs (u_comp u) = k).
  { destruct Hu as (_ & U & _).
    pose proof (C33_engines_choose_alike coefs (u_comp u) Hnn (Hpos coefs eq_refl) ltac:(lra) (fun i => Hg coefs i eq_refl (Hpos coefs eq_refl))) as E.
    congruence. }
  assert (Em : map (fun c0 => k_coefficient (c_dist (fst c0)) (wavelength r)) (k_comps K c) = coefs).
  { rewrite <- (coefs_agree _ _ _ Hgood Ec), <- (cp_comps _ _ W c), map_map. reflexivity. }
  rewrite Em, Hsel.
  assert (Enk : exists ph, nth_error (k_comps K c) k = Some (cm, ph)).
  { rewrite <- (cp_comps _ _ W c) in En. rewrite nth_error_map in En. destruct (nth_error (k_comps K c) k) as [[c' ph]|]; [|discriminate].
    injection En as ->. now exists ph. }
  destruct Enk as (ph & Enk). rewrite Enk.
  assert (Hin : In cm (comps S c)) by (eapply nth_error_In; exact En).
  assert (Hinp : In (cm, ph) (k_comps K c)) by (eapply nth_error_In; exact Enk).
  destruct (cp_life _ _ W c cm Hin) as [T1 T2].
  change k_is_radiative with is_radiative. destruct (is_radiative (c_kind cm) (c_qy cm) (u_rad u)) eqn:Er.
  - unfold emit. destruct (c_phase cm (u_ph1 u) (u_ph2 u)) as [d|] eqn:Ed; [|exact I].
    rewrite (Hph coefs cm ph d eq_refl ltac:(rewrite Hsel; exact Enk) Er Ed).
    destruct (cp_frames _ _ W c) as (Wf & Ew & _ & _).
    assert (Hpt : to_point (l2w S c) (to_point (w2l S c) (position r1)) = position r1) by (rewrite Ew; now apply rinv_point_r).
    destruct (c_kind cm) eqn:Ekind; try discriminate.
    + unfold representation; simpl. rewrite Hpt, ?Ewr. eexists. reflexivity.
    + destruct (cp_ems _ _ W c cm Hin Ekind) as (xs & ys & cdf & -> & Hl & Hmk).
      change (wavelength (representation (w2l S c) r1)) with (wavelength r1). rewrite Ewr.
      destruct (emit_wavelength _ _ _ _ _) as [w|] eqn:Ewl; [|exact I].
      assert (Hwl : k_emit_wavelength xs cdf m (wavelength r) (u_wl u) = w).
      { apply (C68_kernel_emission_agrees xs ys cdf); auto. destruct Hu as (_ & _ & _ & _ & _ & U & _). lra. }
      rewrite Hwl, delay_agree by assumption. unfold representation; simpl. rewrite Hpt, ?Ewr. eexists. reflexivity.
  - rewrite delay_agree by assumption. unfold nonradiative_absorb.
    rewrite ?Ewr. destruct (c_kind cm); eexists; reflexivity.
Qed.

Lemma next_hit_pos S r h c a D : is_unit (direction r) ->
  (forall i, In i (filter (fun i => negb (close_to_zero (h_distance i))) (hits S (position r) (direction r))) ->
     0 <= h_distance i /\ h_point i = at_ray (position r) (direction r) (h_distance i)) ->
  next_hit S r = HitOk h c a D -> 0 < D.
Proof.
  intros Hu Hp. unfold next_hit. cbv zeta. set (l := filter _ _) in *.
  assert (Hpos : forall i, In i l -> 0 < h_distance i).
  { intros i Hi. destruct (Hp i Hi) as [H0 _]. unfold l in Hi. apply filter_In in Hi as [_ Hz].
    unfold close_to_zero in Hz. destruct (Rltb_spec (Rabs (h_distance i)) EPS_ZERO) as [|Hz']; [discriminate|].
    rewrite Rabs_pos_eq in Hz' by lra. pose proof eps_pos. lra. }
  destruct l as [|i [|j l']]; [discriminate| |].
  - injection 1 as _ _ _ <-. apply Hpos. now left.
  - destruct (find_container _); [|discriminate]. injection 1 as _ _ _ <-.
    destruct (Hp i (or_introl eq_refl)) as [H0 ->]. unfold at_ray.
    rewrite distance_along by assumption. apply Hpos. now left.
Qed.

(** One pass: same events, same next ray. *)
Lemma pass_agrees S K ms m u w count r : compiled S K -> same_outcomes S K u w r -> is_unit (direction r) -> generic S K u r ->
  match pass S ms None m u count r with
  | Stop evs => exists ts, k_pass K ms m w count r = KStop evs ts
  | Continue evs r' => exists ts, k_pass K ms m w count r = KContinue evs ts r'
  | Raise _ => True
  end.
Proof.
  intros W So Hu G. destruct (gn_draws _ _ _ _ G) as (Hd & Hc & Hw). unfold pass, k_pass.
  assert (Edep : u_depth w = u_depth u) by (rewrite (so_draws _ _ _ _ _ So); reflexivity).
  assert (Esurf : forall h c a D, k_surface K w h c a D r = k_surface K u h c a D r).
  { intros. unfold k_surface. replace (u_surf w) with (u_surf u) by (rewrite (so_draws _ _ _ _ _ So); reflexivity). reflexivity. }
  destruct (next_hit S r) as [| |h c a D] eqn:En; [|exact I|].
  - pose proof (next_hit_agrees S K r (cp_nodes _ _ W) Hu (gn_hits _ _ _ _ G)) as H. rewrite En in H.
    rewrite H by discriminate. eexists. reflexivity.
  - pose proof (next_hit_agrees S K r (cp_nodes _ _ W) Hu (gn_hits _ _ _ _ G)) as H. rewrite En in H. rewrite H by discriminate. clear H.
    simpl over_path. rewrite orb_false_r. destruct (Nat.ltb ms count); [eexists; reflexivity|].
    rewrite (cp_root _ _ W). destruct (Nat.eqb h (root S)).
    { destruct (cp_index _ _ W c) as [-> Hn]. rewrite propagate_agree by assumption. eexists. reflexivity. }
    destruct (total_attenuation (comps S c) (wavelength r)) as [alpha|] eqn:Et; [|exact I].
    assert (Hgood : Forall good_component (comps S c)) by (apply Forall_forall; intros y Hy; now apply (cp_coef _ _ W c)).
    rewrite (cp_comps _ _ W c), (C35_kernel_total_agrees _ _ _ Hgood Et).
    assert (Hnn : 0 <= alpha).
    { unfold total_attenuation in Et. destruct (coefficients _ _) as [coefs|] eqn:Ec; [|discriminate]. injection Et as <-.
      apply rsum_nonneg. apply (coefs_nonneg (comps S c) (wavelength r)); [intros y Hy; now apply (cp_coef _ _ W c)|exact Ec]. }
    rewrite Edep, C34_kernel_depth_agrees by assumption. rewrite !Esurf.
    assert (Hsurf : match surface_step S u h c a D r with
      | Stop evs => exists ts, k_surface K u h c a D r = KStop evs ts
      | Continue evs r' => exists ts, k_surface K u h c a D r = KContinue evs ts r'
      | Raise _ => True end).
    { apply surface_agrees; auto. intros v d Hv. apply (gn_angle _ _ _ _ G h c a D v En Hv). }
    destruct (penetration_depth alpha (u_depth u)) as [x|] eqn:Ep; [|exact Hsurf].
    destruct (Rltb x D); [|exact Hsurf].
    apply absorb_agrees; auto; [apply (so_draws _ _ _ _ _ So)|intros coefs cm ph d; apply (so_direction _ _ _ _ _ So h c a D _ _ _ _ En)| |].
    + intros coefs i. apply (gn_choice _ _ _ _ G).
    + intros coefs Ec. unfold total_attenuation in Et. rewrite Ec in Et. injection Et as Et. rewrite Et.
      unfold penetration_depth, isclose_zero in Ep. destruct (Rleb_spec (Rabs alpha) alpha_tol) as [|Ht]; [discriminate|].
      rewrite Rabs_pos_eq in Ht by lra. unfold alpha_tol in Ht. lra.
Qed.

(** The same draws give the same outcomes when no re-emitting node is turned. *)
Lemma upright_same_outcomes S K u r : compiled S K -> compiled_phases K -> upright S -> wf_draws u -> same_outcomes S K u u r.
Proof.
  intros W Hp Up Hu. split; [now destruct u|]. intros h n a D coefs cm ph d _ _ Hn Hr Hd. apply nth_error_In in Hn.
  destruct Hu as (_ & _ & _ & U1 & U2 & _). rewrite (Hp n cm ph Hn _ _ d U1 U2 Hd).
  assert (Hin : In cm (comps S n)) by (rewrite <- (cp_comps _ _ W n); apply in_map_iff; now exists (cm, ph)).
  unfold to_vector. rewrite (Up n cm Hin), mvec_id; [reflexivity|]. destruct (c_kind cm); auto; discriminate.
Qed.
