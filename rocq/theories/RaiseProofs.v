(** Lemmas for RaiseProps.v: where normals and reflectivities exist, and the face of a spherical
    world that every ray from inside meets once. *)
From Coq Require Import Reals Lra Lia Psatz List Bool Arith Permutation.
From Verif Require Import Base Vec Interp DistModel DistProofs DistProps MaterialModel MaterialSpec MaterialProofs MaterialProps
  OpticsModel OpticsProofs OpticsProps PhaseModel PhaseProofs TransformModel TransformProofs GeomModel GeomProofs GeomProps
  TracerModel TracerProofs TracerProps KernelModel KernelProofs KernelSim KernelProps CompilerModel EndModel EndProps.
Import ListNotations.
Open Scope R_scope.

(** ** Surface points of boxes *)
(** within EPS_ZERO of one of the two planes of a box that cut this axis *)
Definition near_plane (x s : R) : Prop := Rabs (Rabs x - s / 2) < EPS_ZERO.
(** not within EPS_ZERO of two planes that meet in an edge *)
Definition off_edges (size p : vec) : Prop :=
  ~ (near_plane (vx p) (vx size) /\ near_plane (vy p) (vy size)) /\
  ~ (near_plane (vx p) (vx size) /\ near_plane (vz p) (vz size)) /\
  ~ (near_plane (vy p) (vy size) /\ near_plane (vz p) (vz size)).

Lemma near_of_lo x s : 0 < s -> Rabs (x + s / 2) < EPS_ZERO -> - (s / 2) <= x <= s / 2 -> EPS_ZERO <= s -> near_plane x s.
Proof.
  intros Hs H Hx Hb. unfold near_plane. apply Rabs_def2 in H. destruct (Rle_dec 0 x).
  - rewrite (Rabs_right x) by lra. apply Rabs_def1; lra.
  - rewrite (Rabs_left x) by lra. apply Rabs_def1; lra.
Qed.
Lemma near_of_hi x s : 0 < s -> Rabs (x - s / 2) < EPS_ZERO -> - (s / 2) <= x <= s / 2 -> EPS_ZERO <= s -> near_plane x s.
Proof.
  intros Hs H Hx Hb. unfold near_plane. apply Rabs_def2 in H. destruct (Rle_dec 0 x).
  - rewrite (Rabs_right x) by lra. apply Rabs_def1; lra.
  - rewrite (Rabs_left x) by lra. apply Rabs_def1; lra.
Qed.
Lemma face_near x s : EPS_ZERO <= s -> Rabs x = s / 2 -> near_plane x s /\
  (Rabs (x + s / 2) < EPS_ZERO /\ ~ Rabs (x - s / 2) < EPS_ZERO \/ ~ Rabs (x + s / 2) < EPS_ZERO /\ Rabs (x - s / 2) < EPS_ZERO).
Proof.
  intros Hs H. pose proof EPS_pos as Ep. split; [unfold near_plane; rewrite H, Rminus_diag_eq, Rabs_R0 by reflexivity; exact Ep|].
  destruct (Rle_dec 0 x).
  - rewrite Rabs_right in H by lra. right. subst. split; [intros Q; apply Rabs_def2 in Q; lra|]. rewrite Rminus_diag_eq, Rabs_R0 by lra. exact Ep.
  - rewrite Rabs_left in H by lra. left. split; [replace (x + s / 2) with 0 by lra; rewrite Rabs_R0; exact Ep|]. intros Q; apply Rabs_def2 in Q; lra.
Qed.
Lemma box_normal_exists size p : EPS_ZERO <= vx size -> EPS_ZERO <= vy size -> EPS_ZERO <= vz size -> on_box size p -> off_edges size p ->
  exists v, box_normal size p = Some v.
Proof.
  intros Bx By Bz [Hin Hon] Hoff. pose proof EPS_pos as Ep.
  unfold box_normal, on_aabb_surface, face_points. simpl combine. simpl filter.
  destruct (dist_axis p (V (- (1/2) * vx size) (vy p) (vz p))) as [D1 _].
  destruct (dist_axis p (V (1/2 * vx size) (vy p) (vz p))) as [D2 _].
  destruct (dist_axis p (V (vx p) (- (1/2) * vy size) (vz p))) as [_ [D3 _]].
  destruct (dist_axis p (V (vx p) (1/2 * vy size) (vz p))) as [_ [D4 _]].
  destruct (dist_axis p (V (vx p) (vy p) (- (1/2) * vz size))) as [_ [_ D5]].
  destruct (dist_axis p (V (vx p) (vy p) (1/2 * vz size))) as [_ [_ D6]].
  simpl in *. rewrite D1, D2, D3, D4, D5, D6 by reflexivity. rewrite !Rabs_Rabsolu. clear D1 D2 D3 D4 D5 D6.
  replace (2 * EPS_ZERO / 2) with EPS_ZERO by field.
  replace (vx p - - (1/2) * vx size) with (vx p + vx size / 2) by field. replace (vx p - 1/2 * vx size) with (vx p - vx size / 2) by field.
  replace (vy p - - (1/2) * vy size) with (vy p + vy size / 2) by field. replace (vy p - 1/2 * vy size) with (vy p - vy size / 2) by field.
  replace (vz p - - (1/2) * vz size) with (vz p + vz size / 2) by field. replace (vz p - 1/2 * vz size) with (vz p - vz size / 2) by field.
  destruct Hin as (Ix & Iy & Iz). destruct Hoff as (O1 & O2 & O3).
  assert (Nx : forall a, near_plane (vx p) (vx size) \/ (~ Rabs (vx p + vx size / 2) < EPS_ZERO /\ ~ Rabs (vx p - vx size / 2) < EPS_ZERO) \/ a).
  { intros a. destruct (Rlt_dec (Rabs (vx p + vx size / 2)) EPS_ZERO); [left; apply near_of_lo; auto; lra|].
    destruct (Rlt_dec (Rabs (vx p - vx size / 2)) EPS_ZERO); [left; apply near_of_hi; auto; lra|auto]. }
  assert (Ny : forall a, near_plane (vy p) (vy size) \/ (~ Rabs (vy p + vy size / 2) < EPS_ZERO /\ ~ Rabs (vy p - vy size / 2) < EPS_ZERO) \/ a).
  { intros a. destruct (Rlt_dec (Rabs (vy p + vy size / 2)) EPS_ZERO); [left; apply near_of_lo; auto; lra|].
    destruct (Rlt_dec (Rabs (vy p - vy size / 2)) EPS_ZERO); [left; apply near_of_hi; auto; lra|auto]. }
  assert (Nz : forall a, near_plane (vz p) (vz size) \/ (~ Rabs (vz p + vz size / 2) < EPS_ZERO /\ ~ Rabs (vz p - vz size / 2) < EPS_ZERO) \/ a).
  { intros a. destruct (Rlt_dec (Rabs (vz p + vz size / 2)) EPS_ZERO); [left; apply near_of_lo; auto; lra|].
    destruct (Rlt_dec (Rabs (vz p - vz size / 2)) EPS_ZERO); [left; apply near_of_hi; auto; lra|auto]. }
  specialize (Nx False). specialize (Ny False). specialize (Nz False).
  pose proof (face_near (vx p) (vx size) Bx) as Fx. pose proof (face_near (vy p) (vy size) By) as Fy. pose proof (face_near (vz p) (vz size) Bz) as Fz.
  revert Nx Ny Nz Fx Fy Fz Hon O1 O2 O3. clear Ix Iy Iz Bx By Bz.
  generalize (near_plane (vx p) (vx size)) (near_plane (vy p) (vy size)) (near_plane (vz p) (vz size)).
  generalize (Rabs (vx p) = vx size / 2) (Rabs (vy p) = vy size / 2) (Rabs (vz p) = vz size / 2).
  generalize (Rabs (vx p + vx size / 2)) (Rabs (vx p - vx size / 2)) (Rabs (vy p + vy size / 2)) (Rabs (vy p - vy size / 2))
    (Rabs (vz p + vz size / 2)) (Rabs (vz p - vz size / 2)).
  intros x1 x2 y1 y2 z1 z2 px py pz nx ny nz Nx Ny Nz Fx Fy Fz Hon O1 O2 O3.
  assert (Rf : forall a, ~ a < EPS_ZERO -> Rltb a EPS_ZERO = false) by (intros a h; now apply Rltb_false, Rnot_lt_le).
  assert (Rt : forall a, a < EPS_ZERO -> Rltb a EPS_ZERO = true) by (intros a h; now apply Rltb_true).
  destruct Hon as [Hon|[Hon|Hon]].
  - destruct (Fx Hon) as [hn hf]. destruct Ny as [q|[[q1 q2]|[]]]; [exfalso; apply O1; auto|]. destruct Nz as [q|[[q3 q4]|[]]]; [exfalso; apply O2; auto|].
    rewrite (Rf y1), (Rf y2), (Rf z1), (Rf z2) by assumption. destruct hf as [[h1 h2]|[h1 h2]]; rewrite ?(Rt x1), ?(Rt x2), ?(Rf x1), ?(Rf x2) by assumption; cbn; eauto.
  - destruct (Fy Hon) as [hn hf]. destruct Nx as [q|[[q1 q2]|[]]]; [exfalso; apply O1; auto|]. destruct Nz as [q|[[q3 q4]|[]]]; [exfalso; apply O3; auto|].
    rewrite (Rf x1), (Rf x2), (Rf z1), (Rf z2) by assumption. destruct hf as [[h1 h2]|[h1 h2]]; rewrite ?(Rt y1), ?(Rt y2), ?(Rf y1), ?(Rf y2) by assumption; cbn; eauto.
  - destruct (Fz Hon) as [hn hf]. destruct Nx as [q|[[q1 q2]|[]]]; [exfalso; apply O2; auto|]. destruct Ny as [q|[[q3 q4]|[]]]; [exfalso; apply O3; auto|].
    rewrite (Rf x1), (Rf x2), (Rf y1), (Rf y2) by assumption. destruct hf as [[h1 h2]|[h1 h2]]; rewrite ?(Rt z1), ?(Rt z2), ?(Rf z1), ?(Rf z2) by assumption; cbn; eauto.
Qed.
Lemma crosses_on_box size o d t : is_unit d -> crosses size o d t -> on_box size (vadd o (vscale t d)).
Proof.
  intros Hd [Hin Hx]. split; [exact Hin|]. destruct (unit_coords d Hd) as (Dx & Dy & Dz).
  destruct (Req_dec (Rabs (vx (vadd o (vscale t d)))) (vx size / 2)) as [|Nx]; [now left|].
  destruct (Req_dec (Rabs (vy (vadd o (vscale t d)))) (vy size / 2)) as [|Ny]; [auto|].
  destruct (Req_dec (Rabs (vz (vadd o (vscale t d)))) (vz size / 2)) as [|Nz]; [auto|]. exfalso.
  destruct Hin as (Ix & Iy & Iz).
  assert (G : forall a s, - (s / 2) <= a <= s / 2 -> Rabs a <> s / 2 -> 0 < s / 2 - Rabs a).
  { intros a s [h1 h2] h3. assert (Rabs a <= s / 2) by (apply Rabs_le; lra). lra. }
  pose proof (G _ _ Ix Nx) as Gx. pose proof (G _ _ Iy Ny) as Gy. pose proof (G _ _ Iz Nz) as Gz.
  set (gx := vx size / 2 - _) in *. set (gy := vy size / 2 - _) in *. set (gz := vz size / 2 - _) in *.
  destruct (Hx (Rmin gx (Rmin gy gz))) as (s & Hs & Hout).
  { repeat apply Rmin_glb_lt; assumption. }
  pose proof (Rmin_l gx (Rmin gy gz)) as m1. pose proof (Rmin_r gx (Rmin gy gz)) as m2. pose proof (Rmin_l gy gz) as m3. pose proof (Rmin_r gy gz) as m4.
  apply Hout.
  assert (K : forall a b h, Rabs b <= 1 -> Rabs (s - t) < h / 2 - Rabs (a + t * b) -> - (h / 2) <= a + s * b <= h / 2).
  { intros a b h Hb Hst. assert (E : a + s * b = (a + t * b) + (s - t) * b) by ring. rewrite E.
    assert (Rabs ((s - t) * b) <= Rabs (s - t)) by (rewrite Rabs_mult; pose proof (Rabs_pos (s - t)); nra).
    pose proof (Rle_abs (a + t * b)). pose proof (Rle_abs (- (a + t * b))). rewrite Rabs_Ropp in *.
    pose proof (Rle_abs ((s - t) * b)). pose proof (Rle_abs (- ((s - t) * b))). rewrite Rabs_Ropp in *. lra. }
  unfold in_box, vadd, vscale in *; cbn [vx vy vz] in *. repeat split; apply K; try assumption; unfold gx, gy, gz in *; lra.
Qed.

(** ** Cylinders *)
Lemma cylinder_normal_exists l r p : 0 < l -> 0 < r -> on_cylinder l r p -> exists v, cylinder_normal l r p = Some v.
Proof.
  intros Hl Hr Hon. unfold cylinder_normal.
  assert (Cl : forall a b, a = b -> np_close a b = true).
  { intros a b ->. unfold np_close. rewrite Rminus_diag_eq, Rabs_R0 by reflexivity. apply Rleb_true.
    assert (0 < / 10 ^ 8) by (apply Rinv_0_lt_compat; lra). assert (0 < / 10 ^ 5) by (apply Rinv_0_lt_compat; lra). pose proof (Rabs_pos b). nra. }
  destruct (np_close (vz p) (- (1/2) * l)) eqn:E1; [eauto|]. destruct (np_close (vz p) (1/2 * l)) eqn:E2; [eauto|].
  assert (C : vx p * vx p + vy p * vy p = r * r).
  { destruct Hon as [[H _]|[(_ & [H|H])|(H & _)]]; [exact H| | |exact H]; exfalso.
    - rewrite Cl in E1 by lra. discriminate.
    - rewrite Cl in E2 by lra. discriminate. }
  assert (Hs : sqrt (vx p ^ 2 + vy p ^ 2) = r) by (replace (vx p ^ 2 + vy p ^ 2) with (r * r) by (rewrite <- C; ring); apply sqrt_square; lra).
  rewrite Cl by (now symmetry). unfold unit_vector.
  assert (Hn : norm (V (vx p) (vy p) 0) = r).
  { unfold norm, dot; cbn. replace (vx p * vx p + vy p * vy p + 0 * 0) with (r * r) by lra. apply sqrt_square. lra. }
  rewrite Hn. destruct (Reqb_spec r 0); [lra|eauto].
Qed.

(** ** Fresnel surfaces *)
Lemma fresnel_defined v d n1 n2 : is_unit v -> is_unit d -> 0 < n1 -> 0 < n2 -> dot v d <> 0 ->
  (np_allclose (along v d) d = true -> along v d = d) ->
  exists rho, fresnel_delegate_reflectivity v d n1 n2 = Some rho /\ 0 <= rho <= 1 /\
    (rho <> 1 -> exists t, fresnel_delegate_transmitted v d n1 n2 = Some t).
Proof.
  intros Hv Hd H1 H2 Hdot Hclose. unfold fresnel_delegate_reflectivity, fresnel_delegate_transmitted.
  assert (Um : is_unit (along v d)) by now apply along_unit.
  assert (Pm : 0 < dot (along v d) d).
  { pose proof (along_dot v d) as Q. destruct (Rle_lt_or_eq_dec _ _ Q) as [|E]; [assumption|exfalso]. symmetry in E.
    destruct (along_cases v d) as [C|C]; rewrite C in E; [contradiction|]. rewrite dot_neg_l in E. lra. }
  set (m := along v d) in *. clearbody m. pose proof (unit_dot_range m d Um Hd) as Hr. pose proof PI_RGT_0 as Hpi.
  assert (Ha : exists a, angle_between m d = a /\ 0 <= a < PI / 2 /\ cos a = dot m d).
  { unfold angle_between. destruct (np_allclose m d) eqn:Ec.
    - rewrite (Hclose eq_refl). exists 0. split; [reflexivity|]. split; [lra|]. rewrite cos_0. now symmetry.
    - destruct (np_allclose (vneg m) d) eqn:Ec2.
      { exfalso. apply allclose_dot in Ec2; auto.
        - rewrite dot_neg_l in Ec2. lra.
        - unfold is_unit in *. rewrite dot_neg_l, dot_neg_r. lra. }
      exists (acos (dot m d)). split; [reflexivity|]. split; [|apply cos_acos; lra]. pose proof (acos_bound (dot m d)). split; [lra|].
      destruct (Rlt_dec (acos (dot m d)) (PI / 2)); [assumption|exfalso].
      assert (cos (acos (dot m d)) <= 0) by (apply cos_le_0; lra). rewrite cos_acos in H0 by lra. lra. }
  destruct Ha as (a & -> & Ha & Hc).
  destruct (C37_reflectivity_is_probability a n1 n2 H1 H2 ltac:(lra) ltac:(intros [_ Q]; lra)) as (rho & Er & Hrho).
  exists rho. split; [exact Er|]. split; [exact Hrho|]. intros Hne.
  apply (proj2 (C40_refraction_defined_iff d m n1 n2 H1 H2)).
  assert (Hs : sin a * sin a = 1 - dot d m * dot d m).
  { rewrite (dot_comm d m), <- Hc. pose proof (sin2_cos2 a) as Q. unfold Rsqr in Q. lra. }
  rewrite <- Hs. assert (Hsn : 0 <= sin a) by (apply sin_ge_0; lra).
  destruct (Rle_dec (n1 * sin a) n2) as [L|L].
  - assert (0 <= n1 * sin a) by nra. replace (n1 * n1 * (sin a * sin a)) with ((n1 * sin a) * (n1 * sin a)) by ring. nra.
  - exfalso. apply Hne. rewrite (fresnel_tir a n1 n2 H1 H2 ltac:(lra) ltac:(lra)) in Er. congruence.
Qed.

(** ** Emission without an exception *)
(** The wavelengths from lo to hi are covered by an emission spectrum for the method: *)
Definition emission_covers (m : emit_method) (lo hi : R) (d : dist) : Prop :=
  exists xs ys, List.length xs = List.length ys /\ mk_dist xs ys false = MkOk d /\
  match m with
  | Full => lo <= hd 0 xs /\ last xs 0 <= hi                       (* emits wavelengths between lo and hi *)
  | Redshift => hd 0 xs <= lo /\ last xs 0 = hi                    (* and covers them *)
  | KT => hd 0 xs <= kT_shift lo 300 /\ last xs 0 = hi /\ 0 < lo /\ dist_lookup d lo = Some 0 (* covers what is 3/2 kT shorter than lo, but emits nothing below lo *)
  end.
Lemma kT_mono a b T : 0 < a -> a <= b -> 0 <= T -> kT_shift a T <= kT_shift b T.
Proof.
  intros Ha Hab HT. unfold kT_shift. pose proof kB_pos as HB. set (e := 3 / 2 * kB_eV * T). assert (He : 0 <= e) by (unfold e; nra). clearbody e.
  assert (0 < 1240 / b) by (apply Rdiv_lt_0_compat; lra).
  assert (1240 / b <= 1240 / a) by (apply Rmult_le_compat_l; [lra|]; apply Rinv_le_contravar; lra).
  apply Rmult_le_compat_l; [lra|]. apply Rinv_le_contravar; lra.
Qed.
Lemma kT_below a T : 0 < a -> 0 <= T -> kT_shift a T <= a.
Proof.
  intros Ha HT. unfold kT_shift. pose proof kB_pos as HB. set (e := 3 / 2 * kB_eV * T). assert (He : 0 <= e) by (unfold e; nra). clearbody e.
  assert (Q : 0 < 1240 / a) by (apply Rdiv_lt_0_compat; lra).
  replace a with (1240 / (1240 / a)) at 2 by (field; lra). apply Rmult_le_compat_l; [lra|]. apply Rinv_le_contravar; lra.
Qed.
Lemma emission_defined m lo hi d w u : emission_covers m lo hi d -> lo <= w <= hi -> 0 <= u < 1 ->
  exists w', emit_wavelength d m T_default w u = Some w' /\ lo <= w' <= hi.
Proof.
  intros (xs & ys & Hl & Em & Hc) Hw Hu. unfold T_default.
  assert (Hp : exists p, (match m with KT => dist_lookup d (kT_shift w 300) | Redshift => dist_lookup d w | Full => Some 0 end) = Some p /\ 0 <= p <= 1).
  { destruct m.
    - destruct Hc as (c1 & c2 & c3 & c4). apply (C30_lookup_probability xs ys d _ Hl Em).
      pose proof (kT_mono lo w 300 c3 ltac:(lra) ltac:(lra)). pose proof (kT_below w 300 ltac:(lra) ltac:(lra)). lra.
    - apply (C30_lookup_probability xs ys d _ Hl Em). lra.
    - exists 0. split; [reflexivity|lra]. }
  destruct Hp as (p & Ep & Hp). pose proof (gamma_range p u Hp Hu) as Hg.
  destruct (C30_sample_in_range xs ys d (p + (1 - p) * u) Hl Em ltac:(lra)) as (w' & Es & Hw').
  assert (Ew : emit_wavelength d m 300 w u = Some w') by (unfold emit_wavelength; rewrite Ep; exact Es).
  exists w'. split; [exact Ew|]. destruct m.
  - destruct Hc as (c1 & c2 & c3 & c4). split; [|lra].
    destruct (C30_sample_in_range xs ys d 0 Hl Em ltac:(lra)) as (w0 & E0 & _).
    assert (Q : emit_wavelength d Redshift 300 lo 0 = Some w0) by (unfold emit_wavelength; rewrite c4, Rmult_0_r, Rplus_0_l; exact E0).
    pose proof (C32_redshift_never_gains_energy xs ys d 300 lo 0 w0 Hl Em ltac:(lra) Q).
    pose proof (C30_sample_monotone xs ys d 0 (p + (1 - p) * u) w0 w' Hl Em ltac:(lra) E0 Es). lra.
  - pose proof (C32_redshift_never_gains_energy xs ys d 300 w u w' Hl Em Hu Ew). lra.
  - lra.
Qed.
Definition phase_usable (p : sphase) : Prop :=
  match p with
  | SIsotropic => True
  | SHenyeyGreenstein g => g <> 0 /\ Rabs g < 1
  | SCone t => / 10 ^ 8 < Rabs t /\ t <= PI / 2
  | SCustom => False
  end.
Lemma phase_defined p u v : phase_usable p -> 0 <= u < 1 -> 0 <= v < 1 -> exists d, py_phase p u v = Some d.
Proof.
  intros H Hu Hv. destruct p as [|g|t|]; cbn [py_phase phase_usable] in *; [eauto| | |destruct H].
  - destruct H as [H0 H1]. unfold henyey_greenstein. destruct (Reqb_spec (2 * g) 0); [lra|].
    destruct (Reqb_spec (1 + g * (2 * u - 1)) 0) as [E|_]; [exfalso|cbv zeta; destruct (close_to_zero g); eauto].
    apply Rabs_def2 in H1. nra.
  - destruct H as [H0 H1]. unfold cone. destruct (Rleb_spec (Rabs t) (/ 10 ^ 8)); [lra|]. destruct (Rltb_spec (PI / 2) t); [lra|]. cbn. eauto.
Qed.

(** ** The face of the world *)
Lemma world_once Rw R' o d : 0 <= R' -> R' + / 10 ^ 4 <= Rw -> norm o <= R' -> is_unit d -> exists t, k_intersect_sphere Rw o d = [t].
Proof.
  intros H0 HR Ho Hd. destruct (world_face_ahead Rw R' o d H0 HR Ho Hd) as (t & Ht & Ht0). pose proof EPS_small as He.
  assert (He4 : / 10 ^ 9 < / 10 ^ 4) by (apply Rinv_lt_contravar; simpl; lra).
  assert (P4 : 0 < / 10 ^ 4) by (apply Rinv_0_lt_compat; lra).
  assert (Oo : dot o o < Rw * Rw).
  { rewrite <- norm_sq. pose proof (norm_nonneg o). nra. }
  unfold is_unit in Hd. unfold k_intersect_sphere. cbv zeta. rewrite Hd.
  set (b := 2 * dot d o). set (disc := b * b - 4 * 1 * (dot o o - Rw * Rw)).
  assert (Hdisc : b * b < disc) by (unfold disc; lra).
  destruct (Rltb_spec disc 0); [nra|].
  assert (Hs : Rabs b < sqrt disc).
  { rewrite <- sqrt_Rsqr_abs. apply sqrt_lt_1_alt. unfold Rsqr. split; [nra|exact Hdisc]. }
  apply Rabs_def2 in Hs.
  destruct (Rltb_spec EPS_ZERO ((- b - sqrt disc) / (2 * 1))) as [Q|_]; [exfalso; pose proof EPS_pos; lra|].
  assert (In t (k_intersect_sphere Rw o d)).
  { apply (proj1 (C50_kernel_sphere_exact Rw o d ltac:(lra) Hd)). split; [lra|].
    apply sphere_ts_in in Ht; [destruct Ht as [_ Ht]; exact Ht|lra|now apply unit_nonzero|].
    right. unfold sphere_disc. rewrite Hd. fold b. assert (/ 10 ^ 8 < 4 * (Rw * Rw - dot o o)); [|unfold disc in Hdisc; nra].
    assert (dot o o <= R' * R') by (rewrite <- norm_sq; pose proof (norm_nonneg o); nra).
    assert (/ 10 ^ 4 * / 10 ^ 4 <= Rw * Rw - R' * R') by nra. assert (/ 10 ^ 4 * / 10 ^ 4 = / 10 ^ 8) by (simpl; field). assert (0 < / 10 ^ 8) by (apply Rinv_0_lt_compat; lra). lra. }
  unfold k_intersect_sphere in H. cbv zeta in H. rewrite Hd in H. fold b in H. fold disc in H.
  destruct (Rltb_spec disc 0); [nra|]. destruct (Rltb_spec EPS_ZERO ((- b - sqrt disc) / (2 * 1))) as [Q|_]; [exfalso; pose proof EPS_pos; lra|].
  cbn [app] in *. destruct (Rltb_spec EPS_ZERO ((- b + sqrt disc) / (2 * 1))); [eauto|destruct H].
Qed.
