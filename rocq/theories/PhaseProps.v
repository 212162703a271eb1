(** Properties C42-C44, C71: directions and positions of emitted light. *)
From Coq Require Import Reals Lra Psatz List Bool Arith Lia.
From Verif Require Import Base Vec OpticsProofs PhaseModel PhaseProofs.
Import ListNotations.
Open Scope R_scope.

(** ** C42 Phase functions *)
(** Isotropic: unit length and the z coordinate is uniform on [-1,1). *)
Theorem C42_isotropic : forall g1 g2, 0 <= g2 < 1 ->
  is_unit (isotropic g1 g2) /\ vz (isotropic g1 g2) = 2 * g2 - 1.
Proof.
  intros g1 g2 H. split; [apply spherical_unit|]. simpl. apply cos_acos. lra.
Qed.
Print Assumptions C42_isotropic.

(** Lambertian: unit length, upper hemisphere, and cos^2(theta) = 1 - p1, i.e. the
    cosine-weighted distribution. *)
Theorem C42_lambertian : forall p1 p2, 0 <= p1 < 1 ->
  is_unit (lambertian p1 p2) /\ 0 < vz (lambertian p1 p2) /\
  vz (lambertian p1 p2) * vz (lambertian p1 p2) = 1 - p1.
Proof.
  intros p1 p2 H. split; [apply spherical_unit|].
  pose proof (sqrt01 p1 ltac:(lra) ltac:(lra)) as Hs.
  destruct (cos_asin_nonneg (sqrt p1) ltac:(lra)) as [Hc Hcc].
  rewrite sqrt_sqrt in Hcc by lra. simpl. split; [|exact Hcc].
  destruct Hc as [Hc|Hc]; auto. rewrite <- Hc in Hcc. lra.
Qed.
Print Assumptions C42_lambertian.

(** Cone: unit length, at most theta_max away from +z, and sin^2(theta) uniform. *)
Theorem C42_cone : forall t p1 p2 d, 0 <= t <= PI / 2 -> 0 <= p1 < 1 ->
  cone t p1 p2 = Some d ->
  is_unit d /\ cos t <= vz d /\ 0 <= vz d /\ 1 - vz d * vz d = p1 * (sin t * sin t).
Proof.
  intros t p1 p2 d Ht Hp H. unfold cone in H. destruct (_ || _); [discriminate|]. inversion H; subst; clear H.
  split; [apply spherical_unit|].
  pose proof (sqrt01 p1 ltac:(lra) ltac:(lra)) as Hs. pose proof (sin_nonneg_quadrant t Ht) as Hst.
  pose proof (cos_nonneg_quadrant t Ht) as Hct. pose proof (sin_cos_one t) as Hsc.
  assert (Hx : 0 <= sqrt p1 * sin t <= 1) by (pose proof (SIN_bound t); nra).
  destruct (cos_asin_nonneg (sqrt p1 * sin t) ltac:(lra)) as [Hc Hcc].
  assert (E : sqrt p1 * sin t * (sqrt p1 * sin t) = p1 * (sin t * sin t)).
  { transitivity (sqrt p1 * sqrt p1 * (sin t * sin t)); [ring|]. now rewrite sqrt_sqrt by lra. }
  rewrite E in Hcc. simpl.
  assert (0 <= sin t * sin t) by nra.
  split; [|split; [exact Hc|lra]].
  apply Rsqr_incr_0_var; auto. unfold Rsqr. nra.
Qed.
Print Assumptions C42_cone.

Theorem C42_cone_accepts : forall t p1 p2, / 10 ^ 8 < t <= PI / 2 -> exists d, cone t p1 p2 = Some d.
Proof.
  intros t p1 p2 H. unfold cone. assert (0 < / 10 ^ 8) by (apply Rinv_0_lt_compat; lra).
  rewrite Rabs_pos_eq by lra. rleb_f t (/ 10 ^ 8). rltb_f (PI / 2) t. simpl. eauto.
Qed.
Print Assumptions C42_cone_accepts.

(** The compiled kernel's and bundle emitter's samplers give the same direction for
    the same draws. *)
Theorem C42_engines_agree : forall t d1 d2 d,
  cone t d1 d2 = Some d ->
  k_sample_phase (PhCone t) d1 d2 = d /\ e_cone t d1 d2 = d /\
  k_sample_phase PhIsotropic d1 d2 = isotropic d1 d2 /\ e_isotropic d1 d2 = isotropic d1 d2 /\
  e_lambertian d1 d2 = lambertian d1 d2.
Proof.
  intros t d1 d2 d H. unfold cone in H. destruct (_ || _); [discriminate|]. inversion H; subst.
  repeat split.
Qed.
Print Assumptions C42_engines_agree.

Theorem C42_kernel_directions_unit : forall ph d1 d2, is_unit (k_sample_phase ph d1 d2).
Proof. intros [|g|t] d1 d2; simpl; try apply spherical_unit. destruct (Rleb _ _); apply spherical_unit. Qed.
Print Assumptions C42_kernel_directions_unit.

(** Around the axis every direction is equally likely: the draw [p] for the azimuth turns the
    direction by the fraction [p] of a full turn. *)
Definition turned (d : vec) (p : R) : Prop :=
  vx d = sqrt (1 - vz d * vz d) * cos (2 * PI * p) /\ vy d = sqrt (1 - vz d * vz d) * sin (2 * PI * p).
Lemma spherical_turned theta p : 0 <= sin theta -> turned (spherical_to_cart theta (2 * PI * p)) p.
Proof.
  intros H. unfold turned; simpl. pose proof (sin_cos_one theta) as E.
  replace (1 - cos theta * cos theta) with (sin theta * sin theta) by lra. now rewrite sqrt_square.
Qed.
Lemma turned_acos c p : turned (spherical_to_cart (acos c) (2 * PI * p)) p.
Proof. apply spherical_turned. pose proof (acos_bound c). apply sin_ge_0; lra. Qed.
Lemma turned_asin c p : 0 <= c <= 1 -> turned (spherical_to_cart (asin c) (2 * PI * p)) p.
Proof. intros H. apply spherical_turned. rewrite sin_asin; lra. Qed.
Theorem C42_azimuth : forall g t d1 d2 d3, 0 <= d1 < 1 -> 0 <= t <= PI / 2 ->
  turned (isotropic d1 d2) d1 /\ turned (k_sample_phase PhIsotropic d1 d2) d1 /\
  turned (lambertian d1 d2) d2 /\ (forall d, cone t d1 d2 = Some d -> turned d d2) /\
  turned (k_sample_phase (PhCone t) d1 d2) d2 /\
  (EPS_ZERO <= Rabs g -> (forall d, henyey_greenstein g d1 d2 d3 = Some d -> turned d d2) /\ turned (k_sample_phase (PhHenyeyGreenstein g) d1 d2) d2).
Proof.
  intros g t d1 d2 d3 H1 Ht.
  pose proof (sqrt01 d1 ltac:(lra) ltac:(lra)) as Hs. pose proof (sin_nonneg_quadrant t Ht) as Hst. pose proof (SIN_bound t) as Hsb.
  split; [apply turned_acos|]. split; [apply turned_acos|]. split; [apply turned_asin; lra|].
  assert (K : turned (spherical_to_cart (asin (sqrt d1 * sin t)) (2 * PI * d2)) d2) by (apply turned_asin; nra).
  split. { intros d H. unfold cone in H. destruct (_ || _); [discriminate|]. now injection H as <-. }
  split; [exact K|]. intros Hg. split.
  - intros d H. unfold henyey_greenstein in H. destruct (Reqb _ _); [discriminate|]. destruct (Reqb _ _); [discriminate|]. cbv zeta in H.
    unfold close_to_zero in H. rewrite (proj2 (Rltb_false (Rabs g) EPS_ZERO)) in H by lra. injection H as <-. apply turned_acos.
  - simpl. rewrite (proj2 (Rleb_true EPS_ZERO (Rabs g))) by lra. apply turned_acos.
Qed.
Print Assumptions C42_azimuth.

Example C42_example : exists d, cone (PI / 6) (1/4) (1/2) = Some d.
Proof.
  apply C42_cone_accepts. pose proof PI_RGT_0. pose proof PI2_3_2.
  assert (/ 10 ^ 8 < / 10) by (apply Rinv_lt_contravar; lra). lra.
Qed.

(** ** C43 Henyey-Greenstein *)
(** The default asymmetry parameter g = 0 raises ZeroDivisionError. *)
Theorem C43_henyey_greenstein_total_refuted : exists g, -1 < g < 1 /\
  forall p u2 u3, henyey_greenstein g p u2 u3 = None.
Proof.
  exists 0. split; [lra|]. intros. unfold henyey_greenstein. destruct (Reqb_spec (2 * 0) 0); [reflexivity|lra].
Qed.
Print Assumptions C43_henyey_greenstein_total_refuted.

(** Henyey-Greenstein cumulative distribution of the cosine. *)
Definition hg_cdf (g m : R) : R := (1 - g * g) / (2 * g) * (1 / sqrt (1 + g * g - 2 * g * m) - 1 / (1 + g)).

Theorem C43_henyey_greenstein_total_partial : forall g p u2 u3,
  -1 < g < 1 -> g <> 0 -> 0 <= p < 1 -> 0 <= u3 < 1 ->
  exists d, henyey_greenstein g p u2 u3 = Some d /\ is_unit d /\
    (EPS_ZERO <= Rabs g -> -1 <= vz d <= 1 /\ hg_cdf g (vz d) = p) /\
    (Rabs g < EPS_ZERO -> vz d = 2 * u3 - 1).
Proof.
  intros g p u2 u3 Hg Hn Hp Hu3. unfold henyey_greenstein.
  destruct (Reqb_spec (2 * g) 0); [lra|].
  assert (Hd : 0 < 1 + g * (2 * p - 1)) by nra.
  destruct (Reqb_spec (1 + g * (2 * p - 1)) 0); [lra|]. cbv zeta.
  pose proof (hg_mu_bounds g p Hg Hn ltac:(lra)) as Hmu.
  unfold close_to_zero. destruct (Rltb_spec (Rabs g) EPS_ZERO) as [Hlt|Hge].
  - eexists. split; [reflexivity|]. split; [apply spherical_unit|]. split; [lra|].
    intros _. apply C42_isotropic. lra.
  - eexists. split; [reflexivity|]. split; [apply spherical_unit|]. split; [|lra].
    intros _. simpl. rewrite cos_acos by lra. split; [exact Hmu|].
    unfold hg_cdf, hg_mu. cbv zeta. set (s := 2 * p - 1) in *.
    assert (Hq : 0 < (1 - g * g) / (1 + g * s)) by (apply Rdiv_lt_0_compat; nra).
    replace (1 + g * g - 2 * g * (1 / (2 * g) * (1 + g ^ 2 - ((1 - g ^ 2) / (1 + g * s)) ^ 2)))
      with ((1 - g * g) / (1 + g * s) * ((1 - g * g) / (1 + g * s))) by (simpl; field; split; lra).
    rewrite sqrt_square by lra.
    assert (E : (1 - g * g) / (2 * g) * (1 / ((1 - g * g) / (1 + g * s)) - 1 / (1 + g)) = (s + 1) / 2).
    { field. repeat split; try lra. nra. }
    rewrite E. unfold s. field.
Qed.
Print Assumptions C43_henyey_greenstein_total_partial.

(** The kernel is total, agrees with Python where Python is defined and is isotropic at g = 0. *)
Theorem C43_kernel_henyey_greenstein : forall g p u2 u3,
  (k_sample_phase (PhHenyeyGreenstein 0) p u2 = isotropic p u2) /\
  (EPS_ZERO <= Rabs g -> forall d, henyey_greenstein g p u2 u3 = Some d ->
   k_sample_phase (PhHenyeyGreenstein g) p u2 = d).
Proof.
  intros g p u2 u3. pose proof EPS_ZERO_pos. split.
  - unfold k_sample_phase. rewrite Rabs_R0. rleb_f EPS_ZERO 0. reflexivity.
  - intros Hg d. unfold henyey_greenstein, close_to_zero, k_sample_phase, hg_mu.
    destruct (Reqb _ _); [discriminate|]. destruct (Reqb _ _); [discriminate|].
    rltb_f (Rabs g) EPS_ZERO. rleb_t EPS_ZERO (Rabs g). cbv zeta.
    replace (g ^ 2) with (g * g) by (simpl; ring). intros Hd. now inversion Hd.
Qed.
Print Assumptions C43_kernel_henyey_greenstein.

Theorem C43_bundle_henyey_greenstein : forall g p u2 u3 d,
  / 10 ^ 12 <= Rabs g -> henyey_greenstein g p u2 u3 = Some d -> e_henyey_greenstein g p u2 = d.
Proof.
  intros g p u2 u3 d Hg H. unfold henyey_greenstein, close_to_zero, e_henyey_greenstein, hg_mu in *.
  destruct (Reqb_spec (2 * g) 0) as [|Hg0]; [discriminate|].
  destruct (Reqb_spec (1 + g * (2 * p - 1)) 0) as [|Hd]; [discriminate|].
  assert (EPS_ZERO < / 10 ^ 12).
  { unfold EPS_ZERO. apply (Rmult_lt_reg_r (10 ^ 12 * 2 ^ 52)); [lra|]. field_simplify; lra. }
  rltb_f (Rabs g) (/ 10 ^ 12).
  destruct (Rltb_spec (Rabs g) EPS_ZERO); [lra|]. cbv zeta in *. inversion H.
  f_equal. f_equal. simpl. field. split; lra.
Qed.
Print Assumptions C43_bundle_henyey_greenstein.

Example C43_example : EPS_ZERO <= Rabs (1/2) /\ exists d, henyey_greenstein (1/2) (1/4) (1/8) 0 = Some d.
Proof.
  split.
  - rewrite Rabs_pos_eq by lra. unfold EPS_ZERO. apply (Rmult_le_reg_r (2 ^ 52)); [lra|]. field_simplify; lra.
  - destruct (C43_henyey_greenstein_total_partial (1/2) (1/4) (1/8) 0) as (d & Hd & _); try lra. now exists d.
Qed.

(** ** C44 Masks *)
Theorem C44_rectangular_mask : forall X Y u1 u2, 0 <= X -> 0 <= Y -> 0 <= u1 < 1 -> 0 <= u2 < 1 ->
  let p := rectangular_mask X Y u1 u2 in
  - X <= vx p <= X /\ - Y <= vy p <= Y /\ vz p = 0.
Proof.
  intros X Y u1 u2 HX HY H1 H2 p. unfold p, rectangular_mask; simpl.
  pose proof (uniform_range (- X) X u1 ltac:(lra) H1). pose proof (uniform_range (- Y) Y u2 ltac:(lra) H2).
  repeat split; lra.
Qed.
Print Assumptions C44_rectangular_mask.

(** Every point of the aperture can be produced: the mask is onto the open rectangle. *)
Theorem C44_rectangular_mask_covers : forall X Y x y, - X <= x < X -> - Y <= y < Y ->
  exists u1 u2, 0 <= u1 < 1 /\ 0 <= u2 < 1 /\ rectangular_mask X Y u1 u2 = V x y 0.
Proof.
  intros X Y x y Hx Hy. exists ((x + X) / (2 * X)), ((y + Y) / (2 * Y)).
  assert (HX : 0 < X) by lra. assert (HY : 0 < Y) by lra.
  assert (Hgen : forall a A, - A <= a < A -> 0 <= (a + A) / (2 * A) < 1).
  { intros a A Ha. assert (0 < A) by lra. split.
    - apply Rmult_le_pos; [lra|]. left. apply Rinv_0_lt_compat. lra.
    - apply (Rmult_lt_reg_r (2 * A)); [lra|]. unfold Rdiv. rewrite Rmult_assoc, Rinv_l; lra. }
  split; [now apply Hgen|]. split; [now apply Hgen|].
  unfold rectangular_mask, uniform. apply vec_eq; simpl; field; lra.
Qed.
Print Assumptions C44_rectangular_mask_covers.

(** Circular: inside the radius, and r^2 = u2 * radius^2 (uniform over the area). *)
Theorem C44_circular_mask : forall radius u1 u2, 0 <= radius -> 0 <= u2 < 1 ->
  let p := circular_mask radius u1 u2 in
  vx p * vx p + vy p * vy p = u2 * (radius * radius) /\
  vx p * vx p + vy p * vy p <= radius * radius /\ vz p = 0.
Proof.
  intros radius u1 u2 Hr H2 p. unfold p, circular_mask; simpl.
  set (a := uniform 0 (2 * PI) u1). pose proof (sin_cos_one a) as Hsc.
  assert (E : sqrt u2 * radius * cos a * (sqrt u2 * radius * cos a) + sqrt u2 * radius * sin a * (sqrt u2 * radius * sin a)
     = u2 * (radius * radius)).
  { transitivity ((sqrt u2 * sqrt u2) * (radius * radius) * (sin a * sin a + cos a * cos a)); [ring|].
    rewrite sqrt_sqrt, Hsc by lra. ring. }
  rewrite E. split; [reflexivity|]. split; [|reflexivity]. assert (0 <= radius * radius) by nra. nra.
Qed.
Print Assumptions C44_circular_mask.

Theorem C44_cube_mask : forall X Y Z u1 u2 u3, 0 <= X -> 0 <= Y -> 0 <= Z ->
  0 <= u1 < 1 -> 0 <= u2 < 1 -> 0 <= u3 < 1 ->
  let p := cube_mask X Y Z u1 u2 u3 in
  - X <= vx p <= X /\ - Y <= vy p <= Y /\ - Z <= vz p <= Z.
Proof.
  intros X Y Z u1 u2 u3 HX HY HZ H1 H2 H3 p. unfold p, cube_mask; simpl.
  pose proof (uniform_range (- X) X u1 ltac:(lra) H1). pose proof (uniform_range (- Y) Y u2 ltac:(lra) H2).
  pose proof (uniform_range (- Z) Z u3 ltac:(lra) H3). repeat split; lra.
Qed.
Print Assumptions C44_cube_mask.

Example C44_example : rectangular_mask 1 2 (1/2) (3/4) = V 0 1 0.
Proof. unfold rectangular_mask, uniform. apply vec_eq; simpl; lra. Qed.

(** ** C71 Light.emit yields as many rays as asked for *)
(** Documented: with num_rays=None "the light will generate until manually terminated".
    In fact it yields nothing. *)
Theorem C71_light_emit_unbounded_refuted : exists want, (0 < want)%nat /\ forall fuel, (light_emit None fuel < want)%nat.
Proof. exists 1%nat. split; [lia|]. intros. simpl. lia. Qed.
Print Assumptions C71_light_emit_unbounded_refuted.

Theorem C71_light_emit_partial : forall n fuel, (n < fuel)%nat -> light_emit (Some n) fuel = n.
Proof.
  intros n fuel H. unfold light_emit. destruct n; [reflexivity|].
  rewrite light_emit_loop_count by lia. lia.
Qed.
Print Assumptions C71_light_emit_partial.
Example C71_example : light_emit (Some 3%nat) 10 = 3%nat.
Proof. reflexivity. Qed.
