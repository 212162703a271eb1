(** Properties C37-C41, C64, C69, C70: surface optics. *)
From Coq Require Import Reals Lra Psatz List Bool.
From Verif Require Import Base Vec OpticsModel OpticsProofs.
Import ListNotations.
Open Scope R_scope.

(** ** C37 Fresnel reflectivity *)
(** Defined (not nan) unless the indices match and incidence is exactly grazing,
    and always a probability. *)
Theorem C37_reflectivity_is_probability : forall angle n1 n2,
  0 < n1 -> 0 < n2 -> 0 <= angle <= PI / 2 -> ~ (n1 = n2 /\ angle = PI / 2) ->
  exists r, fresnel_reflectivity angle n1 n2 = Some r /\ 0 <= r <= 1.
Proof.
  intros angle n1 n2 H1 H2 Ha Hex.
  destruct (Rlt_dec n2 (n1 * sin angle)) as [Ht|Ht].
  - exists 1. split; [now apply fresnel_tir|lra].
  - apply Rnot_lt_le in Ht.
    destruct (refracted_cos angle n1 n2 H1 H2 Ha Ht) as (k & Hk & Hkk & Hkp & _).
    pose proof (cos_nonneg_quadrant angle Ha) as Hc.
    assert (Hpos : 0 < cos angle \/ 0 < k).
    { destruct (Req_EM_T (cos angle) 0) as [E|E]; [right|left; lra].
      pose proof (cos_zero_quadrant angle Ha E) as ->. rewrite sin_PI2 in *.
      apply Hkp. destruct (Req_EM_T n1 n2); [exfalso; auto|lra]. }
    eexists. split; [apply (fresnel_below angle n1 n2 k); auto|].
    assert (0 <= n1 * cos angle) by nra. assert (0 <= n2 * k) by nra.
    assert (0 <= n1 * k) by nra. assert (0 <= n2 * cos angle) by nra.
    assert (0 < n1 * cos angle + n2 * k) by (destruct Hpos; nra).
    assert (0 < n1 * k + n2 * cos angle) by (destruct Hpos; nra).
    pose proof (sq_ratio_le_one (n1 * cos angle) (n2 * k)) as A.
    pose proof (sq_ratio_le_one (n1 * k) (n2 * cos angle)) as B. lra.
Qed.
Print Assumptions C37_reflectivity_is_probability.

(** Total reflection happens exactly at or above the critical angle or at grazing incidence. *)
Theorem C37_total_reflection_iff : forall angle n1 n2,
  0 < n1 -> 0 < n2 -> 0 <= angle <= PI / 2 -> ~ (n1 = n2 /\ angle = PI / 2) ->
  (fresnel_reflectivity angle n1 n2 = Some 1 <-> n2 <= n1 * sin angle \/ angle = PI / 2).
Proof.
  intros angle n1 n2 H1 H2 Ha Hex.
  pose proof (cos_nonneg_quadrant angle Ha) as Hc.
  destruct (Rlt_dec n2 (n1 * sin angle)) as [Ht|Ht].
  { split; [intros _; left; lra|intros _; now apply fresnel_tir]. }
  apply Rnot_lt_le in Ht.
  destruct (refracted_cos angle n1 n2 H1 H2 Ha Ht) as (k & Hk & Hkk & Hkp & Hk0).
  destruct (Req_EM_T (cos angle) 0) as [E|E].
  - pose proof (cos_zero_quadrant angle Ha E) as ->. split; [auto|intros _].
    rewrite sin_PI2 in *. assert (n1 <> n2) by (intros <-; auto). assert (0 < k) by (apply Hkp; lra).
    rewrite (fresnel_below (PI/2) n1 n2 k); auto; [|rewrite sin_PI2; lra|rewrite sin_PI2; lra].
    rewrite E. f_equal. field. split; lra.
  - assert (Hcp : 0 < cos angle) by lra.
    rewrite (fresnel_below angle n1 n2 k); auto.
    destruct (Req_EM_T (n1 * sin angle) n2) as [Eq|Ne].
    + rewrite (Hk0 Eq). split; [intros _; left; lra|intros _]. f_equal. field. split; lra.
    + assert (Hk1 : 0 < k) by (apply Hkp; lra). split; intros H.
      * exfalso. inversion H as [H0].
        assert (0 < n1 * cos angle) by nra. assert (0 < n2 * k) by nra.
        assert (0 < n1 * k) by nra. assert (0 < n2 * cos angle) by nra.
        pose proof (sq_ratio_lt_one (n1 * cos angle) (n2 * k)) as A.
        pose proof (sq_ratio_lt_one (n1 * k) (n2 * cos angle)) as B. lra.
      * exfalso. destruct H as [H|H]; [lra|]. subst. rewrite cos_PI2 in *. lra.
Qed.
Print Assumptions C37_total_reflection_iff.

Theorem C37_matched_indices : forall angle n,
  0 < n -> 0 <= angle < PI / 2 -> fresnel_reflectivity angle n n = Some 0.
Proof.
  intros angle n Hn Ha. assert (Hc : 0 < cos angle) by (pose proof PI_RGT_0; apply cos_gt_0; lra).
  rewrite (fresnel_below angle n n (cos angle)); auto; try lra.
  - f_equal. field. nra.
  - pose proof (SIN_bound angle). nra.
  - pose proof (sin_cos_one angle). replace (n / n) with 1 by (field; lra). lra.
Qed.
Print Assumptions C37_matched_indices.

Theorem C37_normal_incidence : forall n1 n2,
  0 < n1 -> 0 < n2 -> fresnel_reflectivity 0 n1 n2 = Some (((n1 - n2) / (n1 + n2)) ^ 2).
Proof.
  intros n1 n2 H1 H2. pose proof PI_RGT_0.
  rewrite (fresnel_below 0 n1 n2 1); rewrite ?sin_0, ?cos_0; auto; try lra.
  - f_equal. field. lra.
Qed.
Print Assumptions C37_normal_incidence.

(** Brewster: p-polarised light is not reflected at tan(angle) = n2/n1, so only half
    of the s-polarised reflectivity remains. *)
Theorem C37_brewster : forall angle n1 n2,
  0 < n1 -> 0 < n2 -> 0 <= angle < PI / 2 -> n1 * sin angle = n2 * cos angle ->
  fresnel_reflectivity angle n1 n2 =
    Some (/ 2 * ((n1 * n1 - n2 * n2) / (n1 * n1 + n2 * n2)) ^ 2).
Proof.
  intros angle n1 n2 H1 H2 Ha Hb. assert (Hc : 0 < cos angle) by (pose proof PI_RGT_0; apply cos_gt_0; lra).
  assert (Hs : 0 <= sin angle) by (apply sin_nonneg_quadrant; lra).
  pose proof (sin_cos_one angle) as Hsc.
  assert (Hx : n1 / n2 * sin angle = cos angle).
  { replace (n1 / n2 * sin angle) with (n1 * sin angle / n2) by (field; lra). rewrite Hb. field. lra. }
  rewrite (fresnel_below angle n1 n2 (sin angle)); auto; try lra.
  - f_equal. f_equal. rewrite Hb.
    replace (n2 * cos angle - n2 * cos angle) with 0 by ring.
    assert (E : sin angle = n2 / n1 * cos angle).
    { replace (n2 / n1 * cos angle) with (n2 * cos angle / n1) by (field; lra). rewrite <- Hb. field. lra. }
    rewrite E.
    assert (A1 : 0 < n1 * n1) by nra. assert (A2 : 0 < n2 * n2) by nra.
    assert (A3 : 0 < cos angle * (n1 * n1 + n2 * n2)) by nra.
    field. split; [lra|]. split; [nra|]. split; lra.
  - rewrite Hb. pose proof (COS_bound angle). nra.
  - rewrite Hx. lra.
Qed.
Print Assumptions C37_brewster.

(** The kernel evaluates the same function. *)
Theorem C37_kernel_agrees : forall angle n1 n2,
  k_fresnel_reflectivity angle n1 n2 = fresnel_reflectivity angle n1 n2.
Proof. reflexivity. Qed.
Print Assumptions C37_kernel_agrees.

Example C37_example : exists r, fresnel_reflectivity (PI / 6) (3/2) 1 = Some r /\ 0 < r < 1.
Proof.
  pose proof PI_RGT_0.
  destruct (C37_reflectivity_is_probability (PI/6) (3/2) 1) as (r & Hr & Hb); try lra.
  exists r. split; [exact Hr|].
  assert (r <> 1).
  { intros ->. apply C37_total_reflection_iff in Hr; try lra. destruct Hr as [Hr|Hr]; [|lra].
    rewrite sin_PI6 in Hr. lra. }
  assert (r <> 0); [|lra]. intros ->.
  destruct (refracted_cos (PI/6) (3/2) 1) as (k & Hk & Hkk & _ & _); try lra; [rewrite sin_PI6; lra|].
  rewrite sin_PI6 in Hkk.
  assert (Hc : 0 < cos (PI/6)) by (apply cos_gt_0; lra).
  assert (Hcc := sin_cos_one (PI/6)). rewrite sin_PI6 in Hcc.
  rewrite (fresnel_below (PI/6) (3/2) 1 k) in Hr; auto; try lra; [|rewrite sin_PI6; lra|rewrite sin_PI6; lra].
  inversion Hr as [Hr0].
  pose proof (pow2_ge_0 ((3 / 2 * cos (PI / 6) - 1 * k) / (3 / 2 * cos (PI / 6) + 1 * k))).
  pose proof (pow2_ge_0 ((3 / 2 * k - 1 * cos (PI / 6)) / (3 / 2 * k + 1 * cos (PI / 6)))).
  assert (E : ((3 / 2 * cos (PI / 6) - 1 * k) / (3 / 2 * cos (PI / 6) + 1 * k)) ^ 2 = 0) by lra.
  assert (E2 : (3 / 2 * cos (PI / 6) - 1 * k) / (3 / 2 * cos (PI / 6) + 1 * k) = 0) by (simpl in E; nra).
  assert (3 / 2 * cos (PI / 6) - 1 * k = 0).
  { replace (3 / 2 * cos (PI / 6) - 1 * k) with
      ((3 / 2 * cos (PI / 6) - 1 * k) / (3 / 2 * cos (PI / 6) + 1 * k) * (3 / 2 * cos (PI / 6) + 1 * k)) by (field; lra).
    rewrite E2. ring. }
  nra.
Qed.

(** ** C38 Reciprocity *)
Theorem C38_reciprocity : forall t1 t2 n1 n2,
  0 < n1 -> 0 < n2 -> 0 <= t1 <= PI / 2 -> 0 <= t2 <= PI / 2 -> (t1 < PI / 2 \/ t2 < PI / 2) ->
  n1 * sin t1 = n2 * sin t2 ->
  fresnel_reflectivity t1 n1 n2 = fresnel_reflectivity t2 n2 n1 /\
  exists r, fresnel_reflectivity t1 n1 n2 = Some r.
Proof.
  intros t1 t2 n1 n2 H1 H2 Ha1 Ha2 Hg Hsnell.
  pose proof (cos_nonneg_quadrant t1 Ha1) as Hc1. pose proof (cos_nonneg_quadrant t2 Ha2) as Hc2.
  pose proof (sin_cos_one t1) as S1. pose proof (sin_cos_one t2) as S2.
  pose proof (SIN_bound t1) as B1. pose proof (SIN_bound t2) as B2.
  assert (Hpos : 0 < cos t1 \/ 0 < cos t2).
  { pose proof PI_RGT_0. destruct Hg; [left|right]; apply cos_gt_0; lra. }
  assert (E1 : n1 / n2 * sin t1 = sin t2).
  { replace (n1 / n2 * sin t1) with (n1 * sin t1 / n2) by (field; lra). rewrite Hsnell. field. lra. }
  assert (E2 : n2 / n1 * sin t2 = sin t1).
  { replace (n2 / n1 * sin t2) with (n2 * sin t2 / n1) by (field; lra). rewrite <- Hsnell. field. lra. }
  rewrite (fresnel_below t1 n1 n2 (cos t2)); auto; try (rewrite E1; lra); try nra.
  rewrite (fresnel_below t2 n2 n1 (cos t1)); auto; try (rewrite E2; lra); try nra; try tauto.
  split; [|eauto]. f_equal. field. split; [destruct Hpos; nra|destruct Hpos; nra].
Qed.
Print Assumptions C38_reciprocity.

Example C38_example : exists n1 n2, 0 < n1 /\ 0 < n2 /\ n1 * sin (PI/6) = n2 * sin (PI/4) /\ PI/6 < PI/2.
Proof.
  exists (sin (PI/4)), (sin (PI/6)). pose proof PI_RGT_0. rewrite sin_PI6.
  assert (0 < sin (PI/4)) by (apply sin_gt_0; lra). repeat split; lra.
Qed.

(** ** C39 Specular reflection *)
Theorem C39_law_of_reflection : forall d n,
  is_unit d -> is_unit n ->
  let r := specular_reflection d n in
  is_unit r /\ dot r n = - dot d n /\
  vsub r (vscale (dot r n) n) = vsub d (vscale (dot d n) n).
Proof.
  intros d n Hd Hn r. unfold r. rewrite specular_closed.
  assert (E : dot (vsub d (vscale (2 * dot n d) n)) n = - dot d n).
  { rewrite dot_sub_l, dot_scale_l. unfold is_unit in Hn. rewrite Hn, (dot_comm n d). lra. }
  split; [|split].
  - unfold is_unit. rewrite dot_sub_r, dot_scale_r, E, dot_sub_l, dot_scale_l, (dot_comm n d).
    unfold is_unit in Hd. rewrite Hd. lra.
  - exact E.
  - rewrite E, (dot_comm n d). apply vec_eq; simpl; ring.
Qed.
Print Assumptions C39_law_of_reflection.

Theorem C39_normal_sign_irrelevant : forall d n, specular_reflection d (vneg n) = specular_reflection d n.
Proof. intros. rewrite !specular_closed. apply vec_eq; simpl; unfold dot; simpl; ring. Qed.
Print Assumptions C39_normal_sign_irrelevant.

Theorem C39_involution : forall d n, is_unit n ->
  specular_reflection (specular_reflection d n) n = d.
Proof.
  intros d n Hn. rewrite !specular_closed. rewrite dot_sub_r, dot_scale_r. unfold is_unit in Hn. rewrite Hn.
  apply vec_eq; simpl; ring.
Qed.
Print Assumptions C39_involution.

Theorem C39_kernel_agrees : forall d n, k_specular_reflect d n = specular_reflection d n.
Proof. exact specular_eq. Qed.
Print Assumptions C39_kernel_agrees.

(** Reflection is a rigid-motion equivariant operation: reflecting in a node's own
    frame is the same as reflecting in the world frame. *)
Theorem C39_frame_independent : forall m d n, orthogonal m ->
  specular_reflection (mvec m d) (mvec m n) = mvec m (specular_reflection d n).
Proof.
  intros m d n Ho. rewrite !specular_closed, orthogonal_dot by assumption.
  now rewrite mvec_sub, mvec_scale.
Qed.
Print Assumptions C39_frame_independent.

Example C39_example : is_unit (V (3/5) 0 (4/5)) /\ is_unit (V 0 0 1) /\
  specular_reflection (V (3/5) 0 (4/5)) (V 0 0 1) = V (3/5) 0 (-4/5).
Proof.
  split; [unfold is_unit, dot; simpl; lra|]. split; [unfold is_unit, dot; simpl; lra|].
  rewrite specular_closed. apply vec_eq; simpl; unfold dot; simpl; lra.
Qed.

(** ** C40 Refraction *)
(** Below the critical angle a direction is returned; above it is nan. *)
Theorem C40_refraction_defined_iff : forall d n n1 n2,
  0 < n1 -> 0 < n2 ->
  ((exists t, fresnel_refraction d n n1 n2 = Some t) <-> n1 * n1 * (1 - dot d n * dot d n) <= n2 * n2).
Proof.
  intros d n n1 n2 H1 H2. unfold fresnel_refraction. cbv zeta.
  set (q := 1 - (n1 / n2) ^ 2 * (1 - dot d n ^ 2)).
  assert (E : q * (n2 * n2) = n2 * n2 - n1 * n1 * (1 - dot d n * dot d n)).
  { unfold q. simpl. field. lra. }
  assert (0 < n2 * n2) by nra.
  destruct (Rltb_spec q 0).
  - split; [intros (t & Ht); discriminate|intros; nra].
  - split; [intros _|eauto]. nra.
Qed.
Print Assumptions C40_refraction_defined_iff.

Theorem C40_snell : forall d n n1 n2 t,
  is_unit d -> is_unit n -> 0 < n1 -> 0 < n2 ->
  fresnel_delegate_transmitted n d n1 n2 = Some t ->
  is_unit t /\
  vscale n2 (cross t n) = vscale n1 (cross d n) /\
  0 <= dot t n * dot d n /\
  (dot d n <> 0 -> n1 * norm (cross d n) < n2 -> 0 < dot t n * dot d n) /\
  exists a b, t = vadd (vscale a d) (vscale b n).
Proof.
  intros d n n1 n2 t Hd Hn H1 H2 Ht.
  unfold fresnel_delegate_transmitted, fresnel_refraction in Ht. cbv zeta in Ht.
  set (m := along n d) in *.
  assert (Hm : is_unit m) by now apply along_unit.
  assert (Hmd : 0 <= dot d m) by (rewrite dot_comm; apply along_dot).
  set (q := 1 - (n1 / n2) ^ 2 * (1 - dot d m ^ 2)) in *.
  destruct (Rltb_spec q 0) as [|Hq]; [discriminate|]. apply Rnot_lt_le in Hq.
  destruct (Rltb_spec (dot d m) 0) as [|_]; [lra|].
  assert (Hcc : sqrt q * sqrt q = q) by now apply sqrt_sqrt.
  assert (Hc0 : 0 <= sqrt q) by apply sqrt_pos.
  set (c := sqrt q) in *. injection Ht as Et.
  set (f := 1 * (c - 1 * (n1 / n2) * dot d m)) in *.
  assert (Hf : f = c - n1 / n2 * dot d m) by (unfold f; ring).
  assert (Htm : dot t m = c).
  { rewrite <- Et. rewrite dot_add_l, !dot_scale_l. unfold is_unit in Hm. rewrite Hm, Hf. ring. }
  assert (Hmn : m = n \/ m = vneg n) by apply along_cases.
  assert (Hprod : dot t n * dot d n = dot t m * dot d m).
  { destruct Hmn as [-> | ->]; [reflexivity|]. rewrite !dot_neg_r. ring. }
  split; [|split; [|split; [|split]]].
  - assert (Ett : dot t t = dot (vadd (vscale (n1 / n2) d) (vscale f m)) t) by now rewrite Et.
    unfold is_unit in *. rewrite Ett. rewrite dot_add_l, !dot_scale_l, (dot_comm m t), Htm.
    assert (E : dot d t = n1 / n2 + f * dot d m).
    { rewrite <- Et. rewrite dot_add_r, !dot_scale_r, Hd. ring. }
    rewrite E, Hf.
    transitivity (n1 / n2 * (n1 / n2) * (1 - dot d m * dot d m) + c * c); [ring|].
    rewrite Hcc. unfold q. simpl. ring.
  - rewrite <- Et. destruct Hmn as [-> | ->]; apply vec_eq; simpl; field; lra.
  - rewrite Hprod, Htm. nra.
  - intros Hne Hlt. rewrite Hprod, Htm.
    assert (Hdm : 0 < dot d m).
    { destruct Hmn as [E|E]; rewrite E in *; [lra|]. rewrite dot_neg_r in *. lra. }
    assert (Hcr : norm (cross d n) * norm (cross d n) = 1 - dot d m * dot d m).
    { rewrite norm_sq, lagrange. unfold is_unit in *. rewrite Hd, Hn.
      destruct Hmn as [E|E]; rewrite E, ?dot_neg_r; ring. }
    assert (0 < q).
    { unfold q. assert (Eq : (1 - (n1 / n2) ^ 2 * (1 - dot d m ^ 2)) * (n2 * n2) = n2 * n2 - (n1 * norm (cross d n)) * (n1 * norm (cross d n))).
      { transitivity (n2 * n2 - n1 * n1 * (1 - dot d m * dot d m)); [simpl; field; lra|]. rewrite <- Hcr. ring. }
      assert (0 <= n1 * norm (cross d n)) by (pose proof (norm_nonneg (cross d n)); nra).
      assert (0 < n2 * n2) by nra. nra. }
    assert (0 < c) by (apply sqrt_lt_R0; assumption). nra.
  - destruct Hmn as [E|E]; rewrite E in Et.
    + exists (n1 / n2), f. symmetry. exact Et.
    + exists (n1 / n2), (- f). rewrite <- Et. apply vec_eq; simpl; ring.
Qed.
Print Assumptions C40_snell.

(** Snell's law in terms of angles: n1 sin(theta1) = n2 sin(theta2), where sin is the
    length of the cross product with the normal. *)
Theorem C40_snell_angles : forall d n n1 n2 t,
  is_unit d -> is_unit n -> 0 < n1 -> 0 < n2 ->
  fresnel_delegate_transmitted n d n1 n2 = Some t ->
  n1 * norm (cross d n) = n2 * norm (cross t n).
Proof.
  intros d n n1 n2 t Hd Hn H1 H2 Ht.
  destruct (C40_snell d n n1 n2 t Hd Hn H1 H2 Ht) as (_ & E & _).
  rewrite <- (norm_scale_pos n1) by lra. rewrite <- (norm_scale_pos n2) by lra. now rewrite E.
Qed.
Print Assumptions C40_snell_angles.

Theorem C40_matched_indices_straight_on : forall d n k,
  is_unit d -> is_unit n -> 0 < k -> fresnel_delegate_transmitted n d k k = Some d.
Proof.
  intros d n k Hd Hn Hk. unfold fresnel_delegate_transmitted, fresnel_refraction. cbv zeta.
  set (m := along n d). assert (Hmd : 0 <= dot d m) by (rewrite dot_comm; apply along_dot).
  replace (k / k) with 1 by (field; lra).
  replace (1 - 1 ^ 2 * (1 - dot d m ^ 2)) with (dot d m * dot d m) by (simpl; ring).
  assert (0 <= dot d m * dot d m) by nra. rltb_f (dot d m * dot d m) 0. rltb_f (dot d m) 0.
  rewrite sqrt_square by assumption. f_equal. apply vec_eq; simpl; ring.
Qed.
Print Assumptions C40_matched_indices_straight_on.

Theorem C40_kernel_agrees : forall d n n1 n2, k_fresnel_refract d n n1 n2 = fresnel_refraction d n n1 n2.
Proof. exact refract_eq. Qed.
Print Assumptions C40_kernel_agrees.

Example C40_example : exists t, fresnel_delegate_transmitted (V 0 0 (-1)) (V (3/5) 0 (4/5)) 1 (3/2) = Some t /\
  vx t = 2/5.
Proof.
  unfold fresnel_delegate_transmitted, fresnel_refraction, along, dot; simpl. rdec. simpl.
  rdec. eexists. split; [reflexivity|]. simpl. field.
Qed.

(** ** C41 Surface decisions *)
Theorem C41_reflects_below_reflectivity : forall r u, 0 <= r -> 0 <= u < 1 ->
  (is_reflected r u = true <-> u < r) /\ k_is_reflected r u = is_reflected r u.
Proof.
  intros r u Hr Hu. unfold is_reflected, k_is_reflected.
  destruct (Reqb_spec r 0).
  - subst. rltb_f 0 0. rltb_f 1 0. split; [split; [discriminate|lra]|reflexivity].
  - rltb_t 0 r. rewrite Rltb_true. split; [tauto|reflexivity].
Qed.
Print Assumptions C41_reflects_below_reflectivity.

Theorem C41_null_surface_never_interacts : forall u d,
  is_reflected null_reflectivity u = false /\ k_is_reflected null_reflectivity u = false /\ null_transmitted d = d.
Proof.
  intros u d. unfold is_reflected, k_is_reflected, null_reflectivity, null_transmitted.
  destruct (Reqb_spec 0 0); [|lra]. rltb_f 0 0. rltb_f 1 0. auto.
Qed.
Print Assumptions C41_null_surface_never_interacts.

(** Bounds on the allclose shortcut of angle_between. *)
Lemma np_close_bound a b : Rabs b <= 1 -> np_close a b = true -> (a - b) * (a - b) <= / 10 ^ 10 * (1003 / 1000).
Proof.
  intros Hb H. unfold np_close in H. apply Rleb_true in H.
  assert (Rabs (a - b) <= / 10 ^ 8 + / 10 ^ 5).
  { eapply Rle_trans; [exact H|]. assert (0 < / 10 ^ 5) by (apply Rinv_0_lt_compat; lra). nra. }
  assert (E : (a - b) * (a - b) = Rabs (a - b) * Rabs (a - b)) by (rewrite <- Rabs_mult; symmetry; apply Rabs_pos_eq, Rle_0_sqr).
  rewrite E. pose proof (Rabs_pos (a - b)). set (t := Rabs (a - b)) in *.
  assert (Hs : t * t <= (/ 10 ^ 8 + / 10 ^ 5) * (/ 10 ^ 8 + / 10 ^ 5)) by (apply Rmult_le_compat; lra).
  eapply Rle_trans; [exact Hs|]. lra.
Qed.

Lemma unit_coords v : is_unit v -> Rabs (vx v) <= 1 /\ Rabs (vy v) <= 1 /\ Rabs (vz v) <= 1.
Proof.
  unfold is_unit, dot. intros H.
  assert (Hgen : forall x, x * x <= 1 -> Rabs x <= 1) by (intros x Hx; apply Rabs_le; nra).
  repeat split; apply Hgen; nra.
Qed.

Lemma allclose_dot n v : is_unit n -> is_unit v -> np_allclose n v = true -> 1 - dot n v <= / 10 ^ 10 * 2.
Proof.
  intros Hn Hv H. unfold np_allclose in H. rewrite !andb_true_iff in H. destruct H as [[Hx Hy] Hz].
  destruct (unit_coords v Hv) as (Bx & By & Bz).
  apply np_close_bound in Hx, Hy, Hz; auto.
  assert (E : 2 * (1 - dot n v) = (vx n - vx v) * (vx n - vx v) + (vy n - vy v) * (vy n - vy v) + (vz n - vz v) * (vz n - vz v)).
  { unfold is_unit, dot in *. lra. }
  lra.
Qed.

(** Above the critical angle every draw reflects (index contrast up to 10^4, so the
    allclose shortcut for normal incidence cannot hide total reflection). *)
Theorem C41_total_internal_reflection : forall d n n1 n2,
  is_unit d -> is_unit n -> 0 < n1 -> 0 < n2 -> n1 <= 10000 * n2 ->
  n2 < n1 * norm (cross d n) ->
  exists r, fresnel_delegate_reflectivity n d n1 n2 = Some r /\ forall u, 0 <= u < 1 -> is_reflected r u = true.
Proof.
  intros d n n1 n2 Hd Hn H1 H2 Hcon Ht. exists 1.
  assert (Href : forall u, 0 <= u < 1 -> is_reflected 1 u = true).
  { intros u Hu. apply C41_reflects_below_reflectivity; lra. }
  split; [|exact Href].
  unfold fresnel_delegate_reflectivity. set (m := along n d).
  assert (Hm : is_unit m) by now apply along_unit.
  assert (Hmd : 0 <= dot m d) by apply along_dot.
  assert (Hmn : m = n \/ m = vneg n) by apply along_cases.
  pose proof (unit_dot_range m d Hm Hd) as Hr.
  assert (Hcr : norm (cross d n) * norm (cross d n) = 1 - dot m d * dot m d).
  { rewrite norm_sq, lagrange. unfold is_unit in *. rewrite Hd, Hn, (dot_comm m d).
    destruct Hmn as [E|E]; rewrite E, ?dot_neg_r; ring. }
  pose proof (norm_nonneg (cross d n)) as Hnn.
  assert (Hsq : n2 * n2 < n1 * n1 * (1 - dot m d * dot m d)) by (rewrite <- Hcr; nra).
  unfold angle_between. destruct (np_allclose m d) eqn:Ec.
  { exfalso. apply allclose_dot in Ec; auto. set (x := dot m d) in *.
    assert (1 - x * x <= / 10 ^ 10 * 4) by nra.
    assert (n1 * n1 <= 10000 * n2 * (10000 * n2)) by nra.
    assert (n1 * n1 * (1 - x * x) <= 10000 * n2 * (10000 * n2) * (/ 10 ^ 10 * 4)).
    { apply Rmult_le_compat; try nra. }
    nra. }
  destruct (np_allclose (vneg m) d) eqn:Ec2.
  { exfalso. apply allclose_dot in Ec2; auto.
    - rewrite dot_neg_l in Ec2. lra.
    - unfold is_unit in *. rewrite dot_neg_l, dot_neg_r. lra. }
  assert (Hb : 0 <= acos (dot m d) <= PI / 2).
  { pose proof (acos_bound (dot m d)). split; [lra|].
    destruct (Rle_dec (acos (dot m d)) (PI / 2)); auto. exfalso.
    assert (cos (acos (dot m d)) < 0) by (apply cos_lt_0; lra).
    rewrite cos_acos in H0 by lra. lra. }
  apply fresnel_tir; auto. rewrite sin_acos by lra.
  assert (E : sqrt (1 - Rsqr (dot m d)) = norm (cross d n)).
  { unfold Rsqr. rewrite <- Hcr. apply sqrt_square. assumption. }
  rewrite E. exact Ht.
Qed.
Print Assumptions C41_total_internal_reflection.

Example C41_example : is_unit (V (4/5) 0 (3/5)) /\ is_unit (V 0 0 1) /\
  1 < 3/2 * norm (cross (V (4/5) 0 (3/5)) (V 0 0 1)).
Proof.
  split; [unfold is_unit, dot; simpl; lra|]. split; [unfold is_unit, dot; simpl; lra|].
  unfold norm, dot, cross; simpl.
  match goal with |- context [sqrt ?e] => replace e with ((4/5)*(4/5)) by lra end.
  rewrite sqrt_square by lra. lra.
Qed.

(** ** C69 Refraction is reversible *)
Theorem C69_refraction_reversible : forall d n n1 n2 t,
  is_unit d -> is_unit n -> 0 < n1 -> 0 < n2 -> dot d n <> 0 -> n1 * norm (cross d n) < n2 ->
  fresnel_delegate_transmitted n d n1 n2 = Some t ->
  fresnel_delegate_transmitted n (vneg t) n2 n1 = Some (vneg d).
Proof.
  intros d n n1 n2 t Hd Hn H1 H2 Hne Hlt Ht.
  destruct (C40_snell d n n1 n2 t Hd Hn H1 H2 Ht) as (Htu & _ & _ & Hsgn & _).
  specialize (Hsgn Hne Hlt).
  unfold fresnel_delegate_transmitted, fresnel_refraction in Ht. cbv zeta in Ht.
  assert (Hal : along n (vneg t) = vneg (along n d)).
  { unfold along. rewrite dot_neg_r, (dot_comm n t), (dot_comm n d).
    destruct (Rltb_spec (- dot t n) 0), (Rltb_spec (dot d n) 0); try rewrite vneg_invol; auto; exfalso; nra. }
  unfold fresnel_delegate_transmitted, fresnel_refraction. cbv zeta. rewrite Hal.
  set (m := along n d) in *.
  assert (Hm : is_unit m) by now apply along_unit.
  assert (Hmd : 0 <= dot d m) by (rewrite dot_comm; apply along_dot).
  set (q := 1 - (n1 / n2) ^ 2 * (1 - dot d m ^ 2)) in *.
  destruct (Rltb_spec q 0) as [|Hq]; [discriminate|]. apply Rnot_lt_le in Hq.
  destruct (Rltb_spec (dot d m) 0) as [|_]; [lra|].
  assert (Hcc : sqrt q * sqrt q = q) by now apply sqrt_sqrt.
  assert (Hc0 : 0 <= sqrt q) by apply sqrt_pos.
  set (c := sqrt q) in *. injection Ht as Et.
  set (f := 1 * (c - 1 * (n1 / n2) * dot d m)) in *.
  assert (Hf : f = c - n1 / n2 * dot d m) by (unfold f; ring).
  assert (Htm : dot t m = c).
  { rewrite <- Et. rewrite dot_add_l, !dot_scale_l. unfold is_unit in Hm. rewrite Hm, Hf. ring. }
  rewrite dot_neg_l, dot_neg_r, Ropp_involutive, Htm.
  assert (Eq : 1 - (n2 / n1) ^ 2 * (1 - c ^ 2) = dot d m * dot d m).
  { replace (c ^ 2) with q by (simpl; lra). unfold q. simpl. field. lra. }
  rewrite Eq. assert (0 <= dot d m * dot d m) by nra.
  rltb_f (dot d m * dot d m) 0. rltb_f c 0. rewrite sqrt_square by assumption.
  f_equal. rewrite <- Et. rewrite Hf. apply vec_eq; simpl; field; lra.
Qed.
Print Assumptions C69_refraction_reversible.

(** ** C70 A transmitted ray always has a valid direction *)
(** Whenever Surface.is_reflected says "transmit", the refracted direction is
    defined and has unit length (no nan directions enter the tracer). *)
Theorem C70_transmitted_direction_valid : forall d n n1 n2 r u,
  is_unit d -> is_unit n -> 0 < n1 -> 0 < n2 -> n1 <= 10000 * n2 -> 0 <= u < 1 ->
  fresnel_delegate_reflectivity n d n1 n2 = Some r -> is_reflected r u = false ->
  exists t, fresnel_delegate_transmitted n d n1 n2 = Some t /\ is_unit t.
Proof.
  intros d n n1 n2 r u Hd Hn H1 H2 Hcon Hu Hr Hdec.
  assert (Hle : n1 * norm (cross d n) <= n2).
  { apply Rnot_lt_le. intros Hc.
    destruct (C41_total_internal_reflection d n n1 n2 Hd Hn H1 H2 Hcon Hc) as (r' & Hr' & Hall).
    rewrite Hr in Hr'. inversion Hr'; subst r'. rewrite Hall in Hdec by assumption. discriminate. }
  assert (Hdef : exists t, fresnel_delegate_transmitted n d n1 n2 = Some t).
  { unfold fresnel_delegate_transmitted. apply C40_refraction_defined_iff; auto.
    assert (Hcr : norm (cross d n) * norm (cross d n) = 1 - dot d (along n d) * dot d (along n d)).
    { rewrite norm_sq, lagrange. unfold is_unit in *. rewrite Hd, Hn.
      destruct (along_cases n d) as [E|E]; rewrite E, ?dot_neg_r; ring. }
    rewrite <- Hcr. pose proof (norm_nonneg (cross d n)) as Hnn. set (x := norm (cross d n)) in *.
    replace (n1 * n1 * (x * x)) with ((n1 * x) * (n1 * x)) by ring.
    assert (0 <= n1 * x) by nra. apply Rmult_le_compat; lra. }
  destruct Hdef as (t & Ht). exists t. split; [exact Ht|].
  now destruct (C40_snell d n n1 n2 t Hd Hn H1 H2 Ht).
Qed.
Print Assumptions C70_transmitted_direction_valid.

(** ** C64 The air-gap mirror *)
(** For every non-grazing photon the "specular" branch does not reflect: with the
    indices used by LSC._make_scene (mirror and world both n0) the photon goes
    straight on through the mirror. *)
Theorem C64_air_gap_mirror_refuted : exists normal direction n0 lamb,
  is_unit direction /\ is_unit normal /\ 0 < n0 /\
  air_gap_reflected false normal direction n0 n0 lamb <> Some (specular_reflection direction normal).
Proof.
  exists (V 0 0 1), (V 0 0 (-1)), 1, (V 0 0 1).
  assert (is_unit (V 0 0 (-1))) by (unfold is_unit, dot; simpl; lra).
  assert (is_unit (V 0 0 1)) by (unfold is_unit, dot; simpl; lra).
  split; [assumption|]. split; [assumption|]. split; [lra|].
  unfold air_gap_reflected. simpl negb. cbv iota.
  rewrite C40_matched_indices_straight_on by (auto; lra). rewrite specular_closed.
  intros Hc. inversion Hc as [[Hx Hy Hz]]. unfold dot in Hz; simpl in Hz. lra.
Qed.
Print Assumptions C64_air_gap_mirror_refuted.

(** What actually happens: the mirror is transparent for every photon. *)
Theorem C64_air_gap_mirror_transparent : forall normal direction n0 lamb,
  is_unit direction -> is_unit normal -> 0 < n0 ->
  air_gap_reflected false normal direction n0 n0 lamb = Some direction.
Proof. intros. unfold air_gap_reflected. simpl. now apply C40_matched_indices_straight_on. Qed.
Print Assumptions C64_air_gap_mirror_transparent.

(** The part of the promise that holds: the mirror always chooses to reflect, and the
    diffuse (lambertian) variant on its top face leaves in the drawn direction. *)
Theorem C64_air_gap_mirror_partial : forall direction n1 n2 lamb u,
  0 <= u < 1 ->
  is_reflected air_gap_reflectivity u = true /\
  air_gap_reflected true (V 0 0 1) direction n1 n2 lamb = Some lamb.
Proof.
  intros direction n1 n2 lamb u Hu. split.
  - apply C41_reflects_below_reflectivity; unfold air_gap_reflectivity; lra.
  - unfold air_gap_reflected, np_allclose, np_close; simpl.
    assert (0 < / 10 ^ 8) by (apply Rinv_0_lt_compat; lra). assert (0 < / 10 ^ 5) by (apply Rinv_0_lt_compat; lra).
    rewrite !Rminus_diag_eq by reflexivity. rewrite Rabs_R0, Rabs_R1.
    simpl in *. rleb_t 0 (/ (10 * (10 * (10 * (10 * (10 * (10 * (10 * (10 * 1)))))))) + / (10 * (10 * (10 * (10 * (10 * 1))))) * 0).
    rleb_t 0 (/ (10 * (10 * (10 * (10 * (10 * (10 * (10 * (10 * 1)))))))) + / (10 * (10 * (10 * (10 * (10 * 1))))) * 1).
    reflexivity.
Qed.
Print Assumptions C64_air_gap_mirror_partial.
