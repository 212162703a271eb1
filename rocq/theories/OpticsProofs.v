From Coq Require Import Reals Lra Psatz List Bool.
From Verif Require Import Base Vec OpticsModel.
Import ListNotations.
Open Scope R_scope.

(** sin/asin comparison on the first quadrant *)
Lemma asin_lt_angle x a : 0 <= x <= 1 -> 0 <= a <= PI / 2 -> (asin x < a <-> x < sin a).
Proof.
  intros Hx Ha. pose proof (asin_bound x) as Hb. pose proof PI_RGT_0.
  split; intros H1.
  - rewrite <- (sin_asin x) by lra. apply sin_increasing_1; lra.
  - apply sin_increasing_0; try lra. rewrite sin_asin by lra. exact H1.
Qed.

Lemma cos_nonneg_quadrant a : 0 <= a <= PI / 2 -> 0 <= cos a.
Proof. intros. apply cos_ge_0; lra. Qed.
Lemma sin_nonneg_quadrant a : 0 <= a <= PI / 2 -> 0 <= sin a.
Proof. intros. pose proof PI_RGT_0. apply sin_ge_0; lra. Qed.
Lemma cos_zero_quadrant a : 0 <= a <= PI / 2 -> cos a = 0 -> a = PI / 2.
Proof.
  intros Ha Hc. destruct (Req_EM_T a (PI/2)); auto. exfalso.
  pose proof PI_RGT_0. assert (0 < cos a) by (apply cos_gt_0; lra). lra.
Qed.
Lemma sin_cos_one a : sin a * sin a + cos a * cos a = 1.
Proof. pose proof (sin2_cos2 a). unfold Rsqr in *. lra. Qed.

Lemma sq_ratio_le_one a b : 0 <= a -> 0 <= b -> 0 < a + b -> 0 <= ((a - b) / (a + b)) ^ 2 <= 1.
Proof.
  intros Ha Hb Hab. split; [apply pow2_ge_0|].
  assert (E : ((a - b) / (a + b)) ^ 2 = 1 - 4 * a * b * (/ (a + b) * / (a + b))) by (field; lra).
  rewrite E. assert (0 < / (a + b)) by now apply Rinv_0_lt_compat.
  assert (0 <= a * b) by nra. nra.
Qed.
Lemma sq_ratio_lt_one a b : 0 < a -> 0 < b -> ((a - b) / (a + b)) ^ 2 < 1.
Proof.
  intros Ha Hb.
  assert (E : ((a - b) / (a + b)) ^ 2 = 1 - 4 * (a * b) * (/ (a + b) * / (a + b))) by (field; lra).
  rewrite E. assert (0 < / (a + b)) by (apply Rinv_0_lt_compat; lra).
  assert (0 < a * b) by nra. assert (0 < / (a + b) * / (a + b)) by nra. nra.
Qed.

(** Closed form below the critical angle, in terms of the refracted cosine *)
Lemma tir_test angle n1 n2 : 0 < n1 -> 0 < n2 -> 0 <= angle <= PI / 2 ->
  Rltb n2 n1 && Rltb (asin (n2 / n1)) angle = true <-> n2 < n1 * sin angle.
Proof.
  intros H1 H2 Ha. rewrite andb_true_iff, !Rltb_true.
  assert (Hs := sin_nonneg_quadrant angle Ha). assert (Hs1 : sin angle <= 1) by apply SIN_bound.
  assert (Hdiv : 0 < n2 / n1) by (apply Rdiv_lt_0_compat; auto).
  assert (Hmul : n2 / n1 * n1 = n2) by (field; lra).
  split.
  - intros [Hlt Hang]. apply asin_lt_angle in Hang; auto; [|split; [lra|nra]]. nra.
  - intros H. assert (Hlt : n2 < n1) by nra. split; [exact Hlt|].
    apply asin_lt_angle; auto; [split; [lra|nra]|nra].
Qed.

Lemma fresnel_tir angle n1 n2 : 0 < n1 -> 0 < n2 -> 0 <= angle <= PI / 2 ->
  n2 < n1 * sin angle -> fresnel_reflectivity angle n1 n2 = Some 1.
Proof.
  intros H1 H2 Ha H. unfold fresnel_reflectivity.
  rewrite (proj2 (tir_test angle n1 n2 H1 H2 Ha) H). reflexivity.
Qed.

Lemma fresnel_below angle n1 n2 k : 0 < n1 -> 0 < n2 -> 0 <= angle <= PI / 2 ->
  n1 * sin angle <= n2 -> 0 <= k -> k * k = 1 - (n1 / n2 * sin angle) * (n1 / n2 * sin angle) ->
  0 < cos angle \/ 0 < k ->
  fresnel_reflectivity angle n1 n2 =
    Some (/ 2 * (((n1 * cos angle - n2 * k) / (n1 * cos angle + n2 * k)) ^ 2 +
                 ((n1 * k - n2 * cos angle) / (n1 * k + n2 * cos angle)) ^ 2)).
Proof.
  intros H1 H2 Ha H Hk Hkk Hpos. unfold fresnel_reflectivity.
  destruct (Rltb n2 n1 && Rltb (asin (n2 / n1)) angle) eqn:E.
  { apply tir_test in E; auto. lra. }
  cbv zeta.
  assert (Hq : 1 - (n1 / n2 * sin angle) ^ 2 = k * k) by (simpl; lra).
  rewrite Hq. assert (0 <= k * k) by nra. rltb_f (k * k) 0. rewrite (sqrt_square k Hk).
  pose proof (cos_nonneg_quadrant angle Ha) as Hc.
  destruct (Reqb_spec (n1 * cos angle + n2 * k) 0) as [E0|E0].
  { exfalso. destruct Hpos; nra. }
  destruct (Reqb_spec (n1 * k + n2 * cos angle) 0) as [E1|E1].
  { exfalso. destruct Hpos; nra. }
  reflexivity.
Qed.

(** The refracted cosine exists below the critical angle. *)
Lemma refracted_cos angle n1 n2 : 0 < n1 -> 0 < n2 -> 0 <= angle <= PI / 2 -> n1 * sin angle <= n2 ->
  exists k, 0 <= k /\ k * k = 1 - (n1 / n2 * sin angle) * (n1 / n2 * sin angle) /\
    (n1 * sin angle < n2 -> 0 < k) /\ (n1 * sin angle = n2 -> k = 0).
Proof.
  intros H1 H2 Ha H. pose proof (sin_nonneg_quadrant angle Ha) as Hs.
  set (x := n1 / n2 * sin angle).
  assert (Hx : x * n2 = n1 * sin angle) by (unfold x; field; lra).
  assert (Hx0 : 0 <= x) by (unfold x; apply Rmult_le_pos; auto; left; now apply Rdiv_lt_0_compat).
  assert (Hx1 : x <= 1) by (apply (Rmult_le_reg_r n2); lra).
  exists (sqrt (1 - x * x)). split; [apply sqrt_pos|].
  split; [apply sqrt_sqrt; nra|]. split.
  - intros Hlt. apply sqrt_lt_R0. assert (x < 1) by (apply (Rmult_lt_reg_r n2); lra). nra.
  - intros He. assert (x = 1) by (apply (Rmult_eq_reg_r n2); lra). rewrite H0.
    replace (1 - 1 * 1) with 0 by lra. apply sqrt_0.
Qed.

(** Reflection *)
Lemma along_dot n d : 0 <= dot (along n d) d.
Proof. unfold along. rb; rewrite ?dot_neg_l; lra. Qed.
Lemma along_unit n d : is_unit n -> is_unit (along n d).
Proof. unfold along, is_unit. rb; auto. rewrite dot_neg_l, dot_neg_r. lra. Qed.
Lemma along_cases n d : along n d = n \/ along n d = vneg n.
Proof. unfold along. rb; auto. Qed.

Lemma specular_closed d n : specular_reflection d n = vsub d (vscale (2 * dot n d) n).
Proof.
  unfold specular_reflection, along. rb; auto.
  apply vec_eq; simpl; unfold dot; simpl; ring.
Qed.

Lemma vneg_invol v : vneg (vneg v) = v.
Proof. apply vec_eq; simpl; ring. Qed.

Lemma specular_eq d n : k_specular_reflect d n = specular_reflection d n.
Proof. unfold k_specular_reflect, specular_reflection, along. apply vec_eq; reflexivity. Qed.
Lemma refract_eq d n n1 n2 : k_fresnel_refract d n n1 n2 = fresnel_refraction d n n1 n2.
Proof.
  unfold k_fresnel_refract, fresnel_refraction. cbv zeta.
  replace (1 - (n1 / n2) ^ 2 * (1 - dot d n ^ 2)) with (1 - n1 / n2 * (n1 / n2) * (1 - dot d n * dot d n)) by (simpl; ring).
  reflexivity.
Qed.
