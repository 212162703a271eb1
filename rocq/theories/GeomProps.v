(** C50-C54 and C74-C76: shapes. *)
From Coq Require Import Reals Lra Psatz List Bool Arith Lia Permutation Sorted.
From Verif Require Import Base Vec OpticsModel PhaseModel TransformModel TransformProofs GeomModel GeomProofs.
Import ListNotations.
Open Scope R_scope.

Lemma distance_at_ray o d t : 0 <= t -> is_unit d -> distance_between o (at_ray o d t) = t.
Proof.
  intros Ht Hd. rewrite distance_sym. unfold distance_between, at_ray.
  replace (vsub (vadd o (vscale t d)) o) with (vscale t d) by (destruct o, d; veq).
  rewrite norm_scale_pos, (norm_unit _ Hd) by exact Ht. ring.
Qed.
Lemma unit_nonzero d : is_unit d -> d <> vzero.
Proof. intros H ->. unfold is_unit, dot in H. simpl in H. lra. Qed.

(** *** C50 *)
(** A ray aimed at the centre of a sphere of radius 1e-5: the only reported hit is the
    centre itself. *)
Theorem C50_sphere_intersections_refuted : exists r o d p,
  0 < r /\ is_unit d /\ In p (sphere_intersections r o d) /\ norm p <> r.
Proof.
  exists (/ 10 ^ 5), (V (-1) 0 0), (V 1 0 0), (V 0 0 0).
  split; [lra|]. split; [unfold is_unit, dot; simpl; ring|]. split.
  - unfold sphere_intersections, sphere_ts. cbv zeta. unfold dot; cbn [vx vy vz].
    set (disc := (2 * _) ^ 2 - _). assert (E : disc = 4 * (/ 10 ^ 5 * / 10 ^ 5)) by (unfold disc; field).
    rewrite E. destruct (Rltb_spec (4 * (/ 10 ^ 5 * / 10 ^ 5)) 0); [lra|].
    replace (np_close (4 * (/ 10 ^ 5 * / 10 ^ 5)) 0) with true.
    2:{ symmetry. apply np_close_0. rewrite Rabs_right; lra. }
    simpl sort_by. simpl filter. destruct (Rleb_spec 0 (- (2 * (1 * -1 + 0 * 0 + 0 * 0)) / (2 * (1 * 1 + 0 * 0 + 0 * 0)))) as [H|H].
    + simpl. left. unfold at_ray, vadd, vscale; simpl. apply vec_eq; simpl; field.
    + exfalso. apply H. lra.
  - unfold norm, dot; simpl. replace (0 * 0 + 0 * 0 + 0 * 0) with 0 by ring. rewrite sqrt_0.
    assert (0 < / (10 * (10 * (10 * (10 * (10 * 1)))))) by (apply Rinv_0_lt_compat; lra). lra.
Qed.
Print Assumptions C50_sphere_intersections_refuted.

(** Unless the discriminant is in the tolerance band (0, 1e-8], the reported points are
    exactly the forward points of the sphere on the ray, nearest first. *)
Theorem C50_sphere_intersections_partial : forall r o d,
  0 < r -> is_unit d -> clear_of_grazing r o d ->
  (forall p, In p (sphere_intersections r o d) <-> norm p = r /\ exists t, 0 <= t /\ p = vadd o (vscale t d)) /\
  StronglySorted (fun p q => distance_between o p <= distance_between o q) (sphere_intersections r o d) /\
  (length (sphere_intersections r o d) <= 2)%nat.
Proof.
  intros r o d Hr Hd Hg. pose proof (unit_nonzero d Hd) as Hn. split; [|split].
  - intros p. unfold sphere_intersections. rewrite in_map_iff. split.
    + intros (t & <- & Ht). apply sphere_ts_in in Ht; [|lra|assumption|assumption].
      destruct Ht as [H0 H1]. split; [exact H1|]. now exists t.
    + intros [H1 (t & H0 & ->)]. exists t. split; [reflexivity|]. apply sphere_ts_in; auto. lra.
  - pose proof (sphere_ts_sorted r o d) as Hs. unfold sorted_by in Hs. unfold sphere_intersections.
    assert (Hall : Forall (fun t => 0 <= t) (sphere_ts r o d)).
    { apply Forall_forall. intros t Ht. apply sphere_ts_in in Ht; [tauto|lra|assumption|assumption]. }
    revert Hall. induction Hs as [|t l Hl IH Hall']; simpl; intros Hall; [constructor|].
    inversion Hall as [|? ? Ht Hl2]; subst. constructor; [now apply IH|].
    apply Forall_forall. intros q Hq. apply in_map_iff in Hq. destruct Hq as (s & <- & Hs').
    rewrite Forall_forall in Hall', Hl2. rewrite !distance_at_ray by auto. now apply Hall'.
  - unfold sphere_intersections, sphere_ts. cbv zeta. rewrite map_length.
    destruct (Rltb _ 0); [simpl; lia|]. eapply Nat.le_trans.
    { assert (L : forall f (l : list R), (length (filter f l) <= length l)%nat).
      { intros f l. induction l as [|x l IH]; simpl; [lia|]. destruct (f x); simpl; lia. }
      apply L. }
    rewrite <- (Permutation_length (sort_by_perm (fun t : R => t) _)).
    destruct (np_close _ _); simpl; lia.
Qed.
Print Assumptions C50_sphere_intersections_partial.

(** The kernel's sphere has no tolerance band: exact for every ray. *)
Theorem C50_kernel_sphere_exact : forall r o d, 0 < r -> is_unit d ->
  (forall t, In t (k_intersect_sphere r o d) <-> EPS_ZERO < t /\ norm (vadd o (vscale t d)) = r) /\
  StronglySorted Rle (k_intersect_sphere r o d).
Proof.
  intros r o d Hr Hd. split.
  - intros t. apply k_sphere_in; [lra|now apply unit_nonzero].
  - apply k_sphere_sorted. now apply unit_nonzero.
Qed.
Print Assumptions C50_kernel_sphere_exact.

Theorem C50_engines_agree : forall r o d, 0 < r -> is_unit d ->
  sphere_disc r o d < 0 \/ / 10 ^ 8 < sphere_disc r o d ->
  k_intersect_sphere r o d = filter (fun t => Rltb EPS_ZERO t) (sphere_ts r o d).
Proof.
  intros r o d Hr Hd Hg. pose proof (dot_pos_nonzero d (unit_nonzero d Hd)) as Ha.
  unfold k_intersect_sphere, sphere_ts. cbv zeta. fold (sphere_disc r o d).
  assert (Ed : (2 * dot d o) * (2 * dot d o) - 4 * dot d d * (dot o o - r * r) = sphere_disc r o d)
    by (unfold sphere_disc; ring).
  pose proof (quad_order (dot d d) (2 * dot d o) (dot o o - r * r) Ha) as Ho. rewrite Ed in *.
  destruct (Rltb_spec (sphere_disc r o d) 0) as [Hn|Hn]; [reflexivity|].
  replace (np_close (sphere_disc r o d) 0) with false.
  2:{ symmetry. destruct (np_close (sphere_disc r o d) 0) eqn:E; [|reflexivity]. apply np_close_0 in E.
      pose proof (Rle_abs (sphere_disc r o d)). lra. }
  rewrite sorted2 by exact Ho. pose proof EPS_pos. simpl. rb; simpl; rb; try reflexivity; lra.
Qed.
Print Assumptions C50_engines_agree.

Example C50_example : clear_of_grazing 1 (V (-3) 0 0) (V 1 0 0) /\
  In (V (-1) 0 0) (sphere_intersections 1 (V (-3) 0 0) (V 1 0 0)) /\
  In (V 1 0 0) (sphere_intersections 1 (V (-3) 0 0) (V 1 0 0)).
Proof.
  assert (H : clear_of_grazing 1 (V (-3) 0 0) (V 1 0 0)).
  { right. unfold sphere_disc, dot; simpl. lra. }
  assert (U : is_unit (V 1 0 0)) by (unfold is_unit, dot; simpl; ring).
  destruct (C50_sphere_intersections_partial 1 (V (-3) 0 0) (V 1 0 0) Rlt_0_1 U H) as [K _].
  split; [exact H|]. split; apply K; (split; [apply norm_eq_sq; [lra|unfold dot; simpl; ring]|]).
  - exists 2. split; [lra|]. veq.
  - exists 4. split; [lra|]. veq.
Qed.

(** *** C51 *)
Theorem C51_inside_and_surface_exclusive : forall r p,
  ~ (sphere_contains r p = true /\ sphere_on_surface r p = true).
Proof.
  intros r p [H1 H2]. unfold sphere_contains, sphere_on_surface in *. apply Rltb_true in H1, H2.
  pose proof (Rle_abs (- (norm p - r))). rewrite Rabs_Ropp in *. lra.
Qed.
Print Assumptions C51_inside_and_surface_exclusive.

(** The three regions in terms of the distance to the centre: a point strictly inside by
    more than the tolerance is contained, one within tolerance is on the surface, one
    further out is neither. *)
Theorem C51_regions : forall r p,
  (sphere_contains r p = true <-> norm p < r - EPS_ZERO) /\
  (sphere_on_surface r p = true <-> r - EPS_ZERO < norm p < r + EPS_ZERO).
Proof.
  intros r p. unfold sphere_contains, sphere_on_surface. rewrite !Rltb_true. split; [lra|].
  split.
  - intros H. unfold Rabs in H. destruct (Rcase_abs _); lra.
  - intros H. unfold Rabs. destruct (Rcase_abs _); lra.
Qed.
Print Assumptions C51_regions.

Theorem C51_normal_unit_outward : forall r p, 0 < r -> norm p = r ->
  exists n, sphere_normal p = Some n /\ is_unit n /\ (forall t, 0 < t -> r < norm (vadd p (vscale t n))).
Proof.
  intros r p Hr Hp. unfold sphere_normal.
  destruct (unit_vector p) as [n|] eqn:E.
  - exists n. destruct (unit_vector_unit _ _ E) as [Hn Hs]. split; [reflexivity|]. split; [exact Hn|].
    intros t Ht. replace (vadd p (vscale t n)) with (vscale (r + t) n).
    + rewrite norm_scale_pos, (norm_unit _ Hn) by lra. lra.
    + rewrite <- Hs, Hp. destruct n; veq.
  - exfalso. unfold unit_vector in E. destruct (Reqb_spec (norm p) 0); [lra|discriminate].
Qed.
Print Assumptions C51_normal_unit_outward.

Theorem C51_entering_iff_heading_inside : forall r p d, 0 < r -> norm p = r ->
  exists e, sphere_is_entering r p d = Some e /\
  (e = true <-> exists delta, 0 < delta /\ forall t, 0 < t < delta -> norm (vadd p (vscale t d)) < r).
Proof.
  intros r p d Hr Hp. unfold sphere_is_entering, sphere_on_surface.
  replace (Rltb (Rabs (norm p - r)) EPS_ZERO) with true.
  2:{ symmetry. apply Rltb_true. rewrite Hp, Rminus_diag_eq, Rabs_R0 by reflexivity. apply EPS_pos. }
  unfold sphere_normal. destruct (unit_vector p) as [n|] eqn:E.
  2:{ exfalso. unfold unit_vector in E. destruct (Reqb_spec (norm p) 0); [lra|discriminate]. }
  destruct (unit_vector_unit _ _ E) as [Hn Hs]. eexists. split; [reflexivity|]. rewrite Rltb_true.
  assert (Hpd : dot p d = r * dot n d) by (rewrite <- Hs at 1; rewrite dot_scale_l, Hp; reflexivity).
  assert (Hpp : dot p p = r * r) by (rewrite <- norm_sq, Hp; reflexivity).
  assert (Hlt : forall t, norm (vadd p (vscale t d)) < r <-> 2 * t * dot p d + t * t * dot d d < 0).
  { intros t. assert (Q : norm (vadd p (vscale t d)) * norm (vadd p (vscale t d)) = r * r + 2 * t * dot p d + t * t * dot d d).
    { rewrite norm_sq, <- Hpp. destruct p, d. vsimp. ring. }
    pose proof (norm_nonneg (vadd p (vscale t d))). split; intros; nra. }
  split.
  - intros H. assert (Hpd' : dot p d < 0) by (rewrite Hpd; nra).
    assert (Hdd : 0 < dot d d).
    { destruct (Rle_lt_or_eq_dec _ _ (dot_self_nonneg d)) as [L|Z]; [exact L|].
      pose proof (cauchy_schwarz_sq p d). rewrite <- Z in *. nra. }
    exists (- 2 * dot p d / dot d d). split.
    + apply Rmult_lt_0_compat; [lra|]. now apply Rinv_0_lt_compat.
    + intros t [Ht0 Ht1]. apply Hlt.
      assert (K : t * dot d d < - 2 * dot p d).
      { apply (Rmult_lt_compat_r (dot d d)) in Ht1; [|exact Hdd]. field_simplify in Ht1; lra. }
      nra.
  - intros (delta & Hd0 & H). specialize (H (delta / 2) ltac:(lra)). apply Hlt in H.
    pose proof (dot_self_nonneg d). assert (dot p d < 0) by nra. rewrite Hpd in *. nra.
Qed.
Print Assumptions C51_entering_iff_heading_inside.

Example C51_example : sphere_contains 1 (V (1/2) 0 0) = true /\ sphere_on_surface 1 (V 0 1 0) = true /\
  norm (V 0 1 0) = 1 /\ sphere_contains 1 (V 2 0 0) = false /\ sphere_on_surface 1 (V 2 0 0) = false.
Proof.
  assert (N1 : norm (V (1/2) 0 0) = 1/2) by (apply norm_eq_sq; [lra|unfold dot; simpl; lra]).
  assert (N2 : norm (V 0 1 0) = 1) by (apply norm_eq_sq; [lra|unfold dot; simpl; lra]).
  assert (N3 : norm (V 2 0 0) = 2) by (apply norm_eq_sq; [lra|unfold dot; simpl; lra]).
  pose proof EPS_pos. pose proof EPS_small. assert (/ 10 ^ 9 < 1/10) by lra.
  repeat split; auto; try (apply C51_regions; lra).
  - unfold sphere_contains. rewrite N3. apply Rltb_false. lra.
  - unfold sphere_on_surface. rewrite N3. apply Rltb_false. replace (2 - 1) with 1 by ring. rewrite Rabs_R1. lra.
Qed.

(** *** C52 *)
Theorem C52_kernel_box_exact : forall size o d,
  0 < vx size -> 0 < vy size -> 0 < vz size -> d <> vzero ->
  exact_component (vx d) -> exact_component (vy d) -> exact_component (vz d) ->
  (k_intersect_box size o d = [] /\ (forall t, EPS_ZERO < t -> ~ in_box size (vadd o (vscale t d)))) \/
  (exists tmax, k_intersect_box size o d = [tmax] /\ EPS_ZERO < tmax /\
     (forall t, EPS_ZERO < t -> (in_box size (vadd o (vscale t d)) <-> t <= tmax))) \/
  (exists tmin tmax, k_intersect_box size o d = [tmin; tmax] /\ EPS_ZERO < tmin <= tmax /\
     (forall t, in_box size (vadd o (vscale t d)) <-> tmin <= t <= tmax)).
Proof.
  intros size o d Sx Sy Sz Hd Ex Ey Ez.
  pose proof (box_interval_spec size o d ltac:(lra) ltac:(lra) ltac:(lra) Ex Ey Ez) as Hs.
  assert (Hbig : tiny <= Rabs (vx d) \/ tiny <= Rabs (vy d) \/ tiny <= Rabs (vz d)).
  { destruct Ex as [Ex|]; [|auto]. destruct Ey as [Ey|]; [|auto]. destruct Ez as [Ez|]; [|auto].
    exfalso. apply Hd. apply vec_eq; simpl; assumption. }
  unfold k_intersect_box. destruct (box_interval size o d) as [st|] eqn:E.
  2:{ left. split; [reflexivity|]. intros t _. apply Hs. }
  destruct (box_interval_finite _ _ _ _ E Hbig) as (m & M & ->). unfold in_st in Hs; simpl in Hs.
  destruct (Rltb_spec M m) as [L|L].
  - left. split; [reflexivity|]. intros t _ K. apply Hs in K. lra.
  - destruct (Rltb_spec EPS_ZERO m) as [A|A], (Rltb_spec EPS_ZERO M) as [B|B]; simpl; try lra.
    + right. right. exists m, M. split; [reflexivity|]. split; [lra|]. intros t. symmetry. apply Hs.
    + right. left. exists M. split; [reflexivity|]. split; [exact B|]. intros t Ht. split.
      * intros K. apply Hs in K. lra.
      * intros K. apply Hs. lra.
    + left. split; [reflexivity|]. intros t Ht K. apply Hs in K. lra.
Qed.
Print Assumptions C52_kernel_box_exact.

Example C52_example : k_intersect_box (V 2 2 2) (V (-3) 0 0) (V 1 0 0) = [2; 4].
Proof.
  assert (Tp := tiny_pos). assert (T1 : tiny <= 1).
  { unfold tiny. rewrite <- Rinv_1. apply Rinv_le_contravar; [lra|]. apply pow_R1_Rle. lra. }
  assert (X : exact_component 1) by (right; rewrite Rabs_R1; exact T1).
  assert (Z : exact_component 0) by (left; reflexivity).
  destruct (C52_kernel_box_exact (V 2 2 2) (V (-3) 0 0) (V 1 0 0)) as [[_ H]|[(M & _ & HM & H)|(m & M & -> & Hm & H)]];
    try (simpl; lra); auto.
  - apply unit_nonzero. unfold is_unit, dot; simpl; ring.
  - exfalso. apply (H 3); [|unfold in_box; simpl; lra]. pose proof EPS_small. lra.
  - exfalso. assert (P : EPS_ZERO < 1) by (pose proof EPS_small; lra).
    assert (3 <= M) by (apply H; [lra|unfold in_box; simpl; lra]).
    assert (1 <= M) as K by lra. apply (H 1 P) in K. unfold in_box in K; simpl in K. lra.
  - assert (A : m <= 2 <= M) by (apply H; unfold in_box; simpl; lra).
    assert (B : m <= 4 <= M) by (apply H; unfold in_box; simpl; lra).
    assert (C : m <= m <= M) by lra. apply H in C. unfold in_box in C; simpl in C.
    assert (D : m <= M <= M) by lra. apply H in D. unfold in_box in D; simpl in D.
    assert (m = 2) by lra. assert (M = 4) by lra. now subst.
Qed.

(** *** C53 *)
Lemma box_surface_iff size p : box_on_surface size p = true <->
  Rabs (vx p + vx size / 2) < EPS_ZERO \/ Rabs (vx p - vx size / 2) < EPS_ZERO \/
  Rabs (vy p + vy size / 2) < EPS_ZERO \/ Rabs (vy p - vy size / 2) < EPS_ZERO \/
  Rabs (vz p + vz size / 2) < EPS_ZERO \/ Rabs (vz p - vz size / 2) < EPS_ZERO.
Proof.
  unfold box_on_surface, on_aabb_surface, face_points. simpl combine. simpl filter.
  destruct (dist_axis p (V (- (1/2) * vx size) (vy p) (vz p))) as [D1 _].
  destruct (dist_axis p (V (1/2 * vx size) (vy p) (vz p))) as [D2 _].
  destruct (dist_axis p (V (vx p) (- (1/2) * vy size) (vz p))) as [_ [D3 _]].
  destruct (dist_axis p (V (vx p) (1/2 * vy size) (vz p))) as [_ [D4 _]].
  destruct (dist_axis p (V (vx p) (vy p) (- (1/2) * vz size))) as [_ [_ D5]].
  destruct (dist_axis p (V (vx p) (vy p) (1/2 * vz size))) as [_ [_ D6]].
  simpl in *. rewrite D1, D2, D3, D4, D5, D6 by reflexivity. rewrite !Rabs_Rabsolu.
  replace (vx p - - (1/2) * vx size) with (vx p + vx size / 2) by field.
  replace (vx p - 1/2 * vx size) with (vx p - vx size / 2) by field.
  replace (vy p - - (1/2) * vy size) with (vy p + vy size / 2) by field.
  replace (vy p - 1/2 * vy size) with (vy p - vy size / 2) by field.
  replace (vz p - - (1/2) * vz size) with (vz p + vz size / 2) by field.
  replace (vz p - 1/2 * vz size) with (vz p - vz size / 2) by field.
  replace (2 * EPS_ZERO / 2) with EPS_ZERO by field.
  destruct (Rltb_spec (Rabs (vx p + vx size / 2)) EPS_ZERO); simpl; [tauto|].
  destruct (Rltb_spec (Rabs (vx p - vx size / 2)) EPS_ZERO); simpl; [tauto|].
  destruct (Rltb_spec (Rabs (vy p + vy size / 2)) EPS_ZERO); simpl; [tauto|].
  destruct (Rltb_spec (Rabs (vy p - vy size / 2)) EPS_ZERO); simpl; [tauto|].
  destruct (Rltb_spec (Rabs (vz p + vz size / 2)) EPS_ZERO); simpl; [tauto|].
  destruct (Rltb_spec (Rabs (vz p - vz size / 2)) EPS_ZERO); simpl; [tauto|].
  split; [discriminate|tauto].
Qed.

Definition on_box (size p : vec) : Prop := in_box size p /\
  (Rabs (vx p) = vx size / 2 \/ Rabs (vy p) = vy size / 2 \/ Rabs (vz p) = vz size / 2).

(** (1/2, 100, 0) counts as a surface point of the unit cube. *)
Theorem C53_surface_points_refuted : exists size p, box_on_surface size p = true /\
  forall q, on_box size q -> 99 <= distance_between p q.
Proof.
  exists (V 1 1 1), (V (1/2) 100 0). split.
  - apply box_surface_iff. right. left. simpl. replace (1/2 - 1/2) with 0 by ring. rewrite Rabs_R0. apply EPS_pos.
  - intros q [[_ [Hy _]] _]. simpl in Hy. unfold distance_between, norm.
    rewrite <- (sqrt_square 99) by lra. apply sqrt_le_1_alt. unfold dot, vsub; simpl.
    pose proof (Rle_0_sqr (1/2 - vx q)). pose proof (Rle_0_sqr (0 - vz q)). unfold Rsqr in *. nra.
Qed.
Print Assumptions C53_surface_points_refuted.

(** For points of the (closed) box the test means what it says. *)
Theorem C53_surface_points_partial : forall size p,
  0 < vx size -> 0 < vy size -> 0 < vz size -> in_box size p -> box_on_surface size p = true ->
  exists q, on_box size q /\ distance_between p q < EPS_ZERO.
Proof.
  intros size p Sx Sy Sz Hin H. apply box_surface_iff in H.
  assert (K : exists q, on_box size q /\
     (vy p = vy q /\ vz p = vz q /\ Rabs (vx p - vx q) < EPS_ZERO \/
      vx p = vx q /\ vz p = vz q /\ Rabs (vy p - vy q) < EPS_ZERO \/
      vx p = vx q /\ vy p = vy q /\ Rabs (vz p - vz q) < EPS_ZERO)).
  { unfold in_box in Hin. destruct H as [H|[H|[H|[H|[H|H]]]]].
    - exists (V (- (vx size / 2)) (vy p) (vz p)). split.
      + split; [unfold in_box; simpl; lra|]. left; simpl. rewrite Rabs_Ropp. apply Rabs_right. lra.
      + left. simpl. replace (vx p - - (vx size / 2)) with (vx p + vx size / 2) by ring. auto.
    - exists (V (vx size / 2) (vy p) (vz p)). split.
      + split; [unfold in_box; simpl; lra|]. left; simpl. apply Rabs_right. lra.
      + left. simpl. auto.
    - exists (V (vx p) (- (vy size / 2)) (vz p)). split.
      + split; [unfold in_box; simpl; lra|]. right; left; simpl. rewrite Rabs_Ropp. apply Rabs_right. lra.
      + right; left. simpl. replace (vy p - - (vy size / 2)) with (vy p + vy size / 2) by ring. auto.
    - exists (V (vx p) (vy size / 2) (vz p)). split.
      + split; [unfold in_box; simpl; lra|]. right; left; simpl. apply Rabs_right. lra.
      + right; left. simpl. auto.
    - exists (V (vx p) (vy p) (- (vz size / 2))). split.
      + split; [unfold in_box; simpl; lra|]. right; right; simpl. rewrite Rabs_Ropp. apply Rabs_right. lra.
      + right; right. simpl. replace (vz p - - (vz size / 2)) with (vz p + vz size / 2) by ring. auto.
    - exists (V (vx p) (vy p) (vz size / 2)). split.
      + split; [unfold in_box; simpl; lra|]. right; right; simpl. apply Rabs_right. lra.
      + right; right. simpl. auto. }
  destruct K as (q & Hq & K). exists q. split; [exact Hq|].
  destruct (dist_axis p q) as (D1 & D2 & D3).
  destruct K as [(A & B & C)|[(A & B & C)|(A & B & C)]]; [rewrite D1|rewrite D2|rewrite D3]; assumption.
Qed.
Print Assumptions C53_surface_points_partial.

(** Completeness: every point of the surface passes the test. *)
Theorem C53_every_surface_point_accepted : forall size p,
  0 < vx size -> 0 < vy size -> 0 < vz size -> on_box size p -> box_on_surface size p = true.
Proof.
  intros size p Sx Sy Sz [Hin H]. apply box_surface_iff. pose proof EPS_pos as E.
  assert (K : forall x s, Rabs x = s / 2 -> Rabs (x + s / 2) < EPS_ZERO \/ Rabs (x - s / 2) < EPS_ZERO).
  { intros x s. unfold Rabs at 1. destruct (Rcase_abs x); intros <-; [left|right].
    - replace (x + - x) with 0 by ring. rewrite Rabs_R0. exact E.
    - replace (x - x) with 0 by ring. rewrite Rabs_R0. exact E. }
  destruct H as [H|[H|H]]; apply K in H; tauto.
Qed.
Print Assumptions C53_every_surface_point_accepted.

Example C53_example : on_box (V 2 4 6) (V 1 (1/2) 0) /\ box_on_surface (V 2 4 6) (V 1 (1/2) 0) = true.
Proof.
  assert (H : on_box (V 2 4 6) (V 1 (1/2) 0)).
  { split; [unfold in_box; simpl; lra|]. left. simpl. rewrite Rabs_R1. lra. }
  split; [exact H|]. apply C53_every_surface_point_accepted; simpl; auto; lra.
Qed.

(** *** C54 *)
Definition on_cylinder (length radius : R) (p : vec) : Prop :=
  on_wall length radius p \/ on_cap length radius p \/ on_rim length radius p.

Theorem C54_reported_points_on_surface : forall length radius o d p, 0 < length -> 0 < radius ->
  In p (cylinder_intersections length radius o d) ->
  on_cylinder length radius p /\ exists t, 0 <= t /\ p = vadd o (vscale t d).
Proof.
  intros length radius o d p Hl Hr H. unfold cylinder_intersections in H. apply in_map_iff in H.
  destruct H as (t & <- & H). apply cylinder_ts_in in H; auto. destruct H as [H0 H].
  split; [unfold on_cylinder; tauto|]. now exists t.
Qed.
Print Assumptions C54_reported_points_on_surface.

(** The diagonal of an axial cross-section passes through the whole cylinder and is
    reported to miss it: both end points are on the rims. *)
Theorem C54_complete_refuted : exists length radius o d p, 0 < length /\ 0 < radius /\ is_unit d /\
  on_cylinder length radius p /\ (exists t, 0 < t /\ p = vadd o (vscale t d)) /\
  cylinder_intersections length radius o d = [] /\
  (exists q t, 0 < t /\ q = vadd o (vscale t d) /\ cylinder_contains length radius q = true).
Proof.
  set (s := / sqrt 2).
  assert (S2 : s * s = 1/2).
  { unfold s. rewrite <- Rinv_mult_distr by (apply Rgt_not_eq, sqrt_lt_R0; lra). rewrite sqrt_sqrt by lra. lra. }
  assert (S0 : 0 < s) by (unfold s; apply Rinv_0_lt_compat, sqrt_lt_R0; lra).
  assert (SI : s * sqrt 2 = 1) by (unfold s; apply Rinv_l, Rgt_not_eq, sqrt_lt_R0; lra).
  exists 2, 1, (V (-2) 0 (-2)), (V s 0 s), (V (-1) 0 (-1)).
  split; [lra|]. split; [lra|]. split; [unfold is_unit, dot; simpl; lra|]. split; [|split; [|split]].
  - right. right. split; simpl; [lra|]. left. lra.
  - exists (sqrt 2). split; [apply sqrt_lt_R0; lra|]. unfold vadd, vscale; simpl. apply vec_eq; simpl; lra.
  - unfold cylinder_intersections. destruct (ray_z_cylinder _ _ _ _) as [|t l] eqn:E; [reflexivity|exfalso].
    assert (H : In t (ray_z_cylinder 2 1 (V (-2) 0 (-2)) (V s 0 s))) by (rewrite E; left; reflexivity).
    apply cylinder_ts_in in H; try lra. destruct H as [_ [[[H1 H2] _]|[[H1 H2] _]]];
      unfold at_ray, vadd, vscale in *; simpl in *.
    + nra.
    + destruct H2 as [H2|H2]; nra.
  - exists (V 0 0 0), (2 * sqrt 2). split; [pose proof (sqrt_lt_R0 2 ltac:(lra)); lra|]. split.
    + unfold vadd, vscale; simpl. apply vec_eq; simpl; nra.
    + unfold cylinder_contains; simpl. replace (0 * (0 * 1) + 0 * (0 * 1)) with 0 by ring. rewrite sqrt_0.
      rdec. reflexivity.
Qed.
Print Assumptions C54_complete_refuted.

(** Every transversal crossing that is not on a rim is reported, in order. *)
Theorem C54_complete_partial : forall length radius o d t, 0 < length -> 0 < radius -> 0 <= t ->
  (on_wall length radius (vadd o (vscale t d)) /\ (vx d <> 0 \/ vy d <> 0)) \/
  (on_cap length radius (vadd o (vscale t d)) /\ vz d <> 0) ->
  In (vadd o (vscale t d)) (cylinder_intersections length radius o d) /\
  sorted_by (fun t => t) (ray_z_cylinder length radius o d).
Proof.
  intros length radius o d t Hl Hr Ht H. split; [|apply sort_by_sorted].
  unfold cylinder_intersections. apply in_map_iff. exists t. split; [reflexivity|]. apply cylinder_ts_in; auto.
Qed.
Print Assumptions C54_complete_partial.

(** The kernel's cylinder also reports rims. *)
Theorem C54_kernel_cylinder_exact : forall length radius o d t, 0 < length -> 0 < radius ->
  (vx d = 0 /\ vy d = 0 \/ tiny < vx d * vx d + vy d * vy d) -> (vz d = 0 \/ tiny < Rabs (vz d)) ->
  (In t (k_intersect_cylinder length radius o d) <->
   EPS_ZERO < t /\
   ((on_wall length radius (vadd o (vscale t d)) /\ (vx d <> 0 \/ vy d <> 0)) \/
    ((on_cap length radius (vadd o (vscale t d)) \/ on_rim length radius (vadd o (vscale t d))) /\ vz d <> 0))).
Proof. intros. now apply k_cylinder_in. Qed.
Print Assumptions C54_kernel_cylinder_exact.

Theorem C54_engines_agree_off_rim : forall length radius o d, 0 < length -> 0 < radius ->
  (vx d = 0 /\ vy d = 0 \/ tiny < vx d * vx d + vy d * vy d) -> (vz d = 0 \/ tiny < Rabs (vz d)) ->
  (forall t, EPS_ZERO < t -> ~ on_rim length radius (vadd o (vscale t d))) ->
  Permutation (filter (fun t => Rltb EPS_ZERO t) (ray_z_cylinder length radius o d))
              (k_intersect_cylinder length radius o d).
Proof. intros. now apply cylinder_engines. Qed.
Print Assumptions C54_engines_agree_off_rim.

Example C54_example : In (V (-1) 0 0) (cylinder_intersections 2 1 (V (-3) 0 0) (V 1 0 0)).
Proof.
  destruct (C54_complete_partial 2 1 (V (-3) 0 0) (V 1 0 0) 2) as [H _]; try lra.
  - left. split; [unfold on_wall, vadd, vscale; simpl; lra|]. left. simpl. lra.
  - replace (vadd (V (-3) 0 0) (vscale 2 (V 1 0 0))) with (V (-1) 0 0) in H; [exact H|].
    unfold vadd, vscale; simpl. apply vec_eq; simpl; lra.
Qed.

(** *** C74 *)
(** Membership S along a ray and the number of hits ahead: once from inside, never or
    twice from outside. *)
Definition crossing_rule (S : vec -> Prop) (hits : list R) (o d : vec) : Prop :=
  (S o -> (exists t, EPS_ZERO < t /\ S (vadd o (vscale t d))) -> length hits = 1%nat) /\
  ((forall t, 0 <= t <= EPS_ZERO -> ~ S (vadd o (vscale t d))) -> length hits = 0%nat \/ length hits = 2%nat).

Lemma at_zero o d : vadd o (vscale 0 d) = o.
Proof. destruct o, d. veq. Qed.

Theorem C74_kernel_box_crossings : forall size o d,
  0 < vx size -> 0 < vy size -> 0 < vz size -> d <> vzero ->
  exact_component (vx d) -> exact_component (vy d) -> exact_component (vz d) ->
  crossing_rule (in_box size) (k_intersect_box size o d) o d.
Proof.
  intros size o d Sx Sy Sz Hd Ex Ey Ez. pose proof EPS_pos as E.
  destruct (C52_kernel_box_exact size o d Sx Sy Sz Hd Ex Ey Ez)
    as [[-> H]|[(M & -> & HM & H)|(m & M & -> & Hm & H)]]; split; simpl.
  - intros _ (t & Ht & K). destruct (H t Ht K).
  - auto.
  - auto.
  - intros Hout. exfalso.
    assert (K : in_box size (vadd o (vscale M d))) by (apply H; lra).
    (* points just after EPS are inside, hence EPS itself by closedness *)
    apply (Hout EPS_ZERO ltac:(lra)).
    assert (P : forall eta, 0 < eta -> eta <= M - EPS_ZERO -> in_box size (vadd o (vscale (EPS_ZERO + eta) d))).
    { intros eta H1 H2. apply H; lra. }
    assert (C : forall a b lim, (forall eta, 0 < eta -> eta <= M - EPS_ZERO -> a + (EPS_ZERO + eta) * b <= lim) -> a + EPS_ZERO * b <= lim).
    { intros a b lim F. destruct (Rle_lt_dec (a + EPS_ZERO * b) lim) as [|G]; [assumption|exfalso].
      destruct (Rle_lt_dec 0 b).
      - specialize (F (M - EPS_ZERO) ltac:(lra) ltac:(lra)). nra.
      - set (g := (a + EPS_ZERO * b - lim) / (- 2 * b)).
        assert (Gp : 0 < g) by (apply Rmult_lt_0_compat; [lra|apply Rinv_0_lt_compat; lra]).
        assert (Gb : g * b = - ((a + EPS_ZERO * b - lim) / 2)) by (unfold g; field; lra).
        destruct (Rle_lt_dec g (M - EPS_ZERO)) as [L|L].
        + specialize (F g Gp L). lra.
        + specialize (F (M - EPS_ZERO) ltac:(lra) ltac:(lra)). nra. }
    unfold in_box, vadd, vscale in *; simpl in *.
    assert (C' : forall a b lim, (forall eta, 0 < eta -> eta <= M - EPS_ZERO -> lim <= a + (EPS_ZERO + eta) * b) -> lim <= a + EPS_ZERO * b).
    { intros a b lim F. assert (- a + EPS_ZERO * (- b) <= - lim); [|lra].
      apply C. intros eta H1 H2. specialize (F eta H1 H2). lra. }
    repeat split; (apply C || apply C'); intros eta H1 H2; specialize (P eta H1 H2); lra.
  - intros K0 _. rewrite <- (at_zero o d) in K0. apply H in K0. lra.
  - auto.
Qed.
Print Assumptions C74_kernel_box_crossings.

Theorem C74_kernel_sphere_crossings : forall r o d, 0 < r -> is_unit d ->
  crossing_rule (fun p => norm p <= r) (k_intersect_sphere r o d) o d.
Proof.
  intros r o d Hr Hd. pose proof EPS_pos as E. pose proof (unit_nonzero d Hd) as Hn.
  pose proof (dot_pos_nonzero d Hn) as Ha.
  assert (Hle : forall t, norm (vadd o (vscale t d)) <= r <->
     dot d d * t * t + 2 * dot d o * t + (dot o o - r * r) <= 0).
  { intros t. pose proof (at_ray_sq o d t) as Q. unfold at_ray in Q. rewrite <- norm_sq in Q.
    pose proof (norm_nonneg (vadd o (vscale t d))). split; intros; nra. }
  unfold crossing_rule. rewrite <- (at_zero o d) at 1. unfold k_intersect_sphere. cbv zeta.
  set (a := dot d d) in *. set (b := 2 * dot d o) in *. set (c := dot o o - r * r) in *.
  destruct (Rltb_spec (b * b - 4 * a * c) 0) as [Hd0|Hd0].
  { split; [|simpl; auto]. intros H _. exfalso. apply Hle in H.
    pose proof (Rle_0_sqr b). unfold Rsqr in *. nra. }
  assert (Hq : forall t, norm (vadd o (vscale t d)) <= r <->
     (- b - sqrt (b * b - 4 * a * c)) / (2 * a) <= t <= (- b + sqrt (b * b - 4 * a * c)) / (2 * a)).
  { intros t. rewrite Hle. apply quad_le; [exact Ha|lra]. }
  pose proof (quad_order a b c Ha) as Ho.
  set (w1 := (- b - _) / _) in *. set (w2 := (- b + _) / _) in *. clearbody w1 w2.
  split.
  - intros H0 (t & Ht & H1). apply Hq in H0, H1. rdec. reflexivity.
  - intros Hout. assert (K : forall t, 0 <= t <= EPS_ZERO -> ~ w1 <= t <= w2) by (intros t Ht; rewrite <- Hq; auto).
    pose proof (K 0 ltac:(lra)). pose proof (K w1).
    destruct (Rlt_le_dec EPS_ZERO w1); [right; rdec; reflexivity|].
    destruct (Rlt_le_dec w2 0); [left; rdec; reflexivity|]. exfalso.
    destruct (Rle_lt_dec 0 w1); lra.
Qed.
Print Assumptions C74_kernel_sphere_crossings.

Theorem C74_kernel_cylinder_crossings_partial : forall length radius o d,
  0 < length -> 0 < radius -> d <> vzero ->
  (vx d = 0 /\ vy d = 0 \/ tiny < vx d * vx d + vy d * vy d) -> (vz d = 0 \/ tiny < Rabs (vz d)) ->
  (forall t, EPS_ZERO < t -> ~ on_rim length radius (vadd o (vscale t d))) ->
  crossing_rule (in_cylinder length radius) (k_intersect_cylinder length radius o d) o d /\
  crossing_rule (in_cylinder length radius) (filter (fun t => Rltb EPS_ZERO t) (ray_z_cylinder length radius o d)) o d.
Proof.
  intros length radius o d Hl Hr Hd Ha Hz Hrim.
  pose proof (k_cylinder_parity length radius o d Hl Hr Hd Ha Hz Hrim) as P.
  split; [exact P|].
  unfold crossing_rule. rewrite (Permutation_length (cylinder_engines length radius o d Hl Hr Ha Hz Hrim)). exact P.
Qed.
Print Assumptions C74_kernel_cylinder_crossings_partial.

Theorem C74_python_sphere_crossings_partial : forall r o d, 0 < r -> is_unit d ->
  sphere_disc r o d < 0 \/ / 10 ^ 8 < sphere_disc r o d ->
  crossing_rule (fun p => norm p <= r) (filter (fun t => Rltb EPS_ZERO t) (sphere_ts r o d)) o d.
Proof.
  intros r o d Hr Hd Hg. rewrite <- C50_engines_agree by assumption. now apply C74_kernel_sphere_crossings.
Qed.
Print Assumptions C74_python_sphere_crossings_partial.

(** A small sphere seen from outside counts as one hit, as if the ray were inside. *)
Theorem C74_python_sphere_crossings_refuted : exists r o d, 0 < r /\ is_unit d /\
  (forall t, 0 <= t <= EPS_ZERO -> ~ norm (vadd o (vscale t d)) <= r) /\
  length (filter (fun t => Rltb EPS_ZERO t) (sphere_ts r o d)) = 1%nat.
Proof.
  exists (/ 10 ^ 5), (V (-1) 0 0), (V 1 0 0).
  split; [lra|]. split; [unfold is_unit, dot; simpl; ring|]. split.
  - intros t Ht H. pose proof EPS_small. pose proof (norm_nonneg (vadd (V (-1) 0 0) (vscale t (V 1 0 0)))) as N0.
    pose proof (norm_sq (vadd (V (-1) 0 0) (vscale t (V 1 0 0)))) as Q.
    set (n := norm _) in *. unfold dot, vadd, vscale in Q; simpl in Q.
    assert (n * n <= / 10 ^ 5 * / 10 ^ 5) by (apply Rmult_le_compat; assumption).
    assert (t <= / 10 ^ 9) by lra. nra.
  - unfold sphere_ts. cbv zeta. unfold dot; cbn [vx vy vz].
    set (disc := (2 * _) ^ 2 - _). assert (E : disc = 4 * (/ 10 ^ 5 * / 10 ^ 5)) by (unfold disc; field).
    rewrite E. destruct (Rltb_spec (4 * (/ 10 ^ 5 * / 10 ^ 5)) 0); [lra|].
    replace (np_close (4 * (/ 10 ^ 5 * / 10 ^ 5)) 0) with true.
    2:{ symmetry. apply np_close_0. rewrite Rabs_right; lra. }
    replace (- (2 * (1 * -1 + 0 * 0 + 0 * 0)) / (2 * (1 * 1 + 0 * 0 + 0 * 0))) with 1 by field.
    simpl. rdec. simpl. pose proof EPS_small. assert (/ 10 ^ 9 < 1) by lra. rltb_t EPS_ZERO 1. reflexivity.
Qed.
Print Assumptions C74_python_sphere_crossings_refuted.

(** Python's cylinder entered through the rim and left through the wall: one hit from
    outside. *)
Theorem C74_python_cylinder_crossings_refuted : exists length radius o d, 0 < length /\ 0 < radius /\ is_unit d /\
  (forall t, 0 <= t <= EPS_ZERO -> ~ in_cylinder length radius (vadd o (vscale t d))) /\
  List.length (filter (fun t => Rltb EPS_ZERO t) (ray_z_cylinder length radius o d)) = 1%nat.
Proof.
  (* length 4, radius 1: from (-9/5, 0, -13/5) along (4/5, 0, 3/5): rim at t = 1, wall at t = 7/2 *)
  exists 4, 1, (V (-9/5) 0 (-13/5)), (V (4/5) 0 (3/5)).
  split; [lra|]. split; [lra|]. split; [unfold is_unit, dot; simpl; field|]. split.
  - intros t Ht [_ H]. unfold vadd, vscale in H; simpl in H. pose proof EPS_small. lra.
  - pose proof EPS_pos. pose proof EPS_small. assert (/ 10 ^ 9 < 1) by lra.
    unfold ray_z_cylinder. cbv zeta. cbn [vx vy vz].
    unfold cyl_roots, fdiv.
    destruct (Reqb_spec ((4/5) ^ 2 + 0 ^ 2) 0); [exfalso; lra|].
    destruct (Reqb_spec (- (3/5)) 0); [exfalso; lra|]. destruct (Reqb_spec (3/5) 0); [exfalso; lra|].
    cbv zeta.
    set (disc := 2 * _ * _ - _). assert (Ed : disc = (8/5) * (8/5)) by (unfold disc; field). rewrite Ed.
    destruct (Rltb_spec (8/5 * (8/5)) 0); [exfalso; lra|]. rewrite sqrt_square by lra.
    replace ((- (2 * (-9/5 * (4/5) + 0 * 0)) - 8/5) / (2 * ((4/5)^2 + 0^2))) with 1 by field.
    replace ((- (2 * (-9/5 * (4/5) + 0 * 0)) + 8/5) / (2 * ((4/5)^2 + 0^2))) with (7/2) by field.
    replace ((- (1/2 * 4) - -13/5) * -1 / - (3/5)) with 1 by field.
    replace ((1/2 * 4 - -13/5) / (3/5)) with (23/3) by field.
    simpl app. simpl filter. rdec. simpl filter.
    unfold at_ray, vadd, vscale; cbn [vx vy vz].
    replace (-13/5 + 1 * (3/5)) with (-2) by field.
    replace (-13/5 + 7/2 * (3/5)) with (-1/2) by field. rdec. simpl andb. cbv iota.
    replace ((-9 / 5 + 1 * (4 / 5)) * ((-9 / 5 + 1 * (4 / 5)) * 1) + (0 + 1 * 0) * ((0 + 1 * 0) * 1)) with (1 * 1) by field.
    replace ((-9 / 5 + 23 / 3 * (4 / 5)) * ((-9 / 5 + 23 / 3 * (4 / 5)) * 1) + (0 + 23 / 3 * 0) * ((0 + 23 / 3 * 0) * 1))
      with (13/3 * (13/3)) by field.
    rewrite !sqrt_square by lra. rdec. simpl. rdec. reflexivity.
Qed.
Print Assumptions C74_python_cylinder_crossings_refuted.

(** Even the kernel counts one hit when the ray only touches a rim from outside. *)
Theorem C74_kernel_cylinder_crossings_refuted : exists length radius o d, 0 < length /\ 0 < radius /\ is_unit d /\
  (forall t, 0 <= t <= EPS_ZERO -> ~ in_cylinder length radius (vadd o (vscale t d))) /\
  List.length (k_intersect_cylinder length radius o d) = 1%nat.
Proof.
  exists 4, 1, (V (-9/5) 0 (-7/5)), (V (4/5) 0 (-3/5)).
  split; [lra|]. split; [lra|]. split; [unfold is_unit, dot; simpl; field|].
  pose proof EPS_pos. pose proof EPS_small. assert (/ 10 ^ 9 < 1/10) by lra. split.
  - intros t Ht [H2 _]. unfold vadd, vscale in H2; simpl in H2. nra.
  - assert (T1 : tiny < 1/10).
    { unfold tiny. replace (1/10) with (/ 10 ^ 1) by field. apply Rinv_lt_contravar.
      - apply Rmult_lt_0_compat; apply pow_lt; lra.
      - apply Rlt_pow; [lra|lia]. }
    unfold k_intersect_cylinder. cbv zeta. cbn [vx vy vz].
    rewrite (Rabs_left (-3/5)) by lra.
    destruct (Rltb_spec tiny (4/5 * (4/5) + 0 * 0)); [|exfalso; lra].
    destruct (Rltb_spec tiny (- (-3/5))); [|exfalso; lra].
    set (disc := 2 * _ * _ - _). assert (Ed : disc = (8/5) * (8/5)) by (unfold disc; field). rewrite Ed.
    destruct (Rleb_spec 0 (8/5 * (8/5))); [|exfalso; lra]. rewrite sqrt_square by lra.
    replace ((- (2 * (-9/5 * (4/5) + 0 * 0)) - 8/5) / (2 * (4/5 * (4/5) + 0 * 0))) with 1 by field.
    replace ((- (2 * (-9/5 * (4/5) + 0 * 0)) + 8/5) / (2 * (4/5 * (4/5) + 0 * 0))) with (7/2) by field.
    replace ((- (1/2 * 4) - -7/5) / (-3/5)) with 1 by field.
    replace ((1/2 * 4 - -7/5) / (-3/5)) with (-17/3) by field.
    simpl filter.
    rdec. simpl. rdec. reflexivity.
Qed.
Print Assumptions C74_kernel_cylinder_crossings_refuted.

Example C74_example : crossing_rule (in_box (V 2 2 2)) (k_intersect_box (V 2 2 2) (V (-3) 0 0) (V 1 0 0)) (V (-3) 0 0) (V 1 0 0)
  /\ length (k_intersect_box (V 2 2 2) (V (-3) 0 0) (V 1 0 0)) = 2%nat.
Proof.
  assert (T1 : tiny <= 1).
  { unfold tiny. rewrite <- Rinv_1. apply Rinv_le_contravar; [lra|]. apply pow_R1_Rle. lra. }
  split; [|rewrite C52_example; reflexivity].
  apply C74_kernel_box_crossings; simpl; try lra.
  - apply unit_nonzero. unfold is_unit, dot; simpl; ring.
  - right; rewrite Rabs_R1; exact T1.
  - left; reflexivity.
  - left; reflexivity.
Qed.

(** *** C75 *)
Lemma diag_unit : is_unit (vscale (/ norm (V 1 1 1)) (V 1 1 1)).
Proof.
  assert (U : unit_vector (V 1 1 1) = Some (vscale (/ norm (V 1 1 1)) (V 1 1 1))).
  { unfold unit_vector. destruct (Reqb_spec (norm (V 1 1 1)) 0) as [E|]; [|reflexivity].
    exfalso. pose proof (norm_sq (V 1 1 1)) as Q. rewrite E in Q. unfold dot in Q; simpl in Q. lra. }
  now destruct (unit_vector_unit _ _ U).
Qed.

Lemma diag_components : exists k, 0 < k /\ vscale (/ norm (V 1 1 1)) (V 1 1 1) = V k k k.
Proof.
  exists (/ norm (V 1 1 1)). split.
  - apply Rinv_0_lt_compat. unfold norm. apply sqrt_lt_R0. unfold dot; simpl. lra.
  - unfold vscale; simpl. apply vec_eq; simpl; ring.
Qed.

(** A rim point is a surface point but is rejected. *)
Theorem C75_cylinder_surface_refuted : exists length radius p, 0 < length /\ 0 < radius /\
  on_cylinder length radius p /\ cylinder_on_surface length radius p = false.
Proof.
  exists 2, 1, (V 1 0 1). split; [lra|]. split; [lra|]. split.
  - right. right. split; simpl; [lra|]. right. lra.
  - unfold cylinder_on_surface. destruct diag_components as (k & Hk & ->).
    destruct (ray_z_cylinder _ _ _ _) as [|t l] eqn:E; [reflexivity|exfalso].
    assert (H : In t (ray_z_cylinder 2 1 (V 1 0 1) (V k k k))) by (rewrite E; left; reflexivity).
    apply cylinder_ts_in in H; try lra. destruct H as [H0 [[[H1 H2] _]|[[H1 H2] _]]];
      unfold at_ray, vadd, vscale in *; simpl in *.
    + nra.
    + destruct H2 as [H2|H2]; nra.
Qed.
Print Assumptions C75_cylinder_surface_refuted.

(** So is a point one part in 10^15 above the top cap, well within the tolerance 2e-13. *)
Theorem C75_cylinder_surface_tolerance_refuted : exists length radius p q, 0 < length /\ 0 < radius /\
  on_cylinder length radius q /\ distance_between p q < EPS_ZERO / 100 /\ cylinder_on_surface length radius p = false.
Proof.
  exists 2, 1, (V 0 0 (1 + / 10 ^ 15)), (V 0 0 1). split; [lra|]. split; [lra|]. split; [|split].
  - right. left. split; simpl; [lra|]. right. lra.
  - destruct (dist_axis (V 0 0 (1 + / 10 ^ 15)) (V 0 0 1)) as (_ & _ & D). rewrite D by reflexivity. cbn [vz].
    replace (1 + / 10 ^ 15 - 1) with (/ 10 ^ 15) by ring. unfold EPS_ZERO. rewrite Rabs_right; lra.
  - unfold cylinder_on_surface. destruct diag_components as (k & Hk & ->).
    destruct (ray_z_cylinder _ _ _ _) as [|t l] eqn:E; [reflexivity|exfalso].
    assert (H : In t (ray_z_cylinder 2 1 (V 0 0 (1 + / 10 ^ 15)) (V k k k))) by (rewrite E; left; reflexivity).
    assert (Hm : 0 < / 10 ^ 15) by (apply Rinv_0_lt_compat; lra).
    apply cylinder_ts_in in H; try lra. destruct H as [H0 [[[H1 H2] _]|[[H1 H2] _]]];
      unfold at_ray, vadd, vscale in *; cbn [vx vy vz] in *.
    + nra.
    + destruct H2 as [H2|H2]; nra.
Qed.
Print Assumptions C75_cylinder_surface_tolerance_refuted.

(** Exact surface points off the rims are accepted, and an accepted point is within
    tolerance of the surface. *)
Theorem C75_cylinder_surface_partial : forall length radius p, 0 < length -> 0 < radius ->
  (on_wall length radius p \/ on_cap length radius p -> cylinder_on_surface length radius p = true) /\
  (cylinder_on_surface length radius p = true -> exists q, on_cylinder length radius q /\ distance_between p q < EPS_ZERO).
Proof.
  intros length radius p Hl Hr. pose proof diag_unit as U. unfold cylinder_on_surface.
  destruct diag_components as (k & Hk & Ek). rewrite Ek in *. split.
  - intros H.
    assert (K : In 0 (ray_z_cylinder length radius p (V k k k))).
    { apply cylinder_ts_in; auto. unfold at_ray. rewrite at_zero. split; [lra|]. simpl.
      destruct H; [left|right]; (split; [assumption|]); [left|]; lra. }
    pose proof (sort_by_sorted (fun t : R => t)) as Hs.
    destruct (ray_z_cylinder length radius p (V k k k)) as [|t l] eqn:E; [contradiction|].
    assert (S : sorted_by (fun t => t) (t :: l)) by (rewrite <- E; apply sort_by_sorted).
    pose proof (sorted_by_head (fun t => t) t l 0 S K) as L. simpl in L.
    assert (T : In t (ray_z_cylinder length radius p (V k k k))) by (rewrite E; left; reflexivity).
    apply cylinder_ts_in in T; auto. destruct T as [T _].
    unfold close_to_zero. apply Rltb_true. replace t with 0 by lra. rewrite Rabs_R0. apply EPS_pos.
  - destruct (ray_z_cylinder length radius p (V k k k)) as [|t l] eqn:E; [discriminate|].
    intros H. unfold close_to_zero in H. apply Rltb_true in H.
    assert (T : In t (ray_z_cylinder length radius p (V k k k))) by (rewrite E; left; reflexivity).
    apply cylinder_ts_in in T; auto. destruct T as [T0 T].
    exists (at_ray p (V k k k) t). split; [unfold on_cylinder; tauto|].
    rewrite distance_at_ray by assumption. pose proof (Rle_abs t). lra.
Qed.
Print Assumptions C75_cylinder_surface_partial.

Example C75_example : on_wall 2 1 (V 1 0 (1/2)) /\ cylinder_on_surface 2 1 (V 1 0 (1/2)) = true.
Proof.
  assert (H : on_wall 2 1 (V 1 0 (1/2))) by (unfold on_wall; simpl; lra).
  split; [exact H|]. apply C75_cylinder_surface_partial; try lra. now left.
Qed.

(** *** C76 *)
(** Box: whenever Python's normal is defined the kernel agrees. *)
Theorem C76_box_normals_agree : forall size p n, box_normal size p = Some n -> k_box_normal size p = n.
Proof.
  intros size p n. unfold box_normal, on_aabb_surface, face_points. simpl combine. simpl filter.
  destruct (dist_axis p (V (- (1/2) * vx size) (vy p) (vz p))) as [D1 _].
  destruct (dist_axis p (V (1/2 * vx size) (vy p) (vz p))) as [D2 _].
  destruct (dist_axis p (V (vx p) (- (1/2) * vy size) (vz p))) as [_ [D3 _]].
  destruct (dist_axis p (V (vx p) (1/2 * vy size) (vz p))) as [_ [D4 _]].
  destruct (dist_axis p (V (vx p) (vy p) (- (1/2) * vz size))) as [_ [_ D5]].
  destruct (dist_axis p (V (vx p) (vy p) (1/2 * vz size))) as [_ [_ D6]].
  simpl in *. rewrite D1, D2, D3, D4, D5, D6 by reflexivity. rewrite !Rabs_Rabsolu.
  replace (2 * EPS_ZERO / 2) with EPS_ZERO by field.
  unfold k_box_normal. cbv zeta. simpl hd. simpl tl.
  replace (-1 * (1/2) * vx size) with (- (1/2) * vx size) by ring.
  replace (1 * (1/2) * vx size) with (1/2 * vx size) by ring.
  replace (-1 * (1/2) * vy size) with (- (1/2) * vy size) by ring.
  replace (1 * (1/2) * vy size) with (1/2 * vy size) by ring.
  replace (-1 * (1/2) * vz size) with (- (1/2) * vz size) by ring.
  replace (1 * (1/2) * vz size) with (1/2 * vz size) by ring.
  generalize (Rabs (vx p - - (1/2) * vx size)) (Rabs (vx p - 1/2 * vx size))
             (Rabs (vy p - - (1/2) * vy size)) (Rabs (vy p - 1/2 * vy size))
             (Rabs (vz p - - (1/2) * vz size)) (Rabs (vz p - 1/2 * vz size)).
  intros x1 x2 y1 y2 z1 z2. simpl fold_left.
  destruct (Rltb_spec x1 EPS_ZERO), (Rltb_spec x2 EPS_ZERO), (Rltb_spec y1 EPS_ZERO),
           (Rltb_spec y2 EPS_ZERO), (Rltb_spec z1 EPS_ZERO), (Rltb_spec z2 EPS_ZERO);
    simpl; try discriminate; intros Hn; injection Hn as <-;
    repeat (match goal with |- context [Rltb ?x ?y] => is_var x; is_var y; destruct (Rltb_spec x y); simpl in *; try (exfalso; lra) end);
    reflexivity.
Qed.
Print Assumptions C76_box_normals_agree.

(** At a point of exactly one face (more than the tolerance away from the others) the
    box normal is defined, unit and points out of the box. *)
Theorem C76_box_normal_outward : forall size p n,
  0 < vx size -> 0 < vy size -> 0 < vz size -> on_box size p -> box_normal size p = Some n ->
  is_unit n /\ (forall t, EPS_ZERO <= t -> ~ in_box size (vadd p (vscale t n))).
Proof.
  intros size p n Sx Sy Sz Hon. unfold box_normal.
  destruct (on_aabb_surface size p (2 * EPS_ZERO)) as [|i [|]] eqn:E; try discriminate.
  assert (Hi : In i (on_aabb_surface size p (2 * EPS_ZERO))) by (rewrite E; left; reflexivity). clear E.
  intros Hn. unfold on_aabb_surface in Hi. apply in_map_iff in Hi. destruct Hi as ([j q] & Hj & Hin).
  simpl in Hj. subst j. apply filter_In in Hin. destruct Hin as [Hin Hlt]. apply Rltb_true in Hlt.
  simpl snd in Hlt. rewrite (Rabs_right (distance_between p q)) in Hlt by (apply Rle_ge, norm_nonneg).
  replace (2 * EPS_ZERO / 2) with EPS_ZERO in Hlt by field.
  destruct Hon as [Hb _]. unfold in_box in Hb. pose proof EPS_pos.
  destruct (dist_axis p q) as (D1 & D2 & D3).
  simpl in Hin.
  assert (HR : forall x y, Rabs (x - y) < EPS_ZERO -> y - EPS_ZERO < x < y + EPS_ZERO).
  { intros x y. unfold Rabs. destruct (Rcase_abs _); intros; lra. }
  destruct Hin as [K|[K|[K|[K|[K|[K|[]]]]]]]; injection K as <- <-; simpl in Hn; injection Hn as <-;
    (split; [unfold is_unit, dot; simpl; ring|]);
    [rewrite D1 in Hlt by reflexivity|rewrite D1 in Hlt by reflexivity|rewrite D2 in Hlt by reflexivity
    |rewrite D2 in Hlt by reflexivity|rewrite D3 in Hlt by reflexivity|rewrite D3 in Hlt by reflexivity];
    apply HR in Hlt; simpl in Hlt; intros t Ht; unfold in_box, vadd, vscale; simpl; lra.
Qed.
Print Assumptions C76_box_normal_outward.

(** Sphere normals agree wherever defined. *)
Theorem C76_sphere_normals_agree : forall p n, sphere_normal p = Some n -> k_sphere_normal p = n.
Proof.
  intros p n. unfold sphere_normal, unit_vector, k_sphere_normal.
  destruct (Reqb (norm p) 0); [discriminate|]. injection 1 as <-. reflexivity.
Qed.
Print Assumptions C76_sphere_normals_agree.

(** Cylinder normals agree wherever Python's is defined. *)
Theorem C76_cylinder_normals_agree : forall length radius p n, 0 < length ->
  cylinder_normal length radius p = Some n -> k_cylinder_normal length p = n.
Proof.
  intros length radius p n Hl. unfold cylinder_normal, k_cylinder_normal, np_close. cbv zeta.
  replace (vz p - - (1/2) * length) with (vz p + 1/2 * length) by ring.
  replace (- (1/2) * length) with (- (1/2 * length)) by ring. rewrite Rabs_Ropp.
  destruct (Rleb _ _); [now injection 1|]. destruct (Rleb _ _); [now injection 1|].
  destruct (Rleb _ _); [|discriminate].
  unfold unit_vector, norm, dot; simpl. destruct (Reqb _ 0); [discriminate|]. injection 1 as <-.
  replace (vx p * vx p + vy p * vy p + 0 * 0) with (vx p * vx p + vy p * vy p) by ring.
  unfold vscale; simpl. unfold Rdiv. apply vec_eq; simpl; ring.
Qed.
Print Assumptions C76_cylinder_normals_agree.

(** A wall point close to (but not on) the top rim gets the cap's normal. *)
Theorem C76_cylinder_normal_refuted : exists length radius p, 0 < length /\ 0 < radius /\
  on_wall length radius p /\ vz p < length / 2 - / 10 ^ 6 /\
  cylinder_normal length radius p = Some (V 0 0 1) /\ k_cylinder_normal length p = V 0 0 1.
Proof.
  exists 2, 1, (V 1 0 (1 - / 10 ^ 5 * (1/2))).
  split; [lra|]. split; [lra|]. split; [split; simpl; lra|]. split; [simpl; lra|].
  assert (H : cylinder_normal 2 1 (V 1 0 (1 - / 10 ^ 5 * (1/2))) = Some (V 0 0 1)).
  { unfold cylinder_normal, np_close. cbn [vz].
    replace (1 - / 10 ^ 5 * (1/2) - - (1/2) * 2) with (2 - / 10 ^ 5 * (1/2)) by lra.
    replace (1 - / 10 ^ 5 * (1/2) - 1/2 * 2) with (- (/ 10 ^ 5 * (1/2))) by lra.
    rewrite Rabs_Ropp, (Rabs_right (2 - / 10 ^ 5 * (1/2))), (Rabs_right (/ 10 ^ 5 * (1/2))) by lra.
    rewrite (Rabs_left (- (1/2) * 2)), (Rabs_right (1/2 * 2)) by lra. rdec. reflexivity. }
  split; [exact H|]. apply (C76_cylinder_normals_agree 2 1 _ _ ltac:(lra) H).
Qed.
Print Assumptions C76_cylinder_normal_refuted.

(** Away from that band the wall normal is the unit radial direction. *)
Theorem C76_cylinder_normal_partial : forall length radius p, 0 < length -> 0 < radius ->
  (on_wall length radius p -> np_close (vz p) (- (1/2) * length) = false -> np_close (vz p) (1/2 * length) = false ->
   cylinder_normal length radius p = Some (V (vx p / radius) (vy p / radius) 0) /\
   is_unit (V (vx p / radius) (vy p / radius) 0)) /\
  (vz p = - (length / 2) -> cylinder_normal length radius p = Some (V 0 0 (-1))) /\
  (/ 10 ^ 7 < length -> vz p = length / 2 -> cylinder_normal length radius p = Some (V 0 0 1)).
Proof.
  intros length radius p Hl Hr. split; [|split].
  - intros [Hw _] H1 H2. unfold cylinder_normal. rewrite H1, H2.
    replace (vx p ^ 2 + vy p ^ 2) with (radius * radius) by (rewrite <- Hw; ring). rewrite sqrt_square by lra.
    replace (np_close radius radius) with true.
    2:{ symmetry. apply Rleb_true. rewrite Rminus_diag_eq, Rabs_R0 by reflexivity.
        pose proof (Rabs_pos radius). assert (0 < / 10 ^ 5) by (apply Rinv_0_lt_compat; lra).
        assert (0 < / 10 ^ 8) by (apply Rinv_0_lt_compat; lra). nra. }
    assert (N : norm (V (vx p) (vy p) 0) = radius).
    { apply norm_eq_sq; [lra|]. unfold dot; simpl. rewrite <- Hw. ring. }
    split.
    + unfold unit_vector. rewrite N. destruct (Reqb_spec radius 0); [lra|]. f_equal.
      unfold vscale; simpl. apply vec_eq; simpl; unfold Rdiv; ring.
    + unfold is_unit, dot; simpl. replace (vx p / radius * (vx p / radius) + vy p / radius * (vy p / radius) + 0 * 0)
        with ((vx p * vx p + vy p * vy p) / (radius * radius)) by (field; lra). rewrite Hw. field. lra.
  - intros E. unfold cylinder_normal, np_close. rewrite E.
    replace (- (length / 2) - - (1/2) * length) with 0 by field. rewrite Rabs_R0.
    destruct (Rleb_spec 0 (/ 10 ^ 8 + / 10 ^ 5 * Rabs (- (1/2) * length))) as [|H]; [reflexivity|].
    exfalso. apply H. pose proof (Rabs_pos (- (1/2) * length)).
    assert (0 < / 10 ^ 5) by (apply Rinv_0_lt_compat; lra). assert (0 < / 10 ^ 8) by (apply Rinv_0_lt_compat; lra). nra.
  - intros Hlong E. unfold cylinder_normal, np_close. rewrite E.
    replace (length / 2 - - (1/2) * length) with length by field.
    replace (length / 2 - 1/2 * length) with 0 by field. rewrite Rabs_R0.
    rewrite (Rabs_right length), (Rabs_left (- (1/2) * length)) by lra.
    destruct (Rleb_spec length (/ 10 ^ 8 + / 10 ^ 5 * - (- (1/2) * length))) as [L|L].
    2:{ destruct (Rleb_spec 0 (/ 10 ^ 8 + / 10 ^ 5 * Rabs (1/2 * length))) as [|H]; [reflexivity|].
        exfalso. apply H. pose proof (Rabs_pos (1/2 * length)).
        assert (0 < / 10 ^ 5) by (apply Rinv_0_lt_compat; lra). assert (0 < / 10 ^ 8) by (apply Rinv_0_lt_compat; lra). nra. }
    exfalso. lra.
Qed.
Print Assumptions C76_cylinder_normal_partial.

(** is_entering (68-78): outside that band, and off the rims, the answer is whether the ray goes
    inside *)
Definition heads_into_cylinder (length radius : R) (p d : vec) : Prop := exists delta, 0 < delta /\ forall t, 0 < t < delta ->
  let q := vadd p (vscale t d) in vx q * vx q + vy q * vy q < radius * radius /\ - (length / 2) < vz q < length / 2.
Theorem C76_cylinder_entering_partial : forall length radius p d, / 10 ^ 7 < length -> 0 < radius ->
  (on_wall length radius p /\ np_close (vz p) (- (1/2) * length) = false /\ np_close (vz p) (1/2 * length) = false) \/ on_cap length radius p ->
  exists e, cylinder_is_entering length radius p d = Some e /\ (e = true <-> heads_into_cylinder length radius p d).
Proof.
  intros length radius p d Hl Hr H. assert (Hl0 : 0 < length) by (assert (0 < / 10 ^ 7) by (apply Rinv_0_lt_compat; lra); lra).
  unfold cylinder_is_entering. destruct (C75_cylinder_surface_partial length radius p Hl0 Hr) as [K _].
  rewrite K by (destruct H as [(H & _)|H]; [left|right]; exact H).
  destruct (C76_cylinder_normal_partial length radius p Hl0 Hr) as (N1 & N2 & N3). unfold heads_into_cylinder, vadd, vscale. cbn [vx vy vz].
  assert (Q : forall a b, 0 < a -> exists delta, 0 < delta /\ forall t, 0 < t < delta -> 0 < a + t * b).
  { intros a b Ha. exists (a / (Rabs b + 1)). pose proof (Rabs_pos b) as Hb. split; [apply Rdiv_lt_0_compat; lra|]. intros t [Ht0 Ht].
    assert (t * (Rabs b + 1) < a). { replace a with (a / (Rabs b + 1) * (Rabs b + 1)) by (field; lra). apply Rmult_lt_compat_r; lra. }
    pose proof (Rle_abs (- b)) as Hn. rewrite Rabs_Ropp in Hn. nra. }
  destruct H as [(Hw & B1 & B2)|Hc].
  - destruct (N1 Hw B1 B2) as [-> _]. destruct Hw as [Hw1 Hw2]. eexists. split; [reflexivity|]. rewrite Rltb_true. unfold dot. cbn [vx vy vz].
    set (w := vx p * vx d + vy p * vy d). set (m := vx d * vx d + vy d * vy d).
    assert (Ew : vx p / radius * vx d + vy p / radius * vy d + 0 * vz d = w / radius) by (unfold w; field; lra). rewrite Ew.
    assert (Sw : w / radius < 0 <-> w < 0).
    { assert (Es : w = w / radius * radius) by (field; lra). split; intros; [rewrite Es; nra|]. apply Ropp_lt_cancel. rewrite Ropp_0. unfold Rdiv. rewrite <- Ropp_mult_distr_l_reverse. apply Rmult_lt_0_compat; [lra|now apply Rinv_0_lt_compat]. }
    rewrite Sw. assert (Exp : forall t, (vx p + t * vx d) * (vx p + t * vx d) + (vy p + t * vy d) * (vy p + t * vy d) = radius * radius + t * (2 * w + t * m)) by (intros t; rewrite <- Hw1; unfold w, m; ring).
    assert (Hm : 0 <= m) by (unfold m; nra).
    split.
    + intros Hlt. destruct (Q (- (2 * w)) (- m) ltac:(lra)) as (d1 & P1 & G1). destruct (Q (length / 2 - vz p) (- vz d) ltac:(lra)) as (d2 & P2 & G2).
      destruct (Q (length / 2 + vz p) (vz d) ltac:(lra)) as (d3 & P3 & G3). exists (Rmin d1 (Rmin d2 d3)). split; [repeat apply Rmin_glb_lt; assumption|].
      intros t [Ht0 Ht]. pose proof (Rmin_l d1 (Rmin d2 d3)). pose proof (Rmin_r d1 (Rmin d2 d3)). pose proof (Rmin_l d2 d3). pose proof (Rmin_r d2 d3).
      specialize (G1 t ltac:(lra)). specialize (G2 t ltac:(lra)). specialize (G3 t ltac:(lra)). cbv zeta. rewrite Exp. split; [nra|lra].
    + intros (delta & P & G). specialize (G (delta / 2) ltac:(lra)). cbv zeta in G. rewrite Exp in G. destruct G as [G _]. nra.
  - assert (Z : exists sg, (sg = 1 \/ sg = -1) /\ vz p = sg * (length / 2) /\ cylinder_normal length radius p = Some (V 0 0 sg)).
    { destruct Hc as [_ [E|E]]; [exists (-1)|exists 1]; (split; [tauto|]); (split; [lra|]); [apply N2; lra|apply N3; lra]. }
    destruct Z as (sg & Hsg & Ez & ->). destruct Hc as [Hc _]. eexists. split; [reflexivity|]. rewrite Rltb_true. unfold dot. cbn [vx vy vz].
    replace (0 * vx d + 0 * vy d + sg * vz d) with (sg * vz d) by ring.
    set (w := vx p * vx d + vy p * vy d). set (m := vx d * vx d + vy d * vy d).
    assert (Exp : forall t, (vx p + t * vx d) * (vx p + t * vx d) + (vy p + t * vy d) * (vy p + t * vy d) = vx p * vx p + vy p * vy p + t * (2 * w + t * m)) by (intros t; unfold w, m; ring).
    assert (Hm : 0 <= m) by (unfold m; nra).
    split.
    + intros Hlt. destruct (Q (radius * radius - (vx p * vx p + vy p * vy p)) (- (2 * w + m)) ltac:(lra)) as (d1 & P1 & G1).
      destruct (Q length (sg * vz d) ltac:(lra)) as (d2 & P2 & G2). exists (Rmin 1 (Rmin d1 d2)). split; [repeat apply Rmin_glb_lt; lra|].
      intros t [Ht0 Ht]. pose proof (Rmin_l 1 (Rmin d1 d2)). pose proof (Rmin_r 1 (Rmin d1 d2)). pose proof (Rmin_l d1 d2). pose proof (Rmin_r d1 d2).
      specialize (G1 t ltac:(lra)). specialize (G2 t ltac:(lra)). cbv zeta. rewrite Exp. split; [assert (0 <= t * m) by (apply Rmult_le_pos; lra); assert (t * (t * m) <= 1 * (t * m)) by (apply Rmult_le_compat_r; lra); lra|].
      rewrite Ez. destruct Hsg as [ -> | -> ]; split; nra.
    + intros (delta & P & G). specialize (G (delta / 2) ltac:(lra)). cbv zeta in G. destruct G as [_ G]. rewrite Ez in G. destruct Hsg as [ -> | -> ]; nra.
Qed.
Print Assumptions C76_cylinder_entering_partial.
(** In the band a ray that goes straight in is not entering; at a rim the question is refused. *)
Theorem C76_cylinder_entering_refuted : exists length radius p d, 0 < length /\ 0 < radius /\ on_wall length radius p /\
  heads_into_cylinder length radius p d /\ cylinder_is_entering length radius p d = Some false.
Proof.
  exists 2, 1, (V 1 0 (1 - / 10 ^ 5 * (1/2))), (V (-1) 0 0). split; [lra|]. split; [lra|].
  assert (W : on_wall 2 1 (V 1 0 (1 - / 10 ^ 5 * (1/2)))) by (split; simpl; lra). split; [exact W|]. split.
  - exists 1. split; [lra|]. intros t Ht. cbv zeta. unfold vadd, vscale. cbn [vx vy vz]. split; [nra|]. lra.
  - unfold cylinder_is_entering. rewrite (proj1 (C75_cylinder_surface_partial 2 1 _ ltac:(lra) ltac:(lra)) (or_introl W)).
    assert (N : cylinder_normal 2 1 (V 1 0 (1 - / 10 ^ 5 * (1/2))) = Some (V 0 0 1)).
    { unfold cylinder_normal, np_close. cbn [vz].
      replace (1 - / 10 ^ 5 * (1/2) - - (1/2) * 2) with (2 - / 10 ^ 5 * (1/2)) by lra.
      replace (1 - / 10 ^ 5 * (1/2) - 1/2 * 2) with (- (/ 10 ^ 5 * (1/2))) by lra.
      rewrite Rabs_Ropp, (Rabs_right (2 - / 10 ^ 5 * (1/2))), (Rabs_right (/ 10 ^ 5 * (1/2))) by lra.
      rewrite (Rabs_left (- (1/2) * 2)), (Rabs_right (1/2 * 2)) by lra. rdec. reflexivity. }
    rewrite N. f_equal. apply Rltb_false. unfold dot. cbn [vx vy vz]. lra.
Qed.
Print Assumptions C76_cylinder_entering_refuted.
Example C76_entering_example : cylinder_is_entering 2 1 (V 0 0 1) (V 0 0 (-1)) = Some true.
Proof.
  destruct (C76_cylinder_entering_partial 2 1 (V 0 0 1) (V 0 0 (-1))) as (e & -> & E); try lra.
  - right. split; simpl; lra.
  - f_equal. apply E. exists 1. split; [lra|]. intros t Ht. cbv zeta. unfold vadd, vscale. cbn [vx vy vz]. split; [nra|lra].
Qed.

Example C76_example : cylinder_normal 2 1 (V 1 0 0) = Some (V (1/1) (0/1) 0) /\
  box_normal (V 2 2 2) (V 1 0 0) = Some (V 1 0 0).
Proof.
  pose proof EPS_pos. pose proof EPS_small. assert (/ 10 ^ 9 < 1/10) by lra. split.
  - apply (C76_cylinder_normal_partial 2 1 (V 1 0 0)); try lra.
    + split; simpl; lra.
    + apply Rleb_false. cbn [vz]. replace (0 - - (1/2) * 2) with 1 by lra. rewrite Rabs_R1. rewrite (Rabs_left (- (1/2) * 2)) by lra. lra.
    + apply Rleb_false. cbn [vz]. replace (0 - 1/2 * 2) with (-1) by lra. rewrite (Rabs_left (-1)), (Rabs_right (1/2 * 2)) by lra. lra.
  - unfold box_normal, on_aabb_surface, face_points. simpl combine.
    destruct (dist_axis (V 1 0 0) (V (- (1/2) * 2) 0 0)) as [D1 _].
    destruct (dist_axis (V 1 0 0) (V (1/2 * 2) 0 0)) as [D2 _].
    destruct (dist_axis (V 1 0 0) (V 1 (- (1/2) * 2) 0)) as [_ [D3 _]].
    destruct (dist_axis (V 1 0 0) (V 1 (1/2 * 2) 0)) as [_ [D4 _]].
    destruct (dist_axis (V 1 0 0) (V 1 0 (- (1/2) * 2))) as [_ [_ D5]].
    destruct (dist_axis (V 1 0 0) (V 1 0 (1/2 * 2))) as [_ [_ D6]].
    cbn [vx vy vz filter snd fst combine] in *. rewrite D1, D2, D3, D4, D5, D6 by reflexivity. rewrite !Rabs_Rabsolu.
    replace (1 - - (1/2) * 2) with 2 by field. replace (1 - 1/2 * 2) with 0 by field.
    replace (0 - - (1/2) * 2) with 1 by field. replace (0 - 1/2 * 2) with (-1) by field.
    rewrite Rabs_R0, Rabs_R1, (Rabs_left (-1)), (Rabs_right 2) by lra. rdec. reflexivity.
Qed.
