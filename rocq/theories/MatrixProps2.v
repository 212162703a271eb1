(** More properties of geometry/transformations.py: interpolation, random rotations, mirrors, scaling,
    projections, shears, crystal cells, composition and decomposition. *)
From Coq Require Import Reals List Bool Arith ZArith Lra Lia Nsatz.
From Verif Require Import Base Vec TransformModel TransformProofs MatrixModel MatrixProofs.
Import ListNotations.
Open Scope R_scope.

(** ** C125: interpolation, random rotations *)
Lemma qunit_some q u : qunit q = Some u -> qdot u u = 1 /\ exists k, 0 < k /\ q = qscale k u.
Proof.
  unfold qunit. destruct (Reqb_spec (qdot q q) 0) as [E|E]; [discriminate|]. intros H. injection H as <-.
  assert (P : 0 < qdot q q) by (pose proof (qdot_nonneg q); lra). assert (S : 0 < sqrt (qdot q q)) by now apply sqrt_lt_R0.
  split.
  - rewrite qdot_scale. rewrite <- (sqrt_sqrt (qdot q q)) at 3 by lra. field. lra.
  - exists (sqrt (qdot q q)). split; [exact S|]. set (k := sqrt _) in *. clearbody k. destruct q as [q0 q1 q2 q3]. unfold qscale. cbn. f_equal; field; lra.
Qed.
Lemma qcauchy p q : qdot p p = 1 -> qdot q q = 1 -> -1 <= qdot p q <= 1.
Proof.
  intros Hp Hq. assert (0 <= qdot (qadd p q) (qadd p q)) by apply qdot_nonneg. assert (0 <= qdot (qadd p (qneg q)) (qadd p (qneg q))) by apply qdot_nonneg.
  assert (qdot (qadd p q) (qadd p q) = qdot p p + qdot q q + 2 * qdot p q) by (destruct p as [p0 p1 p2 p3], q as [q0 q1 q2 q3]; unfold qdot, qadd; cbn; ring).
  assert (qdot (qadd p (qneg q)) (qadd p (qneg q)) = qdot p p + qdot q q - 2 * qdot p q) by (destruct p as [p0 p1 p2 p3], q as [q0 q1 q2 q3]; unfold qdot, qadd, qneg; cbn; ring).
  lra.
Qed.
Lemma even_period a m : sin (a + IZR (2 * m) * PI) = sin a /\ cos (a + IZR (2 * m) * PI) = cos a.
Proof.
  assert (G : forall n : nat, forall a, (sin (a + IZR (2 * Z.of_nat n) * PI) = sin a /\ cos (a + IZR (2 * Z.of_nat n) * PI) = cos a)).
  { intros n b. rewrite mult_IZR, <- INR_IZR_INZ. replace (b + 2 * INR n * PI) with (b + 2 * INR n * PI) by ring. split; [apply sin_period|apply cos_period]. }
  destruct (Z_le_gt_dec 0 m) as [H|H].
  - rewrite <- (Z2Nat.id m) by exact H. apply G.
  - destruct (G (Z.to_nat (- m)) (a + IZR (2 * m) * PI)) as [A B].
    replace (a + IZR (2 * m) * PI + IZR (2 * Z.of_nat (Z.to_nat (- m))) * PI) with a in A, B; [now split|].
    rewrite Z2Nat.id by lia. rewrite !mult_IZR, opp_IZR. ring.
Qed.
Lemma cos_near x : Rabs x < EPS -> 1 - cos x < EPS.
Proof.
  intros H. pose proof EPS_pos as E. assert (E1 : EPS < 1) by (unfold EPS; lra).
  assert (A : cos x = 1 - 2 * sin (x / 2) * sin (x / 2)) by (replace x with (2 * (x / 2)) at 1 by field; apply cos_2a_sin).
  assert (B : Rabs (sin (x / 2)) <= Rabs (x / 2)).
  { assert (G : forall y, 0 <= y -> Rabs (sin y) <= y).
    { intros y [Hy|<-]; [|rewrite sin_0, Rabs_R0; lra]. destruct (Rlt_le_dec y 1) as [L|L].
      - pose proof (sin_lt_x y Hy). pose proof PI2_1. rewrite Rabs_right; [lra|]. apply Rle_ge, sin_ge_0; lra.
      - pose proof (SIN_bound y). apply Rabs_le. lra. }
    destruct (Rle_lt_dec 0 (x / 2)); [rewrite (Rabs_right (x / 2)) by lra; now apply G|].
    rewrite (Rabs_left (x / 2)) by lra. rewrite <- Rabs_Ropp, <- sin_neg. apply G. lra. }
  assert (C : sin (x / 2) * sin (x / 2) <= Rabs x / 2 * (Rabs x / 2)).
  { replace (Rabs (x / 2)) with (Rabs x / 2) in B by (unfold Rdiv; rewrite Rabs_mult, (Rabs_right (/ 2)) by lra; reflexivity).
    pose proof (Rabs_pos (sin (x / 2))). replace (sin (x / 2) * sin (x / 2)) with (Rabs (sin (x / 2)) * Rabs (sin (x / 2))); [nra|].
    unfold Rabs. destruct (Rcase_abs _); ring. }
  pose proof (Rabs_pos x). nra.
Qed.
(** Interpolating from q0 to q1 with no spin (or a whole number of extra turns) always succeeds for
    quaternions that are not zero, and gives unit quaternions that start at q0, end at q1 and turn at a
    constant rate: the angle from the start is [f] times the whole angle, the shorter one if asked.
    (Start and end closer than EPS: the start is returned.) *)
Theorem C125_slerp_partial (p0 p1 : quat) (f : R) (m : Z) (short : bool) : qdot p0 p0 <> 0 -> qdot p1 p1 <> 0 ->
  exists q0 q1 q, quaternion_slerp p0 p1 f (2 * m) short = Some q
  /\ (exists k, 0 < k /\ p0 = qscale k q0) /\ (exists k, 0 < k /\ p1 = qscale k q1) /\ qdot q0 q0 = 1 /\ qdot q1 q1 = 1
  /\ qdot q q = 1
  /\ (f = 0 -> q = q0) /\ (f = 1 -> q = q1)
  /\ (f <> 0 -> f <> 1 -> EPS <= 1 - Rabs (qdot q0 q1) -> exists theta,
       cos theta = (if short then Rabs (qdot q0 q1) else qdot q0 q1)
       /\ IZR (2 * m) * PI <= theta <= IZR (2 * m) * PI + PI
       /\ qdot q0 q = cos (f * theta)
       /\ qdot q1 q = (if (short && Rltb (qdot q0 q1) 0)%bool then -1 else 1) * cos ((1 - f) * theta)
       /\ exists a b, q = qadd (qscale a q0) (qscale b q1)).
Proof.
  intros N0 N1. unfold quaternion_slerp.
  assert (E0 : exists q0, qunit p0 = Some q0) by (unfold qunit; destruct (Reqb_spec (qdot p0 p0) 0); [contradiction|eauto]).
  assert (E1 : exists q1, qunit p1 = Some q1) by (unfold qunit; destruct (Reqb_spec (qdot p1 p1) 0); [contradiction|eauto]).
  destruct E0 as [q0 E0], E1 as [q1 E1]. rewrite E0, E1.
  destruct (qunit_some _ _ E0) as (U0 & K0). destruct (qunit_some _ _ E1) as (U1 & K1). exists q0, q1.
  pose proof (qcauchy q0 q1 U0 U1) as CB.
  assert (AB : Rabs (qdot q0 q1) <= 1) by (apply Rabs_le; lra).
  destruct (Reqb_spec f 0) as [F0|F0].
  { exists q0. repeat split; auto; try lra. }
  destruct (Reqb_spec f 1) as [F1|F1].
  { exists q1. repeat split; auto; try lra. }
  destruct (Rltb_spec (Rabs (Rabs (qdot q0 q1) - 1)) EPS) as [Near|Far].
  { exists q0. repeat split; auto; try lra. intros _ _ H. exfalso. rewrite Rabs_left1 in Near by lra. lra. }
  rewrite Rabs_left1 in Far by lra.
  set (neg := (short && Rltb (qdot q0 q1) 0)%bool).
  set (d := if neg then - qdot q0 q1 else qdot q0 q1). set (s1 := if neg then qneg q1 else q1).
  replace (if neg then (- qdot q0 q1, qneg q1) else (qdot q0 q1, q1)) with (d, s1) by (unfold d, s1; now destruct neg).
  assert (D1 : qdot q0 s1 = d).
  { unfold d, s1. destruct neg; [|reflexivity]. destruct q0 as [a0 a1 a2 a3], q1 as [b0 b1 b2 b3]. unfold qdot, qneg; cbn. ring. }
  assert (S1 : qdot s1 s1 = 1) by (unfold s1; destruct neg; [rewrite qdot_neg|]; exact U1).
  assert (DF : -1 + EPS <= d <= 1 - EPS).
  { unfold d. pose proof (Rle_abs (qdot q0 q1)). pose proof (Rle_abs (- qdot q0 q1)) as R. rewrite Rabs_Ropp in R. destruct neg; lra. }
  pose proof EPS_pos as EP.
  assert (DA : d = if short then Rabs (qdot q0 q1) else qdot q0 q1).
  { unfold d, neg. destruct short; [|reflexivity]. cbn [andb]. destruct (Rltb_spec (qdot q0 q1) 0); [rewrite Rabs_left|rewrite Rabs_right]; lra. }
  destruct (even_period (acos d) m) as [Sp Cp]. pose proof (acos_bound d) as AcB.
  set (th := acos d + IZR (2 * m) * PI) in *.
  assert (Ct : cos th = d) by (rewrite Cp; apply cos_acos; lra).
  assert (TB : IZR (2 * m) * PI <= th <= IZR (2 * m) * PI + PI) by (unfold th; lra).
  destruct (Rltb_spec (Rabs th) EPS) as [Small|Big].
  { exfalso. apply cos_near in Small. rewrite Ct in Small. lra. }
  pose proof (sin2_cos2 th) as SC. unfold Rsqr in SC.
  assert (NZ : sin th <> 0) by (intros Z; rewrite Z, Ct in SC; nra).
  destruct (Reqb_spec (sin th) 0) as [Z|_]; [contradiction|].
  clearbody th. clear Sp Cp.
  assert (A1 : sin ((1 - f) * th) = sin th * cos (f * th) - cos th * sin (f * th)).
  { replace ((1 - f) * th) with (th - f * th) by ring. apply sin_minus. }
  assert (A2 : cos ((1 - f) * th) = cos th * cos (f * th) + sin th * sin (f * th)).
  { replace ((1 - f) * th) with (th - f * th) by ring. apply cos_minus. }
  pose proof (sin2_cos2 (f * th)) as SF. unfold Rsqr in SF.
  set (r := qadd _ _). exists r.
  assert (L : forall p, qdot p r = sin ((1 - f) * th) * (1 / sin th) * qdot p q0 + sin (f * th) * (1 / sin th) * qdot p s1).
  { intros p. unfold r. generalize (sin ((1 - f) * th) * (1 / sin th)) (sin (f * th) * (1 / sin th)). intros x y.
    destruct p as [c0 c1 c2 c3], q0 as [a0 a1 a2 a3], s1 as [b0 b1 b2 b3]. unfold qdot, qadd, qscale; cbn. ring. }
  assert (QS : forall p q, qdot p q = qdot q p) by (intros [] []; unfold qdot; cbn; ring).
  assert (B0 : qdot q0 r = cos (f * th)).
  { rewrite L, U0, D1, A1, <- Ct. field. exact NZ. }
  assert (B1 : qdot s1 r = cos ((1 - f) * th)).
  { rewrite L, S1, (QS s1 q0), D1, A1, A2, <- Ct. apply Rmult_eq_reg_r with (sin th); [|exact NZ].
    transitivity ((sin th * cos (f * th) - cos th * sin (f * th)) * cos th + sin (f * th)); [field; exact NZ|]. nsatz. }
  split; [reflexivity|]. do 4 (split; [assumption|]). split; [|split; [now intros ->; lra|split; [now intros ->; lra|]]].
  - rewrite L, (QS r q0), (QS r s1), B0, B1, A1, A2. apply Rmult_eq_reg_r with (sin th); [|exact NZ].
    transitivity ((sin th * cos (f * th) - cos th * sin (f * th)) * cos (f * th) + sin (f * th) * (cos th * cos (f * th) + sin th * sin (f * th))); [field; exact NZ|]. nsatz.
  - intros _ _ _. exists th. split; [now rewrite Ct|]. split; [exact TB|]. split; [exact B0|]. split.
    + rewrite <- B1. unfold s1. clear. destruct neg; destruct q1 as [b0 b1 b2 b3]; generalize r; intros [c0 c1 c2 c3]; unfold qdot, qneg; cbn; ring.
    + exists (sin ((1 - f) * th) * (1 / sin th)). exists ((if neg then -1 else 1) * (sin (f * th) * (1 / sin th))).
      unfold r, s1. clear. generalize (sin ((1 - f) * th) * (1 / sin th)) (sin (f * th) * (1 / sin th)). intros x y.
      destruct q0 as [a0 a1 a2 a3], q1 as [b0 b1 b2 b3]. destruct neg; unfold qadd, qscale, qneg; cbn [qw qx qy qz]; f_equal; ring.
Qed.
(** With an odd spin (half a turn more) the result is not a unit quaternion. *)
Theorem C125_slerp_refuted : exists p0 p1 f spin q, qdot p0 p0 = 1 /\ qdot p1 p1 = 1 /\ 0 < f < 1
  /\ quaternion_slerp p0 p1 f spin true = Some q /\ qdot q q = 3.
Proof.
  set (s3 := sqrt 3). assert (S3 : s3 * s3 = 3) by (apply sqrt_sqrt; lra). assert (P3 : 0 < s3) by (apply sqrt_lt_R0; lra).
  assert (U0 : qdot (Q 1 0 0 0) (Q 1 0 0 0) = 1) by (unfold qdot; cbn; ring).
  assert (U1 : qdot (Q (1 / 2) (s3 / 2) 0 0) (Q (1 / 2) (s3 / 2) 0 0) = 1) by (unfold qdot; cbn; nra).
  assert (D : qdot (Q 1 0 0 0) (Q (1 / 2) (s3 / 2) 0 0) = 1 / 2) by (unfold qdot; cbn; ring).
  exists (Q 1 0 0 0), (Q (1 / 2) (s3 / 2) 0 0), (1 / 2), 1%Z, (qscale (-1) (qadd (Q 1 0 0 0) (Q (1 / 2) (s3 / 2) 0 0))).
  split; [exact U0|]. split; [exact U1|]. split; [lra|]. split.
  - assert (G : forall q, qdot q q = 1 -> qunit q = Some q).
    { intros [q0 q1 q2 q3] U. unfold qunit. rewrite U, sqrt_1. destruct (Reqb_spec 1 0); [lra|]. unfold qscale; cbn. do 2 f_equal; lra. }
    unfold quaternion_slerp. rewrite (G _ U0), (G _ U1), D. destruct (Reqb_spec (1 / 2) 0); [lra|]. destruct (Reqb_spec (1 / 2) 1); [lra|].
    rewrite (proj2 (Rltb_false (Rabs (Rabs (1 / 2) - 1)) EPS)). 2:{ rewrite (Rabs_right (1 / 2)), Rabs_left by lra. unfold EPS. lra. }
    cbn [andb]. rewrite (proj2 (Rltb_false (1 / 2) 0)) by lra.
    assert (A : acos (1 / 2) = PI / 3).
    { rewrite <- cos_PI3. apply acos_cos. pose proof PI_RGT_0. lra. }
    rewrite A. replace (PI / 3 + 1 * PI) with (PI / 3 + PI) by ring.
    pose proof PI2_1. rewrite (proj2 (Rltb_false (Rabs (PI / 3 + PI)) EPS)). 2:{ rewrite Rabs_right by lra. unfold EPS. lra. }
    rewrite neg_sin, sin_PI3. fold s3. destruct (Reqb_spec (- (s3 / 2)) 0); [lra|].
    replace ((1 - 1 / 2) * (PI / 3 + PI)) with (2 * (PI / 3)) by field. replace (1 / 2 * (PI / 3 + PI)) with (2 * (PI / 3)) by field.
    rewrite sin_2PI3. fold s3. f_equal. unfold qadd, qscale. cbn [qw qx qy qz]. f_equal; field; lra.
  - unfold qscale, qadd, qdot. cbn. nra.
Qed.
(** Random rotations are rotations, for every three numbers in [0, 1]. *)
Theorem C125_random (u0 u1 u2 : R) : 0 <= u0 <= 1 ->
  qdot (random_quaternion u0 u1 u2) (random_quaternion u0 u1 u2) = 1
  /\ orthogonal (random_rotation_matrix u0 u1 u2) /\ mdet (random_rotation_matrix u0 u1 u2) = 1.
Proof.
  intros H. split; [|apply quaternion_rotation]. unfold random_quaternion, qdot. cbn [qw qx qy qz].
  pose proof (sin2_cos2 (PI * 2 * u1)) as S1. pose proof (sin2_cos2 (PI * 2 * u2)) as S2. unfold Rsqr in *.
  assert (A : sqrt (1 - u0) * sqrt (1 - u0) = 1 - u0) by (apply sqrt_sqrt; lra). assert (B : sqrt u0 * sqrt u0 = u0) by (apply sqrt_sqrt; lra).
  set (c1 := cos (PI * 2 * u1)) in *. set (s1 := sin (PI * 2 * u1)) in *. set (c2 := cos (PI * 2 * u2)) in *. set (s2 := sin (PI * 2 * u2)) in *.
  set (a := sqrt (1 - u0)) in *. set (b := sqrt u0) in *. clearbody c1 s1 c2 s2 a b.
  replace (c2 * b * (c2 * b) + s1 * a * (s1 * a) + c1 * a * (c1 * a) + s2 * b * (s2 * b)) with (b * b * (s2 * s2 + c2 * c2) + a * a * (s1 * s1 + c1 * c1)) by ring.
  rewrite A, B, S1, S2. ring.
Qed.
(** The rotation by the angle between two vectors, about their vector product, turns the first into
    the direction of the second. *)
Theorem C125_angle_between (v0 v1 : vec) (a : R) (point : vec) (g : rigid) :
  angle_between_vectors v0 v1 true = Some a -> rotation_matrix a (cross v0 v1) point = Some g ->
  exists k, 0 < k /\ to_vector g v0 = vscale k v1 /\ 0 <= a <= PI.
Proof.
  unfold angle_between_vectors. destruct (Reqb_spec (norm v0 * norm v1) 0) as [E|E]; [discriminate|]. intros Ha. injection Ha as <-.
  unfold rotation_matrix. destruct (unit_vector (cross v0 v1)) as [u|] eqn:U; [|discriminate]. intros Hg. injection Hg as <-.
  destruct (unit_vector_some _ _ U) as (Uu & Eu & Nc).
  pose proof (norm_nonneg v0) as P0. pose proof (norm_nonneg v1) as P1.
  pose proof (norm_sq v0) as Q0. pose proof (norm_sq v1) as Q1. pose proof (norm_sq (cross v0 v1)) as Qc. pose proof (norm_nonneg (cross v0 v1)) as Pc.
  rewrite lagrange in Qc.
  set (n0 := norm v0) in *. set (n1 := norm v1) in *. set (nc := norm (cross v0 v1)) in *.
  assert (n0 <> 0) by (intros Z; apply E; rewrite Z; ring). assert (n1 <> 0) by (intros Z; apply E; rewrite Z; ring).
  set (d := dot v0 v1) in *. set (c := d / (n0 * n1)).
  assert (Cd : c * n0 * n1 = d) by (unfold c; field; lra).
  assert (Sn : (nc / (n0 * n1)) * (nc / (n0 * n1)) + c * c = 1).
  { unfold c. replace (nc / (n0 * n1) * (nc / (n0 * n1)) + d / (n0 * n1) * (d / (n0 * n1))) with ((nc * nc + d * d) / ((n0 * n0) * (n1 * n1))) by (field; lra).
    rewrite Qc, <- Q0, <- Q1. field. lra. }
  assert (Cb : -1 <= c <= 1) by (set (w := nc / (n0 * n1)) in *; clearbody w c; nra).
  assert (Sp : 0 <= nc / (n0 * n1)). { apply Rmult_le_pos; [lra|]. left. apply Rinv_0_lt_compat. nra. }
  assert (Sa : sin (acos c) = nc / (n0 * n1)).
  { rewrite sin_acos by exact Cb. replace (1 - c²) with ((nc / (n0 * n1)) * (nc / (n0 * n1))) by (unfold Rsqr; lra). now apply sqrt_square. }
  exists (n0 / n1). split; [apply Rdiv_lt_0_compat; lra|]. split; [|apply acos_bound].
  unfold to_vector. cbn [rot]. rewrite Sa, cos_acos by exact Cb.
  (* the rotated vector: c v0 + s (u x v0), as u . v0 = 0; u x v0 = (v1 n0^2 - d v0) / nc *)
  assert (Rv : forall s c0 v, dot u v = 0 -> mvec (rodrigues s c0 u) v = vadd (vscale c0 v) (vscale s (cross u v))).
  { intros s c0 v Hv. clear - Hv. destruct u as [x y z], v as [p q r]. unfold dot in Hv. cbn [vx vy vz] in Hv. unfold rodrigues. coords. apply vec_eq; cbn [vx vy vz]; nsatz. }
  assert (Uo : dot u v0 = 0).
  { apply Rmult_eq_reg_l with nc; [|exact Nc]. rewrite Rmult_0_r, <- dot_scale_l, <- Eu. clear. destruct v0 as [x y z], v1 as [p q r]. coords. ring. }
  rewrite Rv by exact Uo.
  assert (Uc : vscale nc (cross u v0) = vsub (vscale (dot v0 v0) v1) (vscale d v0)).
  { replace (vscale nc (cross u v0)) with (cross (vscale nc u) v0) by (clear; destruct u as [x y z], v0 as [p q r]; coords; apply vec_eq; cbn; ring).
    rewrite <- Eu. unfold d. clear. destruct v0 as [x y z], v1 as [p q r]. coords. apply vec_eq; cbn; ring. }
  replace (vscale (nc / (n0 * n1)) (cross u v0)) with (vscale (/ (n0 * n1)) (vscale nc (cross u v0))).
  2:{ destruct (cross u v0) as [x y z]. unfold vscale; cbn [vx vy vz]. f_equal; field; lra. }
  rewrite Uc, <- Q0. unfold c. clearbody n0 n1 nc d. clear - H H0. destruct v0 as [x y z], v1 as [p q r]. coords. apply vec_eq; cbn [vx vy vz]; field; lra.
Qed.
Example C125_example : random_quaternion 1 0 0 = Q 1 0 0 0.
Proof. unfold random_quaternion. replace (1 - 1) with 0 by ring. rewrite sqrt_0, sqrt_1, !Rmult_0_r, sin_0, cos_0. f_equal; ring. Qed.

(** ** C126: mirrors, scaling, projections, clipping, shears, crystal cells *)
Lemma mvec_mid_sub m v : mvec (msub Vec.mid m) v = vsub v (mvec m v).
Proof. now rewrite mvec_msub, mvec_id. Qed.
Lemma unit_parallel v u : unit_vector v = Some u -> forall w, dot w v = norm v * dot w u.
Proof. intros H w. destruct (unit_vector_some _ _ H) as (_ & E & _). rewrite E at 1. apply dot_scale_r. Qed.
Ltac vlin := apply vec_eq; cbn [vx vy vz vadd vsub vscale vneg]; try ring.
(** A point's mirror image: the line to it is along the normal, and the plane is half way; mirroring
    twice does nothing. *)
Theorem C126_reflection (point normal : vec) (g : rigid) : reflection_matrix point normal = Some g ->
  forall p, dot (vsub (to_point g p) point) normal = - dot (vsub p point) normal
         /\ (exists k, vsub (to_point g p) p = vscale k normal)
         /\ to_point g (to_point g p) = p
         /\ (dot (vsub p point) normal = 0 -> to_point g p = p).
Proof.
  unfold reflection_matrix. destruct (unit_vector normal) as [n|] eqn:U; [|discriminate]. intros H. injection H as <-.
  destruct (unit_vector_some _ _ U) as (Un & En & Nz). unfold is_unit in Un.
  assert (F : forall p, to_point (Rigid (msub Vec.mid (mscale 2 (outer n n))) (vscale (2 * dot point n) n)) p = vsub p (vscale (2 * dot (vsub p point) n) n)).
  { intros p. unfold to_point. cbn [rot tra]. rewrite mvec_mid_sub, mvec_mscale, mvec_outer, dot_sub_l, (dot_comm n p). generalize (dot p n) (dot point n). intros x y. vlin. }
  intros p. split; [|split; [|split]].
  - rewrite F, !(unit_parallel _ _ U), !dot_sub_l, dot_scale_l, Un. ring.
  - exists (- (2 * dot (vsub p point) n) / norm normal). rewrite F. rewrite En at 2. generalize (dot (vsub p point) n). intros x. apply vec_eq; cbn [vx vy vz vadd vsub vscale]; field; exact Nz.
  - rewrite !F. set (x := dot (vsub p point) n). rewrite (dot_sub_l (vsub p _)), (dot_sub_l p), dot_scale_l, Un. unfold x. rewrite dot_sub_l. generalize (dot p n) (dot point n). intros a b. vlin.
  - rewrite F, (unit_parallel _ _ U). intros Z. destruct (Rmult_integral _ _ Z) as [E|E]; [contradiction|]. rewrite E. vlin.
Qed.
(** Scaling about an origin, or along one direction. *)
Theorem C126_scale (factor : R) (origin direction : option vec) (g : rigid) : scale_matrix factor origin direction = Some g ->
  let o := match origin with Some o => o | None => vzero end in
  forall p, match direction with
  | None => vsub (to_point g p) o = vscale factor (vsub p o)
  | Some d => dot (vsub (to_point g p) o) d = factor * dot (vsub p o) d
              /\ exists k, vsub (to_point g p) p = vscale k d
  end.
Proof.
  unfold scale_matrix. destruct direction as [d0|].
  - destruct (unit_vector d0) as [d|] eqn:U; [|discriminate]. intros H. injection H as <-. cbv zeta.
    destruct (unit_vector_some _ _ U) as (Un & En & Nz). unfold is_unit in Un. set (o := match origin with Some o => o | None => vzero end).
    assert (F : forall p, to_point (Rigid (msub Vec.mid (mscale (1 - factor) (outer d d))) (match origin with Some o => vscale ((1 - factor) * dot o d) d | None => vzero end)) p
                 = vsub p (vscale ((1 - factor) * dot (vsub p o) d) d)).
    { intros p. unfold to_point. cbn [rot tra]. rewrite mvec_mid_sub, mvec_mscale, mvec_outer, dot_sub_l, (dot_comm d p). unfold o. destruct origin as [o'|].
      - generalize (dot p d) (dot o' d). intros x y. vlin.
      - replace (dot vzero d) with 0 by (unfold dot, vzero; cbn; ring). generalize (dot p d). intros x. unfold vzero. vlin. }
    intros p. rewrite F. split.
    + rewrite !(unit_parallel _ _ U), !dot_sub_l, dot_scale_l, Un. ring.
    + exists (- ((1 - factor) * dot (vsub p o) d) / norm d0). rewrite En at 2. generalize (dot (vsub p o) d). intros x. apply vec_eq; cbn [vx vy vz vadd vsub vscale]; field; exact Nz.
  - intros H. injection H as <-. cbv zeta. intros p. unfold to_point. cbn [rot tra]. rewrite mvec_mscale, mvec_id.
    destruct origin as [o|]; unfold vzero; vlin.
Qed.
Lemma happly_rigid g p : happly (hom_of g) p = to_point g p.
Proof. unfold happly, hom_of, to_point. cbn [row cor lin col]. replace (dot vzero p + 1) with 1 by (unfold dot, vzero; cbn; ring). rewrite Rinv_1. generalize (vadd (mvec (rot g) p) (tra g)). intros v. vlin. Qed.
(** Projections without perspective: the image lies in the plane, on the line through the point along
    the normal or the given direction. *)
Theorem C126_parallel_projection (point normal : vec) (direction : option vec) (pseudo : bool) (m : hom) :
  projection_matrix point normal direction None pseudo = Some m ->
  forall p, dot (vsub (happly m p) point) normal = 0
         /\ exists k, vsub (happly m p) p = vscale k (match direction with Some d => d | None => normal end).
Proof.
  unfold projection_matrix. destruct (unit_vector normal) as [n|] eqn:U; [|discriminate].
  destruct (unit_vector_some _ _ U) as (Un & En & Nz). unfold is_unit in Un. destruct direction as [d|].
  - destruct (Reqb_spec (dot d n) 0) as [E|E]; [discriminate|]. intros H. injection H as <-. intros p. rewrite happly_rigid. unfold to_point. cbn [rot tra].
    rewrite mvec_mid_sub, mvec_mscale, mvec_outer, (dot_comm n p). set (s := dot d n) in *. split.
    + rewrite (unit_parallel _ _ U), dot_sub_l, dot_add_l, dot_sub_l, !dot_scale_l. fold s. field. exact E.
    + exists ((dot point n - dot p n) / s). clearbody s. generalize (dot p n) (dot point n). intros x y. apply vec_eq; cbn [vx vy vz vadd vsub vscale]; field; exact E.
  - intros H. injection H as <-. intros p. rewrite happly_rigid. unfold to_point. cbn [rot tra]. rewrite mvec_mid_sub, mvec_outer, (dot_comm n p). split.
    + rewrite (unit_parallel _ _ U), dot_sub_l, dot_add_l, dot_sub_l, !dot_scale_l, Un. ring.
    + exists ((dot point n - dot p n) / norm normal). rewrite En at 2. generalize (dot p n) (dot point n). intros x y. apply vec_eq; cbn [vx vy vz vadd vsub vscale]; field; exact Nz.
Qed.
(** The image under a perspective projection lies in the plane and on the line through the eye and the
    point; projecting the pseudo-perspective image straight onto the plane gives the same, and its depth
    grows with the depth of the point. *)
Theorem C126_perspective (point normal eye : vec) (direction : option vec) (m m0 m3 : hom) (p : vec) :
  projection_matrix point normal direction (Some eye) false = Some m ->
  projection_matrix point normal direction (Some eye) true = Some m3 ->
  projection_matrix point normal None None false = Some m0 ->
  dot (vsub eye p) normal <> 0 ->
  dot (vsub (happly m p) point) normal = 0
  /\ (exists k, vsub (happly m p) eye = vscale k (vsub p eye))
  /\ happly m0 (happly m3 p) = happly m p
  /\ dot (vsub (happly m3 p) point) normal * dot (vsub eye p) normal = - norm normal * dot (vsub p point) normal.
Proof.
  unfold projection_matrix. destruct (unit_vector normal) as [n|] eqn:U; [|discriminate].
  destruct (unit_vector_some _ _ U) as (Un & En & Nz). unfold is_unit in Un.
  intros H1 H2 H3 Hw. injection H1 as <-. injection H2 as <-. injection H3 as <-.
  rewrite (unit_parallel _ _ U) in Hw. assert (W : dot eye n - dot p n <> 0) by (intros Z; apply Hw; rewrite dot_sub_l, Z; ring). clear Hw.
  set (w := dot eye n - dot p n) in *. set (h := dot p n - dot point n).
  assert (A : forall m c, dot (row (Hom m c (vneg n) (dot eye n))) p + cor (Hom m c (vneg n) (dot eye n)) = w).
  { intros. cbn [row cor]. rewrite dot_neg_l, (dot_comm n p). unfold w. ring. }
  set (mm := Hom (msub (mscale (dot (vsub eye point) n) Vec.mid) (outer eye n)) _ _ _).
  set (m3 := Hom (msub (msub (mscale (dot (vsub eye point) n) Vec.mid) (outer eye n)) (outer n n)) _ _ _).
  assert (F : happly mm p = vscale (/ w) (vsub (vscale (w + h) p) (vscale h eye))).
  { unfold happly. unfold mm at 1 2. rewrite A. f_equal. cbn [mm lin col]. rewrite mvec_msub, mvec_mscale, mvec_id, mvec_outer, (dot_comm n p), dot_sub_l. unfold w, h.
    generalize (dot p n) (dot point n) (dot eye n). intros x y z. vlin. }
  assert (F3 : happly m3 p = vscale (/ w) (vsub (vsub (vscale (w + h) p) (vscale h eye)) (vscale h n))).
  { unfold happly. unfold m3 at 1 2. rewrite A. f_equal. cbn [m3 lin col]. rewrite !mvec_msub, mvec_mscale, mvec_id, !mvec_outer, (dot_comm n p), dot_sub_l. unfold w, h.
    generalize (dot p n) (dot point n) (dot eye n). intros x y z. vlin. }
  assert (G : forall x y z : R, x - y <> 0 -> / (x - y) * ((x - y + (y - z)) * y - (y - z) * x) - z = 0) by (intros; field; assumption).
  split; [|split; [|split]].
  - rewrite F, (unit_parallel _ _ U), dot_sub_l, dot_scale_l, dot_sub_l, !dot_scale_l. unfold h, w. rewrite G by exact W. ring.
  - exists ((w + h) / w). rewrite F. clearbody w h. apply vec_eq; cbn [vx vy vz vadd vsub vscale]; field; exact W.
  - rewrite happly_rigid, F, F3. unfold to_point. cbn [rot tra]. rewrite mvec_mid_sub, mvec_outer, (dot_comm n), dot_scale_l, !dot_sub_l, !dot_scale_l, Un.
    assert (K : / w * ((w + h) * dot p n - h * dot eye n - h * 1) = dot point n - h / w) by (unfold h, w in *; field; exact W).
    rewrite K. clear K. generalize (dot point n). intros y. clearbody w h. apply vec_eq; cbn [vx vy vz vadd vsub vscale]; field; exact W.
  - rewrite F3, !(unit_parallel _ _ U), dot_sub_l, dot_scale_l, !dot_sub_l, !dot_scale_l, Un. fold w h.
    assert (K : / w * ((w + h) * dot p n - h * dot eye n - h * 1) - dot point n = - (h / w)) by (unfold h, w in *; field; exact W).
    rewrite K. field. exact W.
Qed.
(** The viewing volume: boxes and frusta become the cube from -1 to 1, and only they do. *)
Theorem C126_clip (left right bottom top near far : R) (perspective : bool) (m : hom) (p : vec) :
  clip_matrix left right bottom top near far perspective = Some m ->
  (perspective = true -> 0 < vz p) ->
  let k := if perspective then near / vz p else 1 in
  let q := happly m p in
  (-1 <= vx q <= 1 <-> left <= k * vx p <= right)
  /\ (-1 <= vy q <= 1 <-> bottom <= k * vy p <= top)
  /\ (-1 <= vz q <= 1 <-> near <= vz p <= far).
Proof.
  assert (I : forall a b x y, a < b -> y = (2 * x - (b + a)) / (b - a) -> (-1 <= y <= 1 <-> a <= x <= b)).
  { intros a b x y Hab ->. assert (P : 0 < b - a) by lra.
    assert (E : (2 * x - (b + a)) / (b - a) * (b - a) = 2 * x - (b + a)) by (field; lra). set (y := (2 * x - (b + a)) / (b - a)) in *. clearbody y. split; intros; nra. }
  unfold clip_matrix. destruct (Rleb_spec right left) as [?|Hx]; [discriminate|]. destruct (Rleb_spec top bottom) as [?|Hy]; [discriminate|]. destruct (Rleb_spec far near) as [?|Hz]; [discriminate|].
  cbn [orb]. destruct p as [x y z]. cbn [vx vy vz]. destruct perspective.
  - destruct (Rleb_spec near EPS) as [?|Hn]; [discriminate|]. intros H Pz. injection H as <-. specialize (Pz eq_refl). pose proof EPS_pos. cbv zeta.
    unfold happly. cbn [row cor lin col]. coords. replace (/ (0 * x + 0 * y + -1 * z + 0)) with (- / z) by (field; lra). split; [|split].
    + apply I; [lra|]. field. lra.
    + apply I; [lra|]. field. lra.
    + match goal with |- (-1 <= ?Y <= 1 <-> _) => assert (E : Y * ((far - near) * z) = (far + near) * z - 2 * near * far) by (field; lra); set (Y0 := Y) in *; clearbody Y0 end.
      assert (0 < (far - near) * z) by (apply Rmult_lt_0_compat; lra). set (W := (far - near) * z) in *.
      assert (W1 : W + ((far + near) * z - 2 * near * far) = 2 * far * (z - near)) by (unfold W; ring).
      assert (W2 : W - ((far + near) * z - 2 * near * far) = 2 * near * (far - z)) by (unfold W; ring).
      split; intros [A B]; split; nra.
  - intros H _. injection H as <-. cbv zeta. unfold happly. cbn [row cor lin col]. coords. replace (/ (0 * x + 0 * y + 0 * z + 1)) with 1 by (field; lra).
    split; [|split]; apply I; try lra; field; lra.
Qed.
(** Shears move points along the direction, by the tangent of the angle times the height over the plane,
    and keep volumes when the direction lies in the plane. *)
Theorem C126_shear (angle : R) (direction point normal : vec) (g : rigid) : shear_matrix angle direction point normal = Some g ->
  (forall p, vscale (norm direction * norm normal) (vsub (to_point g p) p) = vscale (tan angle * dot (vsub p point) normal) direction)
  /\ mdet (rot g) = 1 + tan angle * (dot normal direction / (norm normal * norm direction))
  /\ Rabs (dot normal direction) <= / 10 ^ 6 * (norm normal * norm direction).
Proof.
  unfold shear_matrix. destruct (unit_vector normal) as [n|] eqn:Un; [|discriminate]. destruct (unit_vector direction) as [d|] eqn:Ud; [|discriminate].
  destruct (Rltb_spec (/ 10 ^ 6) (Rabs (dot n d))) as [?|Hnd]; [discriminate|]. intros H. injection H as <-.
  destruct (unit_vector_some _ _ Un) as (_ & En & Nn). destruct (unit_vector_some _ _ Ud) as (_ & Ed & Nd).
  pose proof (norm_nonneg normal). pose proof (norm_nonneg direction). set (nn := norm normal) in *. set (nd := norm direction) in *.
  assert (D : dot normal direction = nn * nd * dot n d) by (rewrite En, Ed at 1; rewrite dot_scale_l, dot_scale_r; ring).
  split; [|split].
  - intros p. unfold to_point. cbn [rot tra]. rewrite mvec_madd, mvec_id, mvec_mscale, mvec_outer, (dot_comm n p), dot_sub_l, !(unit_parallel _ _ Un). fold nn. rewrite Ed at 1.
    generalize (dot p n) (dot point n) (tan angle). intros a b t. vlin.
  - rewrite D. cbn [rot]. replace (nn * nd * dot n d / (nn * nd)) with (dot n d) by (field; split; assumption).
    generalize (tan angle). intros t. clear. destruct n as [a b c], d as [d e f]. unfold mdet. coords. ring.
  - rewrite D. rewrite Rabs_mult, (Rabs_right (nn * nd)) by nra. rewrite (Rmult_comm (/ 10 ^ 6)). apply Rmult_le_compat_l; [nra|]. lra.
Qed.
(** The edges of a crystal cell (columns of the matrix) have the given lengths and angles. *)
Theorem C126_cell (a b c alpha beta gamma : R) : sin alpha <> 0 -> sin beta <> 0 ->
  let gram := 1 - cos alpha * cos alpha - cos beta * cos beta - cos gamma * cos gamma + 2 * cos alpha * cos beta * cos gamma in
  0 <= gram ->
  let t := mtrans (orthogonalization_matrix a b c alpha beta gamma) in
  dot (r1 t) (r1 t) = a * a /\ dot (r2 t) (r2 t) = b * b /\ dot (r3 t) (r3 t) = c * c
  /\ dot (r1 t) (r2 t) = a * b * cos gamma /\ dot (r2 t) (r3 t) = b * c * cos alpha /\ dot (r1 t) (r3 t) = a * c * cos beta
  /\ mdet t * mdet t = a * a * (b * b) * (c * c) * gram.
Proof.
  intros Sa Sb. cbv zeta. pose proof (sin2_cos2 alpha) as Ea. pose proof (sin2_cos2 beta) as Eb. unfold Rsqr in Ea, Eb. unfold orthogonalization_matrix. cbv zeta.
  set (sa := sin alpha) in *. set (ca := cos alpha) in *. set (sb := sin beta) in *. set (cb := cos beta) in *. set (cg := cos gamma). clearbody sa ca sb cb cg.
  intros G. set (co := (ca * cb - cg) / (sa * sb)).
  assert (C1 : co * (sa * sb) = ca * cb - cg) by (unfold co; field; now split).
  assert (C2 : (1 - co * co) * ((sa * sb) * (sa * sb)) = 1 - ca * ca - cb * cb - cg * cg + 2 * ca * cb * cg).
  { replace ((1 - co * co) * ((sa * sb) * (sa * sb))) with ((sa * sa) * (sb * sb) - (co * (sa * sb)) * (co * (sa * sb))) by ring. rewrite C1.
    replace (sa * sa) with (1 - ca * ca) by lra. replace (sb * sb) with (1 - cb * cb) by lra. ring. }
  assert (P : 0 < (sa * sb) * (sa * sb)). { assert (sa * sb <> 0) by now apply Rmult_integral_contrapositive. nra. }
  assert (C3 : 0 <= 1 - co * co). { destruct (Rle_lt_dec 0 (1 - co * co)); [assumption|]. exfalso. nra. }
  pose proof (sqrt_sqrt _ C3) as Q. set (s := sqrt (1 - co * co)) in *. clearbody co s.
  unfold mtrans, mdet, dot, cross. cbn [r1 r2 r3 vx vy vz].
  assert (Sb2 : sb * sb * (s * s + co * co) = sb * sb) by (rewrite Q; ring).
  split; [|split; [|split; [|split; [|split; [|split]]]]].
  - transitivity (a * a * (sb * sb * (s * s + co * co) + cb * cb)); [ring|]. rewrite Sb2, Eb. ring.
  - transitivity (b * b * (sa * sa + ca * ca)); [ring|]. rewrite Ea. ring.
  - ring.
  - transitivity (a * b * (ca * cb - co * (sa * sb))); [ring|]. rewrite C1. ring.
  - ring.
  - ring.
  - rewrite <- C2, <- Q. ring.
Qed.
Example C126_example : exists g, reflection_matrix (V 1 0 0) (V 2 0 0) = Some g /\ to_point g (V 3 5 7) = V (-1) 5 7.
Proof.
  unfold reflection_matrix, unit_vector. replace (norm (V 2 0 0)) with 2.
  2:{ unfold norm, dot. cbn. replace (2 * 2 + 0 * 0 + 0 * 0) with (2 * 2) by ring. now rewrite sqrt_square by lra. }
  destruct (Reqb_spec 2 0); [lra|]. eexists. split; [reflexivity|]. unfold to_point. cbn [rot tra]. coords. apply vec_eq; cbn [vx vy vz]; field.
Qed.
Example C126_clip_example : exists m, clip_matrix (-1) 1 (-2) 2 1 3 true = Some m /\ happly m (V 1 0 1) = V 1 0 (-1).
Proof.
  unfold clip_matrix. rewrite !(proj2 (Rleb_false _ _)) by lra. cbn [orb]. rewrite (proj2 (Rleb_false 1 EPS)) by (unfold EPS; lra). eexists. split; [reflexivity|].
  unfold happly. cbn [row cor lin col]. coords. apply vec_eq; cbn [vx vy vz]; field.
Qed.

(** ** C127: compose_matrix undoes decompose_matrix *)
Lemma norm_zero_vec v : norm v = 0 -> v = vzero.
Proof.
  intros H. pose proof (norm_sq v) as E. rewrite H in E. destruct v as [x y z]. unfold dot in E. cbn [vx vy vz] in E.
  assert (x = 0) by nra. assert (y = 0) by nra. assert (z = 0) by nra. now subst.
Qed.
Lemma orthonormal_orthogonal a b c : is_unit a -> is_unit b -> is_unit c -> dot a b = 0 -> dot a c = 0 -> dot b c = 0 -> orthogonal (M a b c).
Proof.
  intros Ha Hb Hc Hab Hac Hbc.
  assert (L : mmul (M a b c) (mtrans (M a b c)) = Vec.mid).
  { unfold is_unit in *. destruct a as [a1 a2 a3], b as [b1 b2 b3], c as [c1 c2 c3]. coords. meq; lra. }
  assert (D : mdet (M a b c) <> 0).
  { assert (E : mdet (mmul (M a b c) (mtrans (M a b c))) = 1) by now rewrite L, mdet_id. rewrite mdet_mul, mdet_trans in E. intros Z. rewrite Z in E. lra. }
  split; [|exact L].
  assert (T : mtrans (M a b c) = minv (M a b c)).
  { rewrite <- (mmul_id_l (mtrans _)), <- (minv_l _ D), <- mmul_assoc, L. now rewrite mmul_id_r. }
  rewrite T. now apply minv_l.
Qed.
Lemma gram_schmidt_spec (a b c : vec) : mdet (M a b c) <> 0 ->
  let '(s, h, e) := gram_schmidt a b c in
  orthogonal e
  /\ a = vscale (vx s) (r1 e)
  /\ b = vscale (vy s) (vadd (vscale (vx h) (r1 e)) (r2 e))
  /\ c = vscale (vz s) (vadd (vadd (vscale (vy h) (r1 e)) (vscale (vz h) (r2 e))) (r3 e)).
Proof.
  intros D. unfold gram_schmidt. cbv zeta.
  assert (Nrm : forall v, norm v <> 0 -> is_unit (vscale (/ norm v) v) /\ v = vscale (norm v) (vscale (/ norm v) v)).
  { intros v H. split.
    - unfold is_unit. rewrite dot_scale_l, dot_scale_r, <- norm_sq. field. exact H.
    - generalize (norm v) H. intros k Hk. apply vec_eq; cbn [vx vy vz vscale]; field; exact Hk. }
  assert (Na : norm a <> 0).
  { intros Z. apply D. rewrite (norm_zero_vec _ Z). unfold mdet, dot, vzero. cbn. ring. }
  destruct (Nrm a Na) as [Ua Ea]. set (e1 := vscale (/ norm a) a) in *. set (sx := norm a) in *. clearbody e1 sx.
  set (xy := dot e1 b). set (b' := vsub b (vscale xy e1)).
  assert (Eb : b = vadd (vscale xy e1) b') by (unfold b'; vlin).
  assert (O1 : dot e1 b' = 0) by (unfold b'; rewrite dot_sub_r, dot_scale_r, Ua; unfold xy; ring).
  assert (Nb : norm b' <> 0).
  { intros Z. apply D. rewrite Ea, Eb, (norm_zero_vec _ Z). unfold mdet, vzero. clear. destruct e1 as [x y z], c as [p q r]. coords. ring. }
  destruct (Nrm b' Nb) as [Ub Eb']. set (e2 := vscale (/ norm b') b') in *. set (sy := norm b') in *.
  assert (O2 : dot e1 e2 = 0) by (unfold e2; rewrite dot_scale_r, O1; ring). clearbody e2 sy b' xy.
  set (xz := dot e1 c). set (c1 := vsub c (vscale xz e1)). set (yz := dot e2 c1). set (c2 := vsub c1 (vscale yz e2)).
  assert (Ec : c = vadd (vadd (vscale xz e1) (vscale yz e2)) c2) by (unfold c2, c1; vlin).
  assert (O3 : dot e1 c2 = 0).
  { unfold c2. rewrite dot_sub_r, dot_scale_r, O2. unfold c1. rewrite dot_sub_r, dot_scale_r, Ua. unfold xz. ring. }
  assert (O4 : dot e2 c2 = 0) by (unfold c2; rewrite dot_sub_r, dot_scale_r, Ub; unfold yz; ring).
  assert (Nc : norm c2 <> 0).
  { intros Z. apply D. rewrite Ea, Eb, Eb', Ec, (norm_zero_vec _ Z). unfold mdet, vzero. clear. destruct e1 as [x y z], e2 as [p q r]. coords. ring. }
  destruct (Nrm c2 Nc) as [Uc Ec']. set (e3 := vscale (/ norm c2) c2) in *. set (sz := norm c2) in *.
  assert (O5 : dot e1 e3 = 0) by (unfold e3; rewrite dot_scale_r, O3; ring). assert (O6 : dot e2 e3 = 0) by (unfold e3; rewrite dot_scale_r, O4; ring).
  clearbody e3 sz c2 yz c1 xz. cbn [vx vy vz r1 r2 r3]. split; [now apply orthonormal_orthogonal|]. split; [exact Ea|]. split.
  - rewrite Eb, Eb'. clear - Nb. apply vec_eq; cbn [vx vy vz vadd vscale]; field; exact Nb.
  - rewrite Ec, Ec'. clear - Nc. apply vec_eq; cbn [vx vy vz vadd vscale]; field; exact Nc.
Qed.
Lemma asin_atan2 x cy : x * x + cy * cy = 1 -> 0 <= cy -> asin x = atan2 x cy /\ cos (asin x) = cy.
Proof.
  intros E P. assert (B : -1 <= x <= 1) by nra.
  assert (C : cos (asin x) = cy) by (rewrite cos_asin by exact B; unfold Rsqr; replace (1 - x * x) with (cy * cy) by lra; now apply sqrt_square).
  split; [|exact C]. unfold atan2. rewrite E, sqrt_1. replace (cy / 1) with cy by field. rewrite <- C. pose proof (asin_bound x) as AB. pose proof PI_RGT_0.
  assert (SA : sin (asin x) = x) by now apply sin_asin.
  destruct (Rleb_spec 0 x) as [Px|Nx].
  - rewrite acos_cos; [reflexivity|]. split; [|lra]. destruct (Rle_lt_dec 0 (asin x)) as [?|Ng]; [assumption|]. exfalso. assert (sin (asin x) < 0) by (apply sin_lt_0_var; lra). lra.
  - rewrite <- cos_neg, acos_cos; [ring|]. split; [|lra]. destruct (Rle_lt_dec 0 (- asin x)) as [?|Ng]; [assumption|]. exfalso. assert (0 < sin (asin x)) by (apply sin_gt_0; lra). lra.
Qed.
Lemma row_angles_spec (e : mat) : orthogonal e -> mdet e = 1 ->
  let v := row_angles e in euler_matrix (vx v) (vy v) (vz v) sxyz = mtrans e.
Proof.
  intros O D. assert (Hr : rotation (mtrans e)) by (split; [now apply orthogonal_trans|now rewrite mdet_trans]).
  pose proof (angles_nonrep _ Hr) as AN. pose proof (rotation_equations _ Hr) as RE. destruct e as [[a d g] [b e h] [c f i]].
  unfold mtrans in *. cbn [r1 r2 r3 vx vy vz] in *. cbv zeta in AN |- *.
  destruct RE as (_ & (N & _) & _). unfold row_angles, ent. cbn [r1 r2 r3 vx vy vz].
  pose proof (sqrt_pos (a * a + d * d)) as P. assert (S : sqrt (a * a + d * d) * sqrt (a * a + d * d) = a * a + d * d) by (apply sqrt_sqrt; apply sq2_nonneg).
  destruct (asin_atan2 (- g) (sqrt (a * a + d * d))) as [E1 E2]; [lra|exact P|]. rewrite E2.
  destruct (Reqb_spec (sqrt (a * a + d * d)) 0) as [Z|NZ]; cbn [vx vy vz].
  - destruct (AN _ _ _ (or_intror (conj Z (conj eq_refl (conj eq_refl eq_refl))))) as ((? & ? & ?) & (? & ? & ?) & (? & ? & ?)).
    rewrite E1. cbv [euler_matrix sxyz mat_of lookup find axis_j axis_k List.nth NEXT_AXIS b2n firstaxis parity repetition frame Nat.eqb andb Nat.add Nat.sub]. meq; assumption.
  - assert (P' : 0 < sqrt (a * a + d * d)) by lra.
    destruct (AN _ _ _ (or_introl (conj P' (conj eq_refl (conj eq_refl eq_refl))))) as ((? & ? & ?) & (? & ? & ?) & (? & ? & ?)).
    rewrite E1. cbv [euler_matrix sxyz mat_of lookup find axis_j axis_k List.nth NEXT_AXIS b2n firstaxis parity repetition frame Nat.eqb andb Nat.add Nat.sub]. meq; assumption.
Qed.
(** composing, in closed form *)
Lemma compose_closed (s h v t x : vec) (w : R) : dot x t + w = 1 ->
  let a := mmul (mmul (euler_matrix (vx v) (vy v) (vz v) sxyz) (M (V 1 (vx h) (vy h)) (V 0 1 (vz h)) (V 0 0 1))) (M (V (vx s) 0 0) (V 0 (vy s) 0) (V 0 0 (vz s))) in
  compose_matrix (Parts s h v t (x, w)) = Hom a t (mvec (mtrans a) x) 1.
Proof.
  intros W. cbv zeta. unfold compose_matrix. cbv zeta. cbn [p_scale p_shear p_angles p_translate p_persp fst snd].
  set (r := euler_matrix _ _ _ _). set (z := M (V 1 _ _) _ _). set (d := M (V (vx s) 0 0) _ _). clearbody r z d.
  assert (O : forall u, outer u vzero = M vzero vzero vzero) by (intros u; unfold outer, vzero, vscale; cbn; f_equal; f_equal; ring).
  assert (A0 : forall m, madd m (M vzero vzero vzero) = m) by (intros [[] [] []]; unfold madd, vzero, vadd; cbn; f_equal; f_equal; ring).
  assert (Z0 : forall v, vadd v vzero = v) by (intros []; unfold vzero, vadd; cbn; f_equal; ring).
  assert (Zl : forall v, vadd vzero v = v) by (intros []; unfold vzero, vadd; cbn; f_equal; ring).
  assert (S0 : forall k, vscale k vzero = vzero) by (intros; unfold vzero, vscale; cbn; f_equal; ring).
  assert (S1 : forall v, vscale 1 v = v) by (intros []; unfold vscale; cbn; f_equal; ring).
  assert (M0 : forall m, mvec m vzero = vzero) by (intros [[] [] []]; unfold mvec, dot, vzero; cbn; f_equal; ring).
  assert (T0 : mtrans Vec.mid = Vec.mid) by reflexivity.
  assert (D0 : forall u, dot u vzero = 0) by (intros []; unfold dot, vzero; cbn; ring).
  assert (D1 : forall u, dot vzero u = 0) by (intros []; unfold dot, vzero; cbn; ring).
  assert (K : forall m t x m', hmul (Hom m t x 1) (hom_of (Rigid m' vzero)) = Hom (mmul m m') t (mvec (mtrans m') x) 1).
  { intros. unfold hmul, hom_of. cbn [lin col row cor rot tra]. rewrite O, A0, M0, S1, Zl, S0, Z0, D0. f_equal. ring. }
  replace (hmul (hmul hid (Hom Vec.mid vzero x w)) (hom_of (translation_matrix t))) with (Hom Vec.mid t x 1).
  2:{ unfold hmul, hid, hom_of, translation_matrix. cbn [lin col row cor rot tra].
      repeat rewrite ?O, ?A0, ?M0, ?S1, ?Zl, ?S0, ?Z0, ?D0, ?D1, ?mmul_id_l, ?mmul_id_r, ?mvec_id, ?T0, ?S1.
      replace (0 + 1 * w) with w by ring. replace (outer vzero x) with (M vzero vzero vzero) by (unfold outer, vzero, vscale; cbn; f_equal; f_equal; ring).
      rewrite A0, mvec_id, Rmult_1_r, W. reflexivity. }
  rewrite !K. cbn [cor lin]. unfold hscale. cbn [lin col row cor]. rewrite Rinv_1, !S1, mmul_id_l, mscale_1.
  rewrite <- !mvec_mmul, <- !mtrans_mmul. rewrite Rmult_1_l, mmul_assoc. reflexivity.
Qed.
Lemma minv_trans_mvec a v : mdet a <> 0 -> mvec (mtrans a) (mvec (mtrans (minv a)) v) = v.
Proof. intros D. now rewrite <- mvec_mmul, <- mtrans_mmul, minv_l, mvec_id by exact D. Qed.
(** Every matrix with a fourth corner not near zero and a non-singular linear part can be taken apart;
    put together again, the parts give the same matrix (up to the factor that homogeneous coordinates
    ignore) when its perspective row is zero or has an entry above EPS. *)
Theorem C127_compose_partial (m : hom) : EPS <= Rabs (cor m) -> mdet (lin m) <> 0 ->
  exists p, decompose_matrix m = Some p
  /\ p_translate p = vscale (/ cor m) (col m)
  /\ (row m = vzero \/ (EPS < Rabs (vx (row m) / cor m) \/ EPS < Rabs (vy (row m) / cor m) \/ EPS < Rabs (vz (row m) / cor m)) ->
      compose_matrix p = hscale (/ cor m) m).
Proof.
  intros Hc D. pose proof EPS_pos as EP. assert (Nc : cor m <> 0) by (intros Z; rewrite Z, Rabs_R0 in Hc; lra).
  unfold decompose_matrix. rewrite (proj2 (Rltb_false (Rabs (cor m)) EPS)) by lra. cbv zeta. destruct m as [A t r k]. cbn [lin col row cor] in *.
  unfold hscale. cbn [lin col row cor].
  assert (Di : mdet (mscale (/ k) A) <> 0).
  { rewrite mdet_mscale. assert (/ k <> 0) by now apply Rinv_neq_0_compat. repeat apply Rmult_integral_contrapositive_currified; assumption. }
  assert (Rx : forall y, Rabs (y / k) = Rabs (/ k * y)) by (intros; f_equal; unfold Rdiv; ring). rewrite !Rx. clear Rx.
  replace (/ k * k) with 1 by (field; exact Nc).
  assert (R0 : r = vzero \/ (EPS < Rabs (/ k * vx r) \/ EPS < Rabs (/ k * vy r) \/ EPS < Rabs (/ k * vz r)) ->
               vscale (/ k) r = vzero \/ (EPS < Rabs (/ k * vx r) \/ EPS < Rabs (/ k * vy r) \/ EPS < Rabs (/ k * vz r))).
  { intros [-> |H]; [left; unfold vscale, vzero; cbn; f_equal; ring|now right]. }
  set (B := mscale (/ k) A) in *. set (u := vscale (/ k) t). set (pr := vscale (/ k) r) in *.
  replace (/ k * vx r) with (vx pr) in * by reflexivity. replace (/ k * vy r) with (vy pr) in * by reflexivity. replace (/ k * vz r) with (vz pr) in * by reflexivity.
  clearbody B u pr. clear - Di R0 EP.
  destruct (Reqb_spec (mdet B) 0) as [Z|_]; [contradiction|].
  pose proof (gram_schmidt_spec (r1 (mtrans B)) (r2 (mtrans B)) (r3 (mtrans B))) as GS.
  assert (Dt : mdet (M (r1 (mtrans B)) (r2 (mtrans B)) (r3 (mtrans B))) <> 0) by (change (mdet (mtrans B) <> 0); now rewrite mdet_trans).
  specialize (GS Dt). destruct (gram_schmidt _ _ _) as [[s h] e]. destruct GS as (Oe & E1 & E2 & E3).
  set (flip := Rltb (mdet e) 0). set (se := if flip then (vneg s, mscale (-1) e) else (s, e)).
  assert (G : orthogonal (snd se) /\ mdet (snd se) = 1
    /\ r1 (mtrans B) = vscale (vx (fst se)) (r1 (snd se))
    /\ r2 (mtrans B) = vscale (vy (fst se)) (vadd (vscale (vx h) (r1 (snd se))) (r2 (snd se)))
    /\ r3 (mtrans B) = vscale (vz (fst se)) (vadd (vadd (vscale (vy h) (r1 (snd se))) (vscale (vz h) (r2 (snd se)))) (r3 (snd se)))).
  { assert (De : mdet e * mdet e = 1) by (rewrite <- (mdet_trans e) at 1; rewrite <- mdet_mul; rewrite (proj1 Oe); apply mdet_id).
    unfold se, flip. destruct (Rltb_spec (mdet e) 0) as [Ng|Ps]; cbn [fst snd].
    - split; [|split; [|split; [|split]]].
      + destruct Oe as [O1 O2]. split; rewrite mtrans_mscale, mscale_mmul; replace (-1 * -1) with 1 by ring; rewrite mscale_1; assumption.
      + rewrite mdet_mscale. nra.
      + rewrite E1. unfold mscale. cbn [r1 r2 r3]. vlin.
      + rewrite E2. unfold mscale. cbn [r1 r2 r3]. vlin.
      + rewrite E3. unfold mscale. cbn [r1 r2 r3]. vlin.
    - split; [exact Oe|]. split; [nra|]. repeat split; assumption. }
  clearbody se. destruct se as [s' e']. cbn [fst snd] in G. destruct G as (Oe' & De' & F1 & F2 & F3). clear E1 E2 E3 Oe Dt.
  eexists. split; [reflexivity|]. split; [reflexivity|]. intros Hr. apply R0 in Hr.
  assert (RA := row_angles_spec e' Oe' De'). cbv zeta in RA.
  assert (L : mmul (mmul (mtrans e') (M (V 1 (vx h) (vy h)) (V 0 1 (vz h)) (V 0 0 1))) (M (V (vx s') 0 0) (V 0 (vy s') 0) (V 0 0 (vz s'))) = B).
  { rewrite <- (mtrans_invol B). rewrite <- (mtrans_invol (mmul _ _)). f_equal. transitivity (M (r1 (mtrans B)) (r2 (mtrans B)) (r3 (mtrans B))); [|reflexivity]. rewrite F1, F2, F3. clear.
    destruct e' as [[a b c] [d e f] [g i j]], s' as [x y z], h as [p q r]. coords. meq; ring. }
  destruct ((Rltb EPS (Rabs (vx pr)) || Rltb EPS (Rabs (vy pr)) || Rltb EPS (Rabs (vz pr)))%bool) eqn:EB.
  - rewrite compose_closed by ring. rewrite RA, L, minv_trans_mvec by exact Di. reflexivity.
  - apply orb_false_elim in EB. destruct EB as [EB B3]. apply orb_false_elim in EB. destruct EB as [B1 B2].
    apply Rltb_false in B1, B2, B3. destruct Hr as [Z|[?|[?|?]]]; try lra. rewrite Z.
    rewrite compose_closed by (unfold dot, vzero; cbn; ring). rewrite RA, L. f_equal. unfold mvec, dot, vzero. cbn. f_equal; ring.
Qed.
(** A perspective row below EPS is dropped. *)
Theorem C127_compose_refuted : exists m p, decompose_matrix m = Some p /\ cor m = 1 /\ row m <> vzero /\ row (compose_matrix p) = vzero.
Proof.
  set (m := Hom Vec.mid vzero (V (EPS / 2) 0 0) 1). pose proof EPS_pos as EP.
  assert (E1 : EPS <= Rabs (cor m)) by (cbn; rewrite Rabs_R1; unfold EPS; lra).
  assert (D1 : mdet (lin m) <> 0) by (cbn [m lin]; rewrite mdet_id; lra).
  set (m0 := Hom Vec.mid vzero vzero 1).
  assert (D0 : mdet (lin m0) <> 0) by (cbn [m0 lin]; rewrite mdet_id; lra).
  destruct (C127_compose_partial m0 E1 D0) as (p0 & H0 & _ & C0).
  assert (Same : decompose_matrix m = decompose_matrix m0).
  { unfold decompose_matrix, m, m0. cbn [cor hscale lin row col]. destruct (Rltb _ _); [reflexivity|]. destruct (Reqb _ _); [reflexivity|].
    unfold vzero at 3. unfold vscale. cbn [vx vy vz]. rewrite !Rinv_1, !Rmult_0_r, Rmult_1_l, Rabs_R0.
    pose proof EP as EP2. rewrite (proj2 (Rltb_false EPS 0)), (proj2 (Rltb_false EPS (Rabs (EPS / 2)))); [reflexivity| |lra]. rewrite Rabs_right by lra. lra. }
  exists m, p0. split; [now rewrite Same|]. split; [reflexivity|]. split.
  - cbn [m row]. unfold vzero. intros Z. injection Z as Z. lra.
  - rewrite C0 by (now left). cbn. unfold vscale, vzero. cbn. f_equal; ring.
Qed.
Example C127_example : exists p, decompose_matrix (Hom (M (V 2 0 0) (V 0 2 0) (V 0 0 2)) (V 2 4 6) vzero 2) = Some p /\ p_translate p = V 1 2 3
  /\ compose_matrix p = Hom Vec.mid (V 1 2 3) vzero 1.
Proof.
  destruct (C127_compose_partial (Hom (M (V 2 0 0) (V 0 2 0) (V 0 0 2)) (V 2 4 6) vzero 2)) as (p & H & T & C).
  - cbn [cor]. rewrite Rabs_right by lra. unfold EPS. lra.
  - cbn [lin]. unfold mdet. coords. intros Z. lra.
  - exists p. split; [exact H|]. split; [rewrite T; cbn [cor col]; apply vec_eq; cbn [vx vy vz vscale]; field|]. rewrite C by (now left). unfold hscale. cbn [lin col row cor]. f_equal; try field.
    + coords. meq; field.
    + apply vec_eq; cbn [vx vy vz vscale]; field.
    + unfold vzero. apply vec_eq; cbn [vx vy vz vscale]; ring.
Qed.

Print Assumptions C125_slerp_partial.
Print Assumptions C125_slerp_refuted.
Print Assumptions C125_random.
Print Assumptions C125_angle_between.
Print Assumptions C126_reflection.
Print Assumptions C126_scale.
Print Assumptions C126_parallel_projection.
Print Assumptions C126_perspective.
Print Assumptions C126_clip.
Print Assumptions C126_shear.
Print Assumptions C126_cell.
Print Assumptions C127_compose_partial.
Print Assumptions C127_compose_refuted.

(** For any spin, odd ones included, the interpolation does not divide by zero. *)
Theorem C125_slerp_defined : forall p0 p1 f spin short, qdot p0 p0 <> 0 -> qdot p1 p1 <> 0 ->
  exists q, quaternion_slerp p0 p1 f spin short = Some q.
Proof.
  intros p0 p1 f spin short N0 N1. unfold quaternion_slerp.
  assert (E0 : exists q0, qunit p0 = Some q0) by (unfold qunit; destruct (Reqb_spec (qdot p0 p0) 0); [contradiction|eauto]).
  assert (E1 : exists q1, qunit p1 = Some q1) by (unfold qunit; destruct (Reqb_spec (qdot p1 p1) 0); [contradiction|eauto]).
  destruct E0 as [q0 E0], E1 as [q1 E1]. rewrite E0, E1.
  destruct (qunit_some _ _ E0) as (U0 & _). destruct (qunit_some _ _ E1) as (U1 & _).
  pose proof (qcauchy q0 q1 U0 U1) as CB. assert (AB : Rabs (qdot q0 q1) <= 1) by (apply Rabs_le; lra).
  destruct (Reqb f 0); [eauto|]. destruct (Reqb f 1); [eauto|].
  destruct (Rltb_spec (Rabs (Rabs (qdot q0 q1) - 1)) EPS) as [Near|Far]; [eauto|].
  rewrite Rabs_left1 in Far by lra. pose proof EPS_pos as EP. set (neg := (short && Rltb (qdot q0 q1) 0)%bool).
  set (d := if neg then - qdot q0 q1 else qdot q0 q1). set (s1 := if neg then qneg q1 else q1).
  replace (if neg then (- qdot q0 q1, qneg q1) else (qdot q0 q1, q1)) with (d, s1) by (unfold d, s1; now destruct neg).
  assert (DF : -1 + EPS <= d <= 1 - EPS).
  { unfold d. pose proof (Rle_abs (qdot q0 q1)). pose proof (Rle_abs (- qdot q0 q1)) as R. rewrite Rabs_Ropp in R. destruct neg; lra. }
  destruct (Rltb (Rabs (acos d + IZR spin * PI)) EPS); [eauto|].
  destruct (Reqb_spec (sin (acos d + IZR spin * PI)) 0) as [S|S]; [exfalso|eauto].
  apply sin_eq_0_0 in S. destruct S as [k Hk]. assert (A : acos d = IZR (k - spin) * PI) by (rewrite minus_IZR; lra).
  assert (C : cos (acos d) = d) by (apply cos_acos; lra). assert (Z0 : sin (acos d) = 0) by (apply sin_eq_0_1; now exists (k - spin)%Z).
  pose proof (sin2_cos2 (acos d)) as P. rewrite C, Z0 in P. unfold Rsqr in P. nra.
Qed.
Print Assumptions C125_slerp_defined.
Example C125_defined_example : exists q, quaternion_slerp (Q 1 0 0 0) (Q 0 2 0 0) (1 / 3) 3 true = Some q.
Proof. apply C125_slerp_defined; unfold qdot; cbn; lra. Qed.
