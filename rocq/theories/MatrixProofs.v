(** Lemmas for MatrixProps.v. *)
From Coq Require Import Reals List Bool Arith Lra Lia Nsatz.
From Verif Require Import Base Vec TransformModel TransformProofs MatrixModel.
Import ListNotations.
Open Scope R_scope.

Ltac coords := unfold mmul, mtrans, mvec, madd, msub, mscale, outer, Vec.mid, vadd, vsub, vscale, vneg, vzero, dot, cross in *; cbn [vx vy vz r1 r2 r3] in *.
Ltac meq := apply mat_eq; cbn [r1 r2 r3]; apply vec_eq; cbn [vx vy vz].

Lemma mvec_outer a b v : mvec (outer a b) v = vscale (dot b v) a.
Proof. destruct a as [a1 a2 a3], b as [b1 b2 b3], v as [x y z]. coords. apply vec_eq; cbn [vx vy vz]; ring. Qed.
Lemma mvec_madd a b v : mvec (madd a b) v = vadd (mvec a v) (mvec b v).
Proof. destruct a as [[a1 a2 a3] [a4 a5 a6] [a7 a8 a9]], b as [[b1 b2 b3] [b4 b5 b6] [b7 b8 b9]], v as [x y z]. coords. apply vec_eq; cbn [vx vy vz]; ring. Qed.
Lemma mvec_msub a b v : mvec (msub a b) v = vsub (mvec a v) (mvec b v).
Proof. destruct a as [[a1 a2 a3] [a4 a5 a6] [a7 a8 a9]], b as [[b1 b2 b3] [b4 b5 b6] [b7 b8 b9]], v as [x y z]. coords. apply vec_eq; cbn [vx vy vz]; ring. Qed.
Lemma mvec_mscale k a v : mvec (mscale k a) v = vscale k (mvec a v).
Proof. destruct a as [[a1 a2 a3] [a4 a5 a6] [a7 a8 a9]], v as [x y z]. coords. apply vec_eq; cbn [vx vy vz]; ring. Qed.

Lemma unit_vector_some v u : unit_vector v = Some u -> is_unit u /\ v = vscale (norm v) u /\ norm v <> 0.
Proof.
  unfold unit_vector. destruct (Reqb_spec (norm v) 0) as [E|E]; [discriminate|]. intros H. injection H as <-.
  repeat split; [|destruct v as [x y z]; unfold vscale; cbn [vx vy vz]; f_equal; field; exact E|exact E].
  unfold is_unit. rewrite dot_scale_l, dot_scale_r, <- norm_sq. field. exact E.
Qed.

(** ** Rotations *)
Definition rotation (m : mat) : Prop := orthogonal m /\ mdet m = 1.
Lemma rotation_cofactors m : rotation m ->
  r1 m = cross (r2 m) (r3 m) /\ r2 m = cross (r3 m) (r1 m) /\ r3 m = cross (r1 m) (r2 m).
Proof.
  intros [O D]. pose proof (minv_orthogonal m O) as E. unfold minv in E. rewrite D, Rinv_1 in E.
  apply (f_equal mtrans) in E. rewrite !mtrans_invol in E.
  assert (S1 : forall v, vscale 1 v = v) by (intros [x y z]; unfold vscale; cbn; f_equal; ring). rewrite !S1 in E.
  destruct m as [a b c]. cbn [r1 r2 r3] in *. now injection E.
Qed.
Lemma rotation_mul a b : rotation a -> rotation b -> rotation (mmul a b).
Proof.
  intros [A DA] [B DB]. split; [now apply orthogonal_mul|].
  replace (mdet (mmul a b)) with (mdet a * mdet b); [rewrite DA, DB; ring|].
  destruct a as [[a1 a2 a3] [a4 a5 a6] [a7 a8 a9]], b as [[b1 b2 b3] [b4 b5 b6] [b7 b8 b9]]. unfold mdet. coords. ring.
Qed.

(** ** Quaternions *)
Definition qmat (q : quat) : mat :=
  let (w, x, y, z) := q in
  M (V (w * w + x * x - y * y - z * z) (2 * (x * y - z * w)) (2 * (x * z + y * w)))
    (V (2 * (x * y + z * w)) (w * w - x * x + y * y - z * z) (2 * (y * z - x * w)))
    (V (2 * (x * z - y * w)) (2 * (y * z + x * w)) (w * w - x * x - y * y + z * z)).
Lemma EPS_pos : 0 < EPS. Proof. unfold EPS. lra. Qed.
Lemma quaternion_matrix_big q : EPS <= qdot q q -> quaternion_matrix q = mscale (/ qdot q q) (qmat q).
Proof.
  intros H. unfold quaternion_matrix. rewrite (proj2 (Rltb_false _ _) H). pose proof EPS_pos.
  assert (S : sqrt (2 / qdot q q) * sqrt (2 / qdot q q) = 2 * / qdot q q).
  { apply sqrt_sqrt. apply Rmult_le_pos; [lra|]. left. apply Rinv_0_lt_compat. lra. }
  assert (N : / qdot q q * qdot q q = 1) by (apply Rinv_l; lra).
  set (s := sqrt (2 / qdot q q)) in *. set (k := / qdot q q) in *. clearbody s k.
  destruct q as [w x y z]. unfold qdot, qscale, qmat in *. cbn [qw qx qy qz] in *. coords. meq; nsatz.
Qed.
Lemma qdot_nonneg q : 0 <= qdot q q.
Proof. destruct q as [q0 q1 q2 q3]. unfold qdot. cbn. nra. Qed.
Lemma qmat_mul p q : qmat (quaternion_multiply p q) = mmul (qmat p) (qmat q).
Proof. destruct p as [p0 p1 p2 p3], q as [q0 q1 q2 q3]. unfold qmat, quaternion_multiply. coords. meq; ring. Qed.
Lemma qdot_mul p q : qdot (quaternion_multiply p q) (quaternion_multiply p q) = qdot p p * qdot q q.
Proof. destruct p as [p0 p1 p2 p3], q as [q0 q1 q2 q3]. unfold qdot, quaternion_multiply. cbn. ring. Qed.
Lemma qmat_gram q : mmul (mtrans (qmat q)) (qmat q) = mscale (qdot q q * qdot q q) Vec.mid
  /\ mmul (qmat q) (mtrans (qmat q)) = mscale (qdot q q * qdot q q) Vec.mid.
Proof. destruct q as [q0 q1 q2 q3]. unfold qmat, qdot. cbn [qw qx qy qz]. split; coords; meq; ring. Qed.
Lemma qmat_det q : mdet (qmat q) = qdot q q * qdot q q * qdot q q.
Proof. destruct q as [q0 q1 q2 q3]. unfold mdet, qmat, qdot. cbn [qw qx qy qz]. coords. ring. Qed.
Lemma mscale_mmul k l a b : mmul (mscale k a) (mscale l b) = mscale (k * l) (mmul a b).
Proof. destruct a as [[a1 a2 a3] [a4 a5 a6] [a7 a8 a9]], b as [[b1 b2 b3] [b4 b5 b6] [b7 b8 b9]]. coords. meq; ring. Qed.
Lemma mscale_mscale k l a : mscale k (mscale l a) = mscale (k * l) a.
Proof. destruct a as [[a1 a2 a3] [a4 a5 a6] [a7 a8 a9]]. coords. meq; ring. Qed.
Lemma mscale_1 a : mscale 1 a = a.
Proof. destruct a as [[a1 a2 a3] [a4 a5 a6] [a7 a8 a9]]. coords. meq; ring. Qed.
Lemma mtrans_mscale k a : mtrans (mscale k a) = mscale k (mtrans a).
Proof. destruct a as [[a1 a2 a3] [a4 a5 a6] [a7 a8 a9]]. coords. meq; ring. Qed.
Lemma mdet_mscale k a : mdet (mscale k a) = k * k * k * mdet a.
Proof. destruct a as [[a1 a2 a3] [a4 a5 a6] [a7 a8 a9]]. unfold mdet. coords. ring. Qed.

Lemma quaternion_rotation q : rotation (quaternion_matrix q).
Proof.
  destruct (Rlt_le_dec (qdot q q) EPS) as [H|H].
  - unfold quaternion_matrix. rewrite (proj2 (Rltb_true _ _) H). split; [apply orthogonal_id|]. unfold mdet. coords. ring.
  - rewrite quaternion_matrix_big by exact H. pose proof EPS_pos. destruct (qmat_gram q) as [A B]. split; [split|].
    + rewrite mtrans_mscale, mscale_mmul, A, mscale_mscale. replace (_ * _) with 1 by (field; lra). apply mscale_1.
    + rewrite mtrans_mscale, mscale_mmul, B, mscale_mscale. replace (_ * _) with 1 by (field; lra). apply mscale_1.
    + rewrite mdet_mscale, qmat_det. field. lra.
Qed.
Lemma quaternion_matrix_unit q : qdot q q = 1 -> quaternion_matrix q = qmat q.
Proof. intros H. rewrite quaternion_matrix_big by (rewrite H; unfold EPS; lra). rewrite H, Rinv_1. apply mscale_1. Qed.
Lemma qmat_scale k q : qmat (qscale k q) = mscale (k * k) (qmat q).
Proof. destruct q as [q0 q1 q2 q3]. unfold qmat, qscale. cbn [qw qx qy qz]. coords. meq; ring. Qed.
Lemma qdot_scale k q : qdot (qscale k q) (qscale k q) = k * k * qdot q q.
Proof. destruct q as [q0 q1 q2 q3]. unfold qdot, qscale. cbn. ring. Qed.

(** about an axis *)
Lemma about_axis_unit angle axis : EPS < norm axis -> qdot (quaternion_about_axis angle axis) (quaternion_about_axis angle axis) = 1.
Proof.
  intros H. unfold quaternion_about_axis. rewrite (proj2 (Rltb_true _ _) H). pose proof EPS_pos.
  pose proof (norm_sq axis) as NS. set (n := norm axis) in *. destruct axis as [x y z]. unfold qdot, vscale, dot in *. cbn [qw qx qy qz vx vy vz] in *.
  pose proof (sin2_cos2 (angle / 2)) as SC. unfold Rsqr in SC.
  set (s := sin (angle / 2)) in *. set (c := cos (angle / 2)) in *.
  replace (c * c + s / n * x * (s / n * x) + s / n * y * (s / n * y) + s / n * z * (s / n * z))
    with (c * c + s * s * ((x * x + y * y + z * z) / (n * n))) by (field; lra).
  rewrite <- NS. replace (n * n / (n * n)) with 1 by (field; lra). lra.
Qed.
Lemma about_axis_matrix angle axis u : unit_vector axis = Some u -> EPS < norm axis ->
  quaternion_matrix (quaternion_about_axis angle axis) = rodrigues (sin angle) (cos angle) u.
Proof.
  intros Hu Hn. rewrite quaternion_matrix_unit by now apply about_axis_unit.
  unfold quaternion_about_axis. rewrite (proj2 (Rltb_true _ _) Hn). pose proof EPS_pos.
  destruct (unit_vector_some _ _ Hu) as (U & E & N0).
  replace (vscale (sin (angle / 2) / norm axis) axis) with (vscale (sin (angle / 2)) u).
  2:{ rewrite E at 2. destruct u as [x y z]. unfold vscale. cbn [vx vy vz]. f_equal; field; exact N0. }
  replace angle with (2 * (angle / 2)) at 5 6 by field. rewrite sin_2a, cos_2a.
  pose proof (sin2_cos2 (angle / 2)) as SC. unfold Rsqr in SC.
  set (s := sin (angle / 2)) in *. set (c := cos (angle / 2)) in *. clearbody s c. clear E Hu Hn.
  destruct u as [x y z]. unfold is_unit, dot in U. cbn [vx vy vz] in U. unfold qmat, rodrigues. coords. meq; nsatz.
Qed.

(** every rotation comes from a unit quaternion *)
Lemma rotation_equations m : rotation m ->
  let '(M (V a b c) (V d e f) (V g h i)) := m in
  (a * a + b * b + c * c = 1 /\ d * d + e * e + f * f = 1 /\ g * g + h * h + i * i = 1)
  /\ (a * a + d * d + g * g = 1 /\ b * b + e * e + h * h = 1 /\ c * c + f * f + i * i = 1)
  /\ (a * d + b * e + c * f = 0 /\ a * g + b * h + c * i = 0 /\ d * g + e * h + f * i = 0)
  /\ (a * b + d * e + g * h = 0 /\ a * c + d * f + g * i = 0 /\ b * c + e * f + h * i = 0)
  /\ (a = e * i - f * h /\ b = f * g - d * i /\ c = d * h - e * g)
  /\ (d = h * c - i * b /\ e = i * a - g * c /\ f = g * b - h * a)
  /\ (g = b * f - c * e /\ h = c * d - a * f /\ i = a * e - b * d).
Proof.
  intros Hr. pose proof (rotation_cofactors m Hr) as C. destruct Hr as [[O1 O2] _].
  destruct m as [[a b c] [d e f] [g h i]]. coords. injection O1 as ? ? ? ? ? ? ? ? ?. injection O2 as ? ? ? ? ? ? ? ? ?.
  destruct C as (C1 & C2 & C3). injection C1 as ? ? ?. injection C2 as ? ? ?. injection C3 as ? ? ?.
  repeat split; lra.
Qed.

(** The four candidates for (a multiple of) the quaternion of a rotation; [4 s] is the squared norm. *)
Lemma candidates m : rotation m ->
  let '(M (V a b c) (V d e f) (V g h i)) := m in
  (let s := 1 + a + e + i in let p := Q s (h - f) (c - g) (d - b) in qdot p p = 4 * s /\ qmat p = mscale (4 * s) m)
  /\ (let s := 1 + a - e - i in let p := Q (h - f) s (b + d) (c + g) in qdot p p = 4 * s /\ qmat p = mscale (4 * s) m)
  /\ (let s := 1 - a + e - i in let p := Q (c - g) (b + d) s (f + h) in qdot p p = 4 * s /\ qmat p = mscale (4 * s) m)
  /\ (let s := 1 - a - e + i in let p := Q (d - b) (c + g) (f + h) s in qdot p p = 4 * s /\ qmat p = mscale (4 * s) m).
Proof.
  intros Hr. pose proof (rotation_equations m Hr) as E. destruct m as [[a b c] [d e f] [g h i]].
  destruct E as ((? & ? & ?) & (? & ? & ?) & (? & ? & ?) & (? & ? & ?) & (? & ? & ?) & (? & ? & ?) & (? & ? & ?)).
  repeat split; unfold qdot, qmat; coords; cbn [qw qx qy qz]; try meq; lra.
Qed.
Lemma rotation_quaternion m : rotation m -> exists p, qdot p p = 1 /\ qmat p = m.
Proof.
  intros Hr. pose proof (candidates m Hr) as C. destruct m as [[a b c] [d e f] [g h i]].
  assert (G : forall s p, 0 < s -> qdot p p = 4 * s /\ qmat p = mscale (4 * s) (M (V a b c) (V d e f) (V g h i)) ->
    exists p, qdot p p = 1 /\ qmat p = M (V a b c) (V d e f) (V g h i)).
  { intros s p Hs [N E]. set (k := / (2 * sqrt s)).
    assert (K : k * k = / (4 * s)).
    { unfold k. rewrite <- (sqrt_sqrt s) at 3 by lra. field. apply Rgt_not_eq. now apply sqrt_lt_R0. }
    exists (qscale k p). rewrite qdot_scale, qmat_scale, N, E, K, mscale_mscale, Rinv_l by lra. split; [reflexivity|apply mscale_1]. }
  destruct C as (C0 & C1 & C2 & C3).
  destruct (Rlt_le_dec 0 (1 + a + e + i)); [eapply G; [|exact C0]; lra|].
  destruct (Rlt_le_dec 0 (1 + a - e - i)); [eapply G; [|exact C1]; lra|].
  destruct (Rlt_le_dec 0 (1 - a + e - i)); [eapply G; [|exact C2]; lra|].
  eapply G; [|exact C3]; lra.
Qed.
Lemma K_of_qmat p v : qdot p p = 1 -> K_apply (qmat p) v = qscale (/ 3) (qadd (qscale (4 * qdot p v) p) (qneg v)).
Proof.
  intros H. destruct p as [p0 p1 p2 p3], v as [v0 v1 v2 v3]. unfold qdot in *. cbn [qw qx qy qz] in *.
  unfold K_apply, qmat, ent, qadd, qscale, qneg, qdot. cbn [r1 r2 r3 vx vy vz qw qx qy qz].
  assert (G : forall v, v * (p0 * p0 + p1 * p1 + p2 * p2 + p3 * p3) = v) by (intros v; rewrite H; ring).
  pose proof (G v0). pose proof (G v1). pose proof (G v2). pose proof (G v3). f_equal; lra.
Qed.
Lemma qmat_neg q : qmat (qneg q) = qmat q.
Proof. destruct q as [q0 q1 q2 q3]. unfold qmat, qneg. cbn. meq; ring. Qed.
Lemma qdot_neg q : qdot (qneg q) (qneg q) = qdot q q.
Proof. destruct q as [q0 q1 q2 q3]. unfold qdot, qneg. cbn. ring. Qed.

(** ** atan2 *)
Lemma atan2_general s c h : 0 < h -> s * s + c * c = h * h -> sin (atan2 s c) = s / h /\ cos (atan2 s c) = c / h.
Proof.
  intros Hh E. assert (Eu : s / h * (s / h) + c / h * (c / h) = 1).
  { replace (s / h * (s / h) + c / h * (c / h)) with ((s * s + c * c) / (h * h)) by (field; lra). rewrite E. field. lra. }
  destruct (atan2_sin_cos _ _ Eu) as [A B].
  enough (G : atan2 (s / h) (c / h) = atan2 s c) by (rewrite <- G; now split). symmetry.
  unfold atan2. rewrite E, Eu, sqrt_1. rewrite sqrt_square by lra. replace (c / h / 1) with (c / h) by (field; lra).
  destruct (Rleb_spec 0 s) as [H|H], (Rleb_spec 0 (s / h)) as [H'|H']; try reflexivity; exfalso.
  - apply H'. apply Rmult_le_pos; [lra|]. left. now apply Rinv_0_lt_compat.
  - apply H. replace s with (s / h * h) by (field; lra). apply Rmult_le_pos; lra.
Qed.

(** ** The angles found in a rotation matrix *)
Lemma rotation_products m : rotation m ->
  let '(M (V a b c) (V d e f) (V g h i)) := m in
  ((a * a + d * d) * b = - g * h * a - i * d /\ (a * a + d * d) * c = - g * i * a + h * d
   /\ (a * a + d * d) * e = - g * h * d + i * a /\ (a * a + d * d) * f = - g * i * d - h * a)
  /\ ((b * b + c * c) * e = - a * b * d - c * g /\ (b * b + c * c) * f = - a * c * d + b * g
   /\ (b * b + c * c) * h = - a * b * g + c * d /\ (b * b + c * c) * i = - a * c * g - b * d).
Proof.
  intros Hr. pose proof (rotation_equations m Hr) as E. destruct m as [[a b c] [d e f] [g h i]].
  destruct E as (_ & _ & (R12 & R13 & R23) & (C12 & C13 & C23) & _ & (D & E & F) & (G & H & I)).
  assert (K : forall k x y, x = y -> k * x = k * y) by (intros; congruence).
  repeat split.
  - pose proof (K a _ _ C12). pose proof (K d _ _ I). lra.
  - pose proof (K a _ _ C13). pose proof (K d _ _ H). lra.
  - pose proof (K d _ _ C12). pose proof (K a _ _ I). lra.
  - pose proof (K d _ _ C13). pose proof (K a _ _ H). lra.
  - pose proof (K b _ _ R12). pose proof (K c _ _ G). lra.
  - pose proof (K c _ _ R12). pose proof (K b _ _ G). lra.
  - pose proof (K b _ _ R13). pose proof (K c _ _ D). lra.
  - pose proof (K c _ _ R13). pose proof (K b _ _ D). lra.
Qed.
Lemma sq2_nonneg x y : 0 <= x * x + y * y.
Proof. nra. Qed.
Lemma sq2_zero x y : x * x + y * y = 0 -> x = 0 /\ y = 0.
Proof. intros H. split; nra. Qed.
Lemma angles_nonrep m : rotation m ->
  let '(M (V a b c) (V d e f) (V g h i)) := m in
  let cy := sqrt (a * a + d * d) in
  forall ax ay az,
  (0 < cy /\ ax = atan2 h i /\ ay = atan2 (- g) cy /\ az = atan2 d a)
  \/ (cy = 0 /\ ax = atan2 (- f) e /\ ay = atan2 (- g) cy /\ az = 0) ->
  let si := sin ax in let sj := sin ay in let sk := sin az in let ci := cos ax in let cj := cos ay in let ck := cos az in
  (cj * ck = a /\ sj * (si * ck) - ci * sk = b /\ sj * (ci * ck) + si * sk = c)
  /\ (cj * sk = d /\ sj * (si * sk) + ci * ck = e /\ sj * (ci * sk) - si * ck = f)
  /\ (- sj = g /\ cj * si = h /\ cj * ci = i).
Proof.
  intros Hr. pose proof (rotation_equations m Hr) as E. pose proof (rotation_products m Hr) as RP. destruct m as [[a b c] [d e f] [g h i]].
  destruct E as ((? & ? & ?) & (? & ? & ?) & (? & ? & ?) & (? & ? & ?) & (? & ? & ?) & (? & ? & ?) & (? & ? & ?)).
  cbv zeta. intros ax ay az Hc.
  assert (CC : sqrt (a * a + d * d) * sqrt (a * a + d * d) = a * a + d * d) by (apply sqrt_sqrt; apply sq2_nonneg).
  set (cy := sqrt (a * a + d * d)) in *. clearbody cy.
  assert (Ay : - g * - g + cy * cy = 1) by lra.
  destruct (atan2_sin_cos _ _ Ay) as [Sy Cy].
  destruct Hc as [(P & -> & -> & ->)|(P & -> & -> & ->)].
  - assert (A1 : h * h + i * i = cy * cy) by lra. assert (A2 : d * d + a * a = cy * cy) by lra.
    destruct (atan2_general _ _ _ P A1) as [Sx Cx]. destruct (atan2_general _ _ _ P A2) as [Sz Cz].
    rewrite Sx, Cx, Sy, Cy, Sz, Cz.
    assert (D : forall x y, cy * cy * x = y -> y / (cy * cy) = x) by (intros x y <-; field; lra).
    repeat split; try (field; lra).
    + transitivity ((- g * h * a - i * d) / (cy * cy)); [field; lra|]. apply D. rewrite CC. apply RP.
    + transitivity ((- g * i * a + h * d) / (cy * cy)); [field; lra|]. apply D. rewrite CC. apply RP.
    + transitivity ((- g * h * d + i * a) / (cy * cy)); [field; lra|]. apply D. rewrite CC. apply RP.
    + transitivity ((- g * i * d - h * a) / (cy * cy)); [field; lra|]. apply D. rewrite CC. apply RP.
  - assert (a = 0 /\ d = 0) as [A0 D0] by (apply sq2_zero; rewrite <- CC, P; ring).
    rewrite A0, D0 in *. assert (h = 0 /\ i = 0) as [H0' I0] by (apply sq2_zero; lra). rewrite H0', I0 in *.
    assert (A1 : - f * - f + e * e = 1) by lra. destruct (atan2_sin_cos _ _ A1) as [Sx Cx].
    rewrite Sx, Cx, Sy, Cy, sin_0, cos_0, P. repeat split; lra.
Qed.
Lemma angles_rep m : rotation m ->
  let '(M (V a b c) (V d e f) (V g h i)) := m in
  let sy := sqrt (b * b + c * c) in
  forall ax ay az,
  (0 < sy /\ ax = atan2 b c /\ ay = atan2 sy a /\ az = atan2 d (- g))
  \/ (sy = 0 /\ ax = atan2 (- f) e /\ ay = atan2 sy a /\ az = 0) ->
  let si := sin ax in let sj := sin ay in let sk := sin az in let ci := cos ax in let cj := cos ay in let ck := cos az in
  (cj = a /\ sj * si = b /\ sj * ci = c)
  /\ (sj * sk = d /\ - cj * (si * sk) + ci * ck = e /\ - cj * (ci * sk) - si * ck = f)
  /\ (- sj * ck = g /\ cj * (si * ck) + ci * sk = h /\ cj * (ci * ck) - si * sk = i).
Proof.
  intros Hr. pose proof (rotation_equations m Hr) as E. pose proof (rotation_products m Hr) as RP. destruct m as [[a b c] [d e f] [g h i]].
  destruct E as ((? & ? & ?) & (? & ? & ?) & (? & ? & ?) & (? & ? & ?) & (? & ? & ?) & (? & ? & ?) & (? & ? & ?)).
  cbv zeta. intros ax ay az Hc.
  assert (CC : sqrt (b * b + c * c) * sqrt (b * b + c * c) = b * b + c * c) by (apply sqrt_sqrt; apply sq2_nonneg).
  set (sy := sqrt (b * b + c * c)) in *. clearbody sy.
  assert (Ay : sy * sy + a * a = 1) by lra.
  destruct (atan2_sin_cos _ _ Ay) as [Sy Cy].
  destruct Hc as [(P & -> & -> & ->)|(P & -> & -> & ->)].
  - assert (A1 : b * b + c * c = sy * sy) by lra. assert (A2 : d * d + - g * - g = sy * sy) by lra.
    destruct (atan2_general _ _ _ P A1) as [Sx Cx]. destruct (atan2_general _ _ _ P A2) as [Sz Cz].
    rewrite Sx, Cx, Sy, Cy, Sz, Cz.
    assert (D : forall x y, sy * sy * x = y -> y / (sy * sy) = x) by (intros x y <-; field; lra).
    repeat split; try (field; lra).
    + transitivity ((- a * b * d - c * g) / (sy * sy)); [field; lra|]. apply D. rewrite CC. apply RP.
    + transitivity ((- a * c * d + b * g) / (sy * sy)); [field; lra|]. apply D. rewrite CC. apply RP.
    + transitivity ((- a * b * g + c * d) / (sy * sy)); [field; lra|]. apply D. rewrite CC. apply RP.
    + transitivity ((- a * c * g - b * d) / (sy * sy)); [field; lra|]. apply D. rewrite CC. apply RP.
  - assert (b = 0 /\ c = 0) as [A0 D0] by (apply sq2_zero; rewrite <- CC, P; ring).
    rewrite A0, D0 in *. assert (d = 0 /\ g = 0) as [H0' I0] by (apply sq2_zero; lra). rewrite H0', I0 in *.
    assert (A1 : - f * - f + e * e = 1) by lra. destruct (atan2_sin_cos _ _ A1) as [Sx Cx].
    rewrite Sx, Cx, Sy, Cy, sin_0, cos_0, P. repeat split; lra.
Qed.

(** renaming axes keeps rotations *)
Lemma rotation_of_equations a b c d e f g h i :
  (a * a + b * b + c * c = 1 /\ d * d + e * e + f * f = 1 /\ g * g + h * h + i * i = 1)
  /\ (a * a + d * d + g * g = 1 /\ b * b + e * e + h * h = 1 /\ c * c + f * f + i * i = 1)
  /\ (a * d + b * e + c * f = 0 /\ a * g + b * h + c * i = 0 /\ d * g + e * h + f * i = 0)
  /\ (a * b + d * e + g * h = 0 /\ a * c + d * f + g * i = 0 /\ b * c + e * f + h * i = 0)
  /\ (a = e * i - f * h /\ b = f * g - d * i /\ c = d * h - e * g) ->
  rotation (M (V a b c) (V d e f) (V g h i)).
Proof.
  intros ((? & ? & ?) & (? & ? & ?) & (? & ? & ?) & (? & ? & ?) & (Ea & Eb & Ec)). split; [split|].
  - coords. meq; lra.
  - coords. meq; lra.
  - unfold mdet. coords. rewrite <- Ea, <- Eb, <- Ec. lra.
Qed.
Definition renamed (m : mat) (i j k : nat) : mat :=
  M (V (ent m i i) (ent m i j) (ent m i k)) (V (ent m j i) (ent m j j) (ent m j k)) (V (ent m k i) (ent m k j) (ent m k k)).
Definition is_perm (i j k : nat) : Prop := In (i, j, k) [(0, 1, 2); (0, 2, 1); (1, 0, 2); (1, 2, 0); (2, 0, 1); (2, 1, 0)]%nat.
Lemma renamed_rotation m i j k : rotation m -> is_perm i j k -> rotation (renamed m i j k).
Proof.
  intros Hr P. pose proof (rotation_equations m Hr) as E. destruct m as [[a b c] [d e f] [g h i0]].
  destruct E as ((? & ? & ?) & (? & ? & ?) & (? & ? & ?) & (? & ? & ?) & (? & ? & ?) & (? & ? & ?) & (? & ? & ?)).
  unfold is_perm in P. cbn [In] in P.
  destruct P as [P|[P|[P|[P|[P|[P|[]]]]]]]; injection P as <- <- <-; unfold renamed, ent; cbn [r1 r2 r3 vx vy vz]; apply rotation_of_equations; repeat split; lra.
Qed.
