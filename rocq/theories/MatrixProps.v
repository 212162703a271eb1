(** Properties of the transformation matrices and quaternions of geometry/transformations.py. *)
From Coq Require Import Reals List Bool Arith ZArith Lra Lia Nsatz.
From Verif Require Import Base Vec TransformModel TransformProofs MatrixModel MatrixProofs.
Import ListNotations.
Open Scope R_scope.

(** ** C122: quaternions *)
(** Every quaternion, of any length, gives a rotation; only its direction matters, up to sign. *)
Theorem C122_matrix (q : quat) (k : R) :
  orthogonal (quaternion_matrix q) /\ mdet (quaternion_matrix q) = 1
  /\ (EPS <= qdot q q -> EPS <= qdot (qscale k q) (qscale k q) -> quaternion_matrix (qscale k q) = quaternion_matrix q).
Proof.
  pose proof (quaternion_rotation q) as [O D]. split; [exact O|]. split; [exact D|]. intros H1 H2.
  pose proof EPS_pos. rewrite !quaternion_matrix_big by assumption. rewrite qmat_scale, mscale_mscale. f_equal.
  rewrite qdot_scale in *. assert (k <> 0) by (intros ->; lra). field. split; lra.
Qed.
(** Multiplying quaternions composes the rotations; the conjugate undoes the rotation, and the inverse
    undoes the quaternion. *)
Theorem C122_multiply (p q : quat) :
  EPS <= qdot p p -> EPS <= qdot q q -> EPS <= qdot p p * qdot q q ->
  quaternion_matrix (quaternion_multiply p q) = mmul (quaternion_matrix p) (quaternion_matrix q).
Proof.
  intros Hp Hq Hpq. pose proof EPS_pos. rewrite (quaternion_matrix_big p), (quaternion_matrix_big q) by assumption.
  rewrite quaternion_matrix_big by now rewrite qdot_mul. rewrite qmat_mul, qdot_mul, mscale_mmul. f_equal. field. lra.
Qed.
Theorem C122_inverse (q : quat) :
  (EPS <= qdot q q -> quaternion_matrix (quaternion_conjugate q) = mtrans (quaternion_matrix q))
  /\ (qdot q q <> 0 -> quaternion_multiply q (quaternion_inverse q) = Q 1 0 0 0
                       /\ quaternion_multiply (quaternion_inverse q) q = Q 1 0 0 0).
Proof.
  destruct q as [w x y z].
  assert (E : qdot (quaternion_conjugate (Q w x y z)) (quaternion_conjugate (Q w x y z)) = qdot (Q w x y z) (Q w x y z)).
  { unfold qdot, quaternion_conjugate. cbn. ring. }
  split.
  - intros H. rewrite !quaternion_matrix_big by (rewrite ?E; exact H). rewrite E, mtrans_mscale. f_equal.
    unfold qmat, quaternion_conjugate. coords. meq; cbn; ring.
  - intros H. unfold quaternion_inverse. cbv zeta. rewrite E. unfold qdot in *. cbn [qw qx qy qz] in *.
    unfold quaternion_conjugate, qscale, quaternion_multiply. cbn [qw qx qy qz]. split; f_equal; field; exact H.
Qed.
(** The quaternion of an angle and an axis is a unit quaternion and gives the matrix that
    rotation_matrix gives. *)
Theorem C122_about_axis (angle : R) (axis point : vec) (g : rigid) :
  rotation_matrix angle axis point = Some g -> EPS < norm axis ->
  let q := quaternion_about_axis angle axis in
  qdot q q = 1 /\ quaternion_matrix q = rot g.
Proof.
  unfold rotation_matrix. destruct (unit_vector axis) as [u|] eqn:U; [|discriminate]. intros H N. injection H as <-.
  split; [now apply about_axis_unit|]. cbn [rot]. now apply about_axis_matrix.
Qed.
Example C122_example :
  quaternion_multiply (Q 4 1 (-2) 3) (Q 8 (-5) 6 7) = Q 28 (-44) (-14) 48
  /\ quaternion_matrix (Q 0 5 0 0) = M (V 1 0 0) (V 0 (-1) 0) (V 0 0 (-1)).
Proof.
  split; [unfold quaternion_multiply; f_equal; ring|].
  rewrite quaternion_matrix_big; unfold qdot, EPS, qmat; cbn [qw qx qy qz]; [|lra]. coords. meq; field.
Qed.

(** ** C123: the quaternion of a matrix *)
(** numpy.linalg.eigh: a unit eigenvector of K for its largest eigenvalue *)
Definition eigh_spec (m : mat) (v : quat) : Prop :=
  qdot v v = 1 /\ exists l, K_apply m v = qscale l v /\ forall u k, qdot u u = 1 -> K_apply m u = qscale k u -> k <= l.
Theorem C123_from_matrix_partial (m : mat) (v : quat) : orthogonal m -> mdet m = 1 -> eigh_spec m v ->
  let q := quaternion_from_matrix v in qdot q q = 1 /\ 0 <= qw q /\ quaternion_matrix q = m.
Proof.
  intros O D (Uv & l & Kv & Hmax). destruct (rotation_quaternion m (conj O D)) as (p & Up & Ep). subst m.
  assert (L1 : 1 <= l).
  { apply (Hmax p 1 Up). rewrite K_of_qmat, Up by exact Up. destruct p as [p0 p1 p2 p3]. unfold qscale, qadd, qneg. cbn. f_equal; field. }
  rewrite K_of_qmat in Kv by exact Up. set (s := qdot p v) in *.
  assert (Ev : v = qscale (4 * s / (3 * l + 1)) p).
  { destruct p as [p0 p1 p2 p3], v as [v0 v1 v2 v3]. unfold qscale, qadd, qneg in *. cbn [qw qx qy qz] in *.
    injection Kv as K0 K1 K2 K3. f_equal; apply Rmult_eq_reg_r with (3 * l + 1); try lra;
      match goal with |- _ = ?a / ?b * ?c * ?b => replace (a / b * c * b) with (a * c) by (field; lra) end; lra. }
  set (k := 4 * s / (3 * l + 1)) in Ev. clearbody k s. clear Kv Hmax.
  assert (Kk : k * k = 1). { rewrite Ev, qdot_scale, Up in Uv. lra. }
  assert (Mv : qmat v = qmat p) by (rewrite Ev, qmat_scale, Kk; apply mscale_1).
  unfold quaternion_from_matrix. cbv zeta. destruct (Rltb_spec (qw v) 0) as [H|H].
  - rewrite qdot_neg. split; [exact Uv|]. split; [destruct v; cbn in *; lra|].
    rewrite quaternion_matrix_unit, qmat_neg by (rewrite qdot_neg; exact Uv). exact Mv.
  - split; [exact Uv|]. split; [lra|]. rewrite quaternion_matrix_unit by exact Uv. exact Mv.
Qed.
(** such an eigenvector exists for every rotation *)
Theorem C123_eigenvector_partial (m : mat) : orthogonal m -> mdet m = 1 -> exists v, eigh_spec m v.
Proof.
  intros O D. destruct (rotation_quaternion m (conj O D)) as (p & Up & <-). exists p. split; [exact Up|]. exists 1. split.
  - rewrite K_of_qmat, Up by exact Up. destruct p as [p0 p1 p2 p3]. unfold qscale, qadd, qneg. cbn. f_equal; field.
  - intros u k Uu Ku. rewrite K_of_qmat in Ku by exact Up.
    assert (E : (4 * qdot p u * qdot p u - 1) = 3 * k).
    { assert (T : qdot u (qscale (/ 3) (qadd (qscale (4 * qdot p u) p) (qneg u))) = qdot u (qscale k u)) by now rewrite Ku.
      assert (B1 : qdot u (qscale k u) = k * qdot u u) by (destruct u as [u0 u1 u2 u3]; unfold qdot, qscale; cbn; ring).
      assert (B2 : qdot u (qscale (/ 3) (qadd (qscale (4 * qdot p u) p) (qneg u))) = / 3 * (4 * qdot p u * qdot p u - qdot u u)).
      { generalize (4 * qdot p u). intros c. destruct u as [u0 u1 u2 u3], p as [p0 p1 p2 p3]. unfold qdot, qscale, qadd, qneg; cbn. ring. }
      rewrite B1, B2, Uu in T. lra. }
    assert (C : qdot p u * qdot p u <= 1).
    { replace 1 with (qdot p p * qdot u u) by (rewrite Up, Uu; ring). clear. destruct u as [u0 u1 u2 u3], p as [p0 p1 p2 p3]. unfold qdot; cbn.
      apply Rminus_le. match goal with |- ?e <= 0 => replace e with (- ((p0 * u1 - p1 * u0) * (p0 * u1 - p1 * u0) + (p0 * u2 - p2 * u0) * (p0 * u2 - p2 * u0) + (p0 * u3 - p3 * u0) * (p0 * u3 - p3 * u0) + (p1 * u2 - p2 * u1) * (p1 * u2 - p2 * u1) + (p1 * u3 - p3 * u1) * (p1 * u3 - p3 * u1) + (p2 * u3 - p3 * u2) * (p2 * u3 - p3 * u2))) by ring end.
      pose proof (Rle_0_sqr (p0 * u1 - p1 * u0)). pose proof (Rle_0_sqr (p0 * u2 - p2 * u0)). pose proof (Rle_0_sqr (p0 * u3 - p3 * u0)).
      pose proof (Rle_0_sqr (p1 * u2 - p2 * u1)). pose proof (Rle_0_sqr (p1 * u3 - p3 * u1)). pose proof (Rle_0_sqr (p2 * u3 - p3 * u2)). unfold Rsqr in *. lra. }
    lra.
Qed.
(** isprecise=True: right when the trace of the rotation is positive (angle below 120 degrees). *)
Theorem C123_precise_partial (g : rigid) (garbage : R) : orthogonal (rot g) -> mdet (rot g) = 1 -> 0 < mtrace (rot g) ->
  exists q, quaternion_from_matrix_precise g garbage = Some q /\ qdot q q = 1 /\ 0 <= qw q /\ quaternion_matrix q = rot g.
Proof.
  destruct g as [m t]. cbn [rot]. intros O D Ht. pose proof (candidates m (conj O D)) as C.
  destruct m as [[a b c] [d e f] [g h i]]. destruct C as (C & _). unfold mtrace in Ht. cbn [r1 r2 r3 vx vy vz] in Ht.
  unfold quaternion_from_matrix_precise, e4. cbn [Nat.ltb Nat.leb ent rot r1 r2 r3 vx vy vz].
  unfold ent. cbn [r1 r2 r3 vx vy vz].
  set (s := 1 + a + e + i) in C. replace (a + e + i + 1) with s by (unfold s; ring).
  assert (Hs : 1 < s) by (unfold s; lra). rewrite (proj2 (Rltb_true 1 s)) by lra. rewrite (proj2 (Rleb_false (s * 1) 0)) by lra.
  rewrite Rmult_1_r. destruct C as [N E].
  assert (Sq : sqrt s * sqrt s = s) by (apply sqrt_sqrt; lra). assert (S0 : 0 < sqrt s) by (apply sqrt_lt_R0; lra).
  set (r := sqrt s) in *. set (p := Q s (h - f) (c - g) (d - b)) in *.
  assert (Kk : 1 / 2 / r * (1 / 2 / r) = / (4 * s)) by (rewrite <- Sq; field; lra).
  assert (W : 0 <= qw (qscale (1 / 2 / r) p)).
  { unfold p, qscale. cbn [qw]. apply Rmult_le_pos; [|lra]. apply Rmult_le_pos; [lra|]. left. now apply Rinv_0_lt_compat. }
  rewrite (proj2 (Rltb_false _ _) W). exists (qscale (1 / 2 / r) p).
  assert (U : qdot (qscale (1 / 2 / r) p) (qscale (1 / 2 / r) p) = 1) by (rewrite qdot_scale, Kk, N; apply Rinv_l; lra).
  split; [reflexivity|]. split; [exact U|]. split; [exact W|].
  rewrite quaternion_matrix_unit by exact U. rewrite qmat_scale, Kk, E, mscale_mscale, Rinv_l by lra. apply mscale_1.
Qed.
Ltac red4 := cbv beta iota zeta delta [quaternion_from_matrix_precise e4 ent Nat.ltb Nat.leb rot tra r1 r2 r3 vx vy vz vzero].
(** Otherwise the indices are off by one: half a turn about x raises an exception, and half a turn about
    z gives a quaternion that is another rotation, or none, whatever numpy.empty left in its first
    place. *)
Theorem C123_precise_refuted :
  (exists g garbage, orthogonal (rot g) /\ mdet (rot g) = 1 /\ quaternion_from_matrix_precise g garbage = None)
  /\ exists g, orthogonal (rot g) /\ mdet (rot g) = 1
     /\ forall garbage q, quaternion_from_matrix_precise g garbage = Some q -> quaternion_matrix q <> rot g.
Proof.
  split.
  - exists (Rigid (M (V 1 0 0) (V 0 (-1) 0) (V 0 0 (-1))) vzero), 0. cbn [rot]. split; [split; coords; meq; ring|].
    split; [unfold mdet; coords; ring|].
    red4.
    rewrite (proj2 (Rltb_false 1 _)) by lra. rewrite (proj2 (Rltb_false 1 (-1))) by lra. red4.
    rewrite (proj2 (Rltb_false (-1) (-1))) by lra. red4. rewrite (proj2 (Rleb_true _ 0)) by lra. reflexivity.
  - exists (Rigid (M (V (-1) 0 0) (V 0 (-1) 0) (V 0 0 1)) vzero). cbn [rot]. split; [split; coords; meq; ring|].
    split; [unfold mdet; coords; ring|]. intros garbage q.
    red4.
    rewrite (proj2 (Rltb_false 1 _)) by lra. rewrite (proj2 (Rltb_false (-1) (-1))) by lra. red4.
    rewrite (proj2 (Rltb_true (-1) 1)) by lra. red4.
    rewrite (proj2 (Rleb_false _ 0)) by lra. unfold set4. cbn [qw qx qy qz].
    set (r := sqrt _). intros H E. injection H as <-.
    assert (G : forall w, quaternion_matrix (Q w 0 0 0) = Vec.mid).
    { intros w. unfold quaternion_matrix, qdot, qscale. cbn [qw qx qy qz]. destruct (Rltb _ EPS); [reflexivity|]. coords. meq; ring. }
    match type of E with quaternion_matrix (if ?c then ?x else ?y) = _ =>
      assert (E1 : exists w, (if c then x else y) = Q w 0 0 0) by (destruct c; eexists; unfold qneg, qscale; cbn [qw qx qy qz]; f_equal; ring) end.
    destruct E1 as [w E1]. rewrite E1, G in E. injection E. lra.
Qed.
Example C123_example :
  exists q, quaternion_from_matrix_precise (Rigid (rodrigues (3 / 5) (4 / 5) (V 0 0 1)) vzero) 7 = Some q
    /\ quaternion_matrix q = rodrigues (3 / 5) (4 / 5) (V 0 0 1).
Proof.
  assert (S : 3 / 5 * (3 / 5) + 4 / 5 * (4 / 5) = 1) by lra. assert (U : is_unit (V 0 0 1)) by (unfold is_unit, dot; cbn; ring).
  destruct (C123_precise_partial (Rigid (rodrigues (3 / 5) (4 / 5) (V 0 0 1)) vzero) 7) as (q & A & _ & _ & B).
  - now apply rodrigues_orthogonal.
  - now apply rodrigues_det.
  - unfold mtrace, rodrigues. cbn. lra.
  - eauto.
Qed.

(** ** C124: Euler angles *)
(** the rotation by [t] about coordinate axis 0, 1 or 2 *)
Definition axis_vec (n : nat) : vec := match n with 0%nat => V 1 0 0 | 1%nat => V 0 1 0 | _ => V 0 0 1 end.
Definition about (n : nat) (t : R) : mat :=
  match n with
  | 0%nat => M (V 1 0 0) (V 0 (cos t) (- sin t)) (V 0 (sin t) (cos t))
  | 1%nat => M (V (cos t) 0 (sin t)) (V 0 1 0) (V (- sin t) 0 (cos t))
  | _ => M (V (cos t) (- sin t) 0) (V (sin t) (cos t) 0) (V 0 0 1)
  end.
Lemma norm_axis n : norm (axis_vec n) = 1.
Proof. apply norm_unit. destruct n as [|[|n]]; unfold is_unit, dot; cbn; ring. Qed.
Lemma unit_axis n : unit_vector (axis_vec n) = Some (axis_vec n).
Proof.
  unfold unit_vector. rewrite norm_axis. destruct (Reqb_spec 1 0); [lra|]. f_equal. rewrite Rinv_1. destruct n as [|[|n]]; unfold vscale; cbn; f_equal; ring.
Qed.
Lemma about_rodrigues n t : about n t = rodrigues (sin t) (cos t) (axis_vec n).
Proof. destruct n as [|[|n]]; unfold about, rodrigues, axis_vec; meq; ring. Qed.
Ltac tuples H := unfold AXES2TUPLE in H; cbn [In] in H; repeat (destruct H as [H|H]; [injection H as <- <- <- <- <-|]); [..|destruct H].
Lemma about_rotation n t : rotation (about n t).
Proof.
  rewrite about_rodrigues. pose proof (sin2_cos2 t) as SC. unfold Rsqr in SC.
  assert (U : is_unit (axis_vec n)) by (destruct n as [|[|n]]; unfold is_unit, dot; cbn; ring).
  split; [now apply rodrigues_orthogonal|now apply rodrigues_det].
Qed.
Lemma mmul_M a b c d e f g h i a' b' c' d' e' f' g' h' i' :
  mmul (M (V a b c) (V d e f) (V g h i)) (M (V a' b' c') (V d' e' f') (V g' h' i')) =
  M (V (a * a' + b * d' + c * g') (a * b' + b * e' + c * h') (a * c' + b * f' + c * i'))
    (V (d * a' + e * d' + f * g') (d * b' + e * e' + f * h') (d * c' + e * f' + f * i'))
    (V (g * a' + h * d' + i * g') (g * b' + h * e' + i * h') (g * c' + h * f' + i * i')).
Proof. coords. meq; ring. Qed.
(** For each of the 24 axis sequences, euler_matrix is the product of the three rotations the name
    says: about the fixed axes one after the other ("s"), or about the turned axes ("r"). *)
Theorem C124_euler_matrix (static : bool) (a b c : nat) (x : axes) (ai aj ak : R) :
  In ((static, (a, b, c)), x) AXES2TUPLE ->
  euler_matrix ai aj ak x = (if static then mmul (about c ak) (mmul (about b aj) (about a ai))
                             else mmul (about a ai) (mmul (about b aj) (about c ak)))
  /\ orthogonal (euler_matrix ai aj ak x) /\ mdet (euler_matrix ai aj ak x) = 1.
Proof.
  intros H.
  assert (E : euler_matrix ai aj ak x = (if static then mmul (about c ak) (mmul (about b aj) (about a ai))
                             else mmul (about a ai) (mmul (about b aj) (about c ak)))).
  { unfold euler_matrix. tuples H; cbn [frame parity firstaxis]; cbv iota beta; rewrite ?sin_neg, ?cos_neg; unfold about;
      generalize (sin ai) (cos ai) (sin aj) (cos aj) (sin ak) (cos ak); clear; intros si ci sj cj sk ck;
      cbv [mat_of lookup find axis_j axis_k List.nth NEXT_AXIS b2n firstaxis parity repetition frame Nat.eqb andb Nat.add Nat.sub];
      rewrite !mmul_M; meq; ring. }
  split; [exact E|]. rewrite E. destruct static; apply rotation_mul; try apply rotation_mul; apply about_rotation.
Qed.
(** The quaternion of the same angles is the product of the three quaternions, and gives the same matrix. *)
Theorem C124_quaternion_from_euler (static : bool) (a b c : nat) (x : axes) (ai aj ak : R) :
  In ((static, (a, b, c)), x) AXES2TUPLE ->
  let q n t := quaternion_about_axis t (axis_vec n) in
  quaternion_from_euler ai aj ak x = (if static then quaternion_multiply (q c ak) (quaternion_multiply (q b aj) (q a ai))
                                      else quaternion_multiply (q a ai) (quaternion_multiply (q b aj) (q c ak)))
  /\ quaternion_matrix (quaternion_from_euler ai aj ak x) = euler_matrix ai aj ak x.
Proof.
  intros H q. pose proof EPS_pos.
  assert (E1 : EPS < 1) by (unfold EPS; lra).
  assert (Hq : forall n t, q n t = let v := vscale (sin (t / 2)) (axis_vec n) in Q (cos (t / 2)) (vx v) (vy v) (vz v)).
  { intros n t. unfold q, quaternion_about_axis. rewrite norm_axis, (proj2 (Rltb_true EPS 1)) by exact E1. replace (sin (t / 2) / 1) with (sin (t / 2)) by field. reflexivity. }
  assert (E : quaternion_from_euler ai aj ak x = (if static then quaternion_multiply (q c ak) (quaternion_multiply (q b aj) (q a ai))
                                      else quaternion_multiply (q a ai) (quaternion_multiply (q b aj) (q c ak)))).
  { rewrite !Hq. clear Hq. assert (N : - aj / 2 = - (aj / 2)) by field.
    tuples H; cbv [quaternion_from_euler quat_of axis_j axis_k List.nth NEXT_AXIS b2n firstaxis parity repetition frame Nat.eqb andb Nat.add Nat.sub axis_vec quaternion_multiply vscale vx vy vz];
      rewrite ?N, ?sin_neg, ?cos_neg; f_equal; ring. }
  split; [exact E|]. destruct (C124_euler_matrix static a b c x ai aj ak H) as [-> _]. rewrite E.
  assert (U : forall n t, qdot (q n t) (q n t) = 1) by (intros n t; apply about_axis_unit; rewrite norm_axis; exact E1).
  assert (Mq : forall n t, qmat (q n t) = about n t).
  { intros n t. rewrite <- quaternion_matrix_unit by apply U. rewrite about_rodrigues. apply about_axis_matrix; [apply unit_axis|rewrite norm_axis; exact E1]. }
  destruct static; rewrite quaternion_matrix_unit by (rewrite !qdot_mul, !U; ring); rewrite !qmat_mul, !Mq; reflexivity.
Qed.
(** The angles read off a rotation matrix rebuild it, for each of the 24 sequences -- at gimbal lock, and
    further than EPS (8.9e-16) from it. *)
Theorem C124_euler_from_matrix (name : bool * (nat * nat * nat)) (x : axes) (m : mat) :
  In (name, x) AXES2TUPLE -> orthogonal m -> mdet m = 1 ->
  (let i := firstaxis x in
   let s := if repetition x then 1 - ent m i i * ent m i i else 1 - ent m (axis_k x) i * ent m (axis_k x) i in
   s = 0 \/ EPS * EPS < s) ->
  let '(ai, aj, ak) := euler_from_matrix m x in euler_matrix ai aj ak x = m.
Proof.
  intros H O D Hs. assert (Hr : rotation m) by now split.
  assert (P : is_perm (firstaxis x) (axis_j x) (axis_k x)).
  { destruct name as [st [[a b] c]]. tuples H; cbv; auto 10. }
  pose proof (renamed_rotation m _ _ _ Hr P) as Rr.
  pose proof (angles_nonrep _ Rr) as AN. pose proof (angles_rep _ Rr) as AR. pose proof (rotation_equations _ Rr) as RE.
  unfold renamed in AN, AR, RE. cbv iota in AN, AR, RE.
  set (i := firstaxis x) in *. set (j := axis_j x) in *. set (k := axis_k x) in *.
  (* the angles before renaming *)
  set (angles := if repetition x then
      let sy := sqrt (ent m i j * ent m i j + ent m i k * ent m i k) in
      if Rltb EPS sy then (atan2 (ent m i j) (ent m i k), atan2 sy (ent m i i), atan2 (ent m j i) (- ent m k i))
      else (atan2 (- ent m j k) (ent m j j), atan2 sy (ent m i i), 0)
    else
      let cy := sqrt (ent m i i * ent m i i + ent m j i * ent m j i) in
      if Rltb EPS cy then (atan2 (ent m k j) (ent m k k), atan2 (- ent m k i) cy, atan2 (ent m j i) (ent m i i))
      else (atan2 (- ent m j k) (ent m j j), atan2 (- ent m k i) cy, 0)).
  assert (Ef : euler_from_matrix m x = let '(ax, ay, az) := angles in
     let '(ax, ay, az) := if parity x then (- ax, - ay, - az) else (ax, ay, az) in if frame x then (az, ay, ax) else (ax, ay, az)) by reflexivity.
  assert (Dich : forall q s, s * s = q -> 0 <= s -> (q = 0 \/ EPS * EPS < q) -> (s = 0 /\ Rltb EPS s = false) \/ (0 < s /\ Rltb EPS s = true)).
  { intros q s Hq Hp [Z|G]; pose proof EPS_pos.
    - left. assert (s = 0) by nra. split; [assumption|]. apply Rltb_false. lra.
    - right. assert (EPS < s) by nra. split; [lra|]. now apply Rltb_true. }
  destruct RE as ((N1 & N2 & N3) & (N4 & N5 & N6) & _).
  destruct angles as [[ax ay] az] eqn:EA. rewrite Ef. clear Ef.
  assert (F : if repetition x then
      (cos ay = ent m i i /\ sin ay * sin ax = ent m i j /\ sin ay * cos ax = ent m i k)
      /\ (sin ay * sin az = ent m j i /\ - cos ay * (sin ax * sin az) + cos ax * cos az = ent m j j /\ - cos ay * (cos ax * sin az) - sin ax * cos az = ent m j k)
      /\ (- sin ay * cos az = ent m k i /\ cos ay * (sin ax * cos az) + cos ax * sin az = ent m k j /\ cos ay * (cos ax * cos az) - sin ax * sin az = ent m k k)
    else
      (cos ay * cos az = ent m i i /\ sin ay * (sin ax * cos az) - cos ax * sin az = ent m i j /\ sin ay * (cos ax * cos az) + sin ax * sin az = ent m i k)
      /\ (cos ay * sin az = ent m j i /\ sin ay * (sin ax * sin az) + cos ax * cos az = ent m j j /\ sin ay * (cos ax * sin az) - sin ax * cos az = ent m j k)
      /\ (- sin ay = ent m k i /\ cos ay * sin ax = ent m k j /\ cos ay * cos ax = ent m k k)).
  { unfold angles in EA. destruct (repetition x).
    - apply AR. cbv zeta in EA, Hs. clear AN AR.
      destruct (Dich (1 - ent m i i * ent m i i) (sqrt (ent m i j * ent m i j + ent m i k * ent m i k))) as [[Z B]|[Z B]]; try assumption.
      + rewrite sqrt_sqrt; [lra|apply sq2_nonneg]. + apply sqrt_pos.
      + rewrite B in EA. injection EA as <- <- <-. right. now repeat split.
      + rewrite B in EA. injection EA as <- <- <-. left. now repeat split.
    - apply AN. cbv zeta in EA, Hs. clear AN AR.
      destruct (Dich (1 - ent m k i * ent m k i) (sqrt (ent m i i * ent m i i + ent m j i * ent m j i))) as [[Z B]|[Z B]]; try assumption.
      + rewrite sqrt_sqrt; [lra|apply sq2_nonneg]. + apply sqrt_pos.
      + rewrite B in EA. injection EA as <- <- <-. right. now repeat split.
      + rewrite B in EA. injection EA as <- <- <-. left. now repeat split. }
  clear - F H. unfold i, j, k in F. clear i j k. destruct name as [st [[a b] c]].
  destruct m as [[m1 m2 m3] [m4 m5 m6] [m7 m8 m9]].
  tuples H; cbn [parity frame repetition] in *;
    cbv [euler_matrix mat_of lookup find axis_j axis_k List.nth NEXT_AXIS b2n firstaxis parity repetition frame Nat.eqb andb Nat.add Nat.sub ent r1 r2 r3 vx vy vz] in *;
    destruct F as ((? & ? & ?) & (? & ? & ?) & (? & ? & ?)); rewrite ?Ropp_involutive; meq; assumption.
Qed.
Example C124_example : euler_matrix 0 0 (PI / 2) (Axes 0 false false false) = M (V 0 (-1) 0) (V 1 0 0) (V 0 0 1).
Proof.
  cbv [euler_matrix mat_of lookup find axis_j axis_k List.nth NEXT_AXIS b2n firstaxis parity repetition frame Nat.eqb andb Nat.add Nat.sub].
  rewrite sin_0, cos_0, sin_PI2, cos_PI2. meq; ring.
Qed.

Print Assumptions C122_matrix.
Print Assumptions C122_multiply.
Print Assumptions C122_inverse.
Print Assumptions C122_about_axis.
Print Assumptions C123_from_matrix_partial.
Print Assumptions C123_eigenvector_partial.
Print Assumptions C123_precise_partial.
Print Assumptions C123_precise_refuted.
Print Assumptions C124_euler_matrix.
Print Assumptions C124_quaternion_from_euler.
Print Assumptions C124_euler_from_matrix.
