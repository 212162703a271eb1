(** Lemmas about affine maps, rotation matrices and node trees. *)
From Coq Require Import Reals Lra Psatz List Bool Arith Lia Nsatz Permutation.
From Verif Require Import Base Vec OpticsModel PhaseModel TransformModel.
Import ListNotations.
Open Scope R_scope.

(** ** Inverses *)
Definition invertible (g : rigid) : Prop := mdet (rot g) <> 0.

Definition minv_with (k : R) (m : mat) : mat :=
  mtrans (M (vscale k (cross (r2 m) (r3 m))) (vscale k (cross (r3 m) (r1 m))) (vscale k (cross (r1 m) (r2 m)))).
Lemma minv_with_l k m : k * mdet m = 1 -> mmul (minv_with k m) m = mid.
Proof.
  destruct m as [[a b c] [d e f] [g h i]]. intros H. unfold mdet in H.
  unfold dot, cross in H; cbn [vx vy vz r1 r2 r3] in H.
  unfold minv_with, mmul, mtrans, mid, dot, cross, vscale; cbn [vx vy vz r1 r2 r3].
  apply mat_eq; cbn [r1 r2 r3]; apply vec_eq; cbn [vx vy vz]; try ring; (etransitivity; [|exact H]); ring.
Qed.
Lemma minv_with_r k m : k * mdet m = 1 -> mmul m (minv_with k m) = mid.
Proof.
  destruct m as [[a b c] [d e f] [g h i]]. intros H. unfold mdet in H.
  unfold dot, cross in H; cbn [vx vy vz r1 r2 r3] in H.
  unfold minv_with, mmul, mtrans, mid, dot, cross, vscale; cbn [vx vy vz r1 r2 r3].
  apply mat_eq; cbn [r1 r2 r3]; apply vec_eq; cbn [vx vy vz]; try ring; (etransitivity; [|exact H]); ring.
Qed.
Lemma minv_l m : mdet m <> 0 -> mmul (minv m) m = mid.
Proof. intros H. apply (minv_with_l (/ mdet m)). now apply Rinv_l. Qed.
Lemma minv_r m : mdet m <> 0 -> mmul m (minv m) = mid.
Proof. intros H. apply (minv_with_r (/ mdet m)). now apply Rinv_l. Qed.
Lemma mdet_mul a b : mdet (mmul a b) = mdet a * mdet b.
Proof. destruct a as [[] [] []], b as [[] [] []]. unfold mdet. msimp. ring. Qed.
Lemma mdet_trans a : mdet (mtrans a) = mdet a.
Proof. destruct a as [[] [] []]. unfold mdet. msimp. ring. Qed.
Lemma mdet_id : mdet mid = 1.
Proof. unfold mdet. msimp. ring. Qed.
Lemma orthogonal_det m : orthogonal m -> mdet m <> 0.
Proof.
  intros [H _] E. pose proof (f_equal mdet H) as H1.
  rewrite mdet_mul, E, mdet_id in H1. lra.
Qed.
Lemma minv_orthogonal m : orthogonal m -> minv m = mtrans m.
Proof.
  intros H. pose proof (minv_l m (orthogonal_det _ H)) as E.
  destruct H as [_ H]. rewrite <- (mmul_id_r (minv m)), <- H, mmul_assoc, E. apply mmul_id_l.
Qed.
Lemma ainv_rinv g : wf_rigid g -> ainv g = rinv g.
Proof. intros H. unfold ainv, rinv. now rewrite minv_orthogonal. Qed.

Lemma rigid_eq a b : rot a = rot b -> tra a = tra b -> a = b.
Proof. destruct a, b; simpl; intros; now subst. Qed.
Lemma to_point_rcomp g h p : to_point (rcomp g h) p = to_point g (to_point h p).
Proof.
  unfold to_point, rcomp; simpl. unfold to_point. rewrite mvec_mmul, mvec_add.
  apply vec_eq; unfold vadd; simpl; ring.
Qed.
Lemma to_vector_rcomp g h p : to_vector (rcomp g h) p = to_vector g (to_vector h p).
Proof. unfold to_vector, rcomp; simpl. apply mvec_mmul. Qed.
Lemma to_point_rid p : to_point rid p = p.
Proof. unfold to_point, rid; simpl. rewrite mvec_id. veq. Qed.
Lemma to_vector_rid p : to_vector rid p = p.
Proof. apply mvec_id. Qed.
Lemma rcomp_assoc a b c : rcomp a (rcomp b c) = rcomp (rcomp a b) c.
Proof.
  apply rigid_eq; simpl; [apply mmul_assoc|]. now rewrite to_point_rcomp.
Qed.
Lemma rcomp_id_l a : rcomp rid a = a.
Proof. apply rigid_eq; simpl; [apply mmul_id_l|apply to_point_rid]. Qed.
Lemma rcomp_id_r a : rcomp a rid = a.
Proof.
  apply rigid_eq; simpl; [apply mmul_id_r|].
  unfold to_point. destruct a as [[[] [] []] []]. mveq.
Qed.
Lemma ainv_l g : invertible g -> rcomp (ainv g) g = rid.
Proof.
  intros H. apply rigid_eq; simpl; [now apply minv_l|].
  unfold to_point; simpl. veq.
Qed.
Lemma ainv_r g : invertible g -> rcomp g (ainv g) = rid.
Proof.
  intros H. apply rigid_eq; simpl; [now apply minv_r|].
  unfold to_point; simpl. rewrite mvec_neg, <- mvec_mmul, minv_r, mvec_id by exact H. veq.
Qed.
Lemma invertible_comp a b : invertible a -> invertible b -> invertible (rcomp a b).
Proof. unfold invertible. intros Ha Hb. simpl. rewrite mdet_mul. now apply Rmult_integral_contrapositive. Qed.
Lemma invertible_id : invertible rid.
Proof. unfold invertible. simpl. rewrite mdet_id. lra. Qed.
Lemma invertible_ainv g : invertible g -> invertible (ainv g).
Proof.
  unfold invertible. intros H E. pose proof (f_equal mdet (minv_l _ H)) as H1.
  rewrite mdet_mul, mdet_id in H1. simpl in E. rewrite E in H1. lra.
Qed.
Lemma ainv_unique g h : invertible g -> rcomp h g = rid -> h = ainv g.
Proof.
  intros H E. rewrite <- (rcomp_id_r h), <- (ainv_r g H), rcomp_assoc, E. apply rcomp_id_l.
Qed.
Lemma ainv_comp a b : invertible a -> invertible b -> ainv (rcomp a b) = rcomp (ainv b) (ainv a).
Proof.
  intros Ha Hb. symmetry. apply ainv_unique; [now apply invertible_comp|].
  rewrite <- rcomp_assoc, (rcomp_assoc (ainv a)), ainv_l, rcomp_id_l by auto. now apply ainv_l.
Qed.
Lemma ainv_ainv g : invertible g -> ainv (ainv g) = g.
Proof. intros H. symmetry. apply ainv_unique; [now apply invertible_ainv|now apply ainv_r]. Qed.
Lemma ainv_point_l g p : invertible g -> to_point (ainv g) (to_point g p) = p.
Proof. intros H. now rewrite <- to_point_rcomp, ainv_l, to_point_rid. Qed.
Lemma ainv_point_r g p : invertible g -> to_point g (to_point (ainv g) p) = p.
Proof. intros H. now rewrite <- to_point_rcomp, ainv_r, to_point_rid. Qed.
Lemma ainv_vector_r g p : invertible g -> to_vector g (to_vector (ainv g) p) = p.
Proof. intros H. now rewrite <- to_vector_rcomp, ainv_r, to_vector_rid. Qed.

(** ** Conversion between nodes of a tree *)
Definition along_path (h : hierarchy) (l : list nat) : rigid := fold_right (fun n g => rcomp (hpose h n) g) rid l.
Definition world (h : hierarchy) (n : nat) : rigid := along_path h (hpath h n).
Definition all_invertible (h : hierarchy) : Prop := forall n, invertible (hpose h n).

Lemma along_path_app h l1 l2 : along_path h (l1 ++ l2) = rcomp (along_path h l1) (along_path h l2).
Proof.
  induction l1 as [|n l IH]; simpl; [now rewrite rcomp_id_l|].
  now rewrite IH, rcomp_assoc.
Qed.
Lemma along_path_inv h l : all_invertible h -> invertible (along_path h l).
Proof. intros H. induction l; simpl; [apply invertible_id|now apply invertible_comp]. Qed.

Lemma strip_spec a b u d : strip a b = (u, d) -> exists c, a = c ++ u /\ b = c ++ d.
Proof.
  revert b. induction a as [|x a IH]; intros [|y b]; simpl.
  1-3: injection 1 as <- <-; exists []; auto.
  destruct (Nat.eqb_spec x y) as [->|]; [|injection 1 as <- <-; exists []; auto].
  intros H. destruct (IH _ H) as (c & -> & ->). now exists (y :: c).
Qed.

Lemma fold_comp l g : fold_left (fun acc x => rcomp x acc) l g = rcomp (compose_in_order l) g.
Proof.
  unfold compose_in_order. revert g. induction l as [|x l IH]; intros g; simpl; [now rewrite rcomp_id_l|].
  rewrite (IH (rcomp x g)), (IH (rcomp x rid)), rcomp_id_r. now rewrite rcomp_assoc.
Qed.
Lemma compose_cons x l : compose_in_order (x :: l) = rcomp (compose_in_order l) x.
Proof. unfold compose_in_order at 1. simpl. now rewrite fold_comp, rcomp_id_r. Qed.
Lemma compose_app l1 l2 : compose_in_order (l1 ++ l2) = rcomp (compose_in_order l2) (compose_in_order l1).
Proof. unfold compose_in_order at 1. rewrite fold_left_app. now rewrite fold_comp. Qed.
Lemma compose_up h l : compose_in_order (map (hpose h) (rev l)) = along_path h l.
Proof.
  induction l as [|n l IH]; simpl; [reflexivity|].
  rewrite map_app, compose_app, IH. simpl. unfold compose_in_order; simpl. now rewrite rcomp_id_r.
Qed.
Lemma compose_down h l : all_invertible h ->
  compose_in_order (map (fun n => ainv (hpose h n)) l) = ainv (along_path h l).
Proof.
  intros H. induction l as [|n l IH].
  - simpl. apply ainv_unique; [apply invertible_id|]. unfold compose_in_order; simpl. apply rcomp_id_l.
  - simpl map. rewrite compose_cons, IH. simpl. rewrite ainv_comp; auto using along_path_inv.
Qed.

Theorem transformation_world h a b : all_invertible h ->
  transformation_to h a b = rcomp (ainv (world h b)) (world h a).
Proof.
  intros H. unfold transformation_to. destruct (Nat.eqb_spec a b) as [->|].
  - symmetry. apply ainv_l. now apply along_path_inv.
  - destruct (strip (hpath h a) (hpath h b)) as [u d] eqn:E.
    destruct (strip_spec _ _ _ _ E) as (c & Ea & Eb).
    rewrite compose_app, compose_up, compose_down by auto.
    unfold world. rewrite Ea, Eb, !along_path_app.
    rewrite ainv_comp by auto using along_path_inv.
    rewrite <- rcomp_assoc, (rcomp_assoc (ainv (along_path h c))), ainv_l, rcomp_id_l by auto using along_path_inv.
    reflexivity.
Qed.

(** Two transforms compose. *)
Lemma transformation_compose h a b c : all_invertible h ->
  rcomp (transformation_to h b c) (transformation_to h a b) = transformation_to h a c.
Proof.
  intros H. rewrite !transformation_world by auto.
  rewrite <- rcomp_assoc, (rcomp_assoc (world h b)), ainv_r, rcomp_id_l by (now apply along_path_inv).
  reflexivity.
Qed.

Lemma wf_rcomp a b : wf_rigid a -> wf_rigid b -> wf_rigid (rcomp a b).
Proof. unfold wf_rigid. simpl. apply orthogonal_mul. Qed.
Lemma wf_rid : wf_rigid rid.
Proof. apply orthogonal_id. Qed.
Lemma wf_invertible g : wf_rigid g -> invertible g.
Proof. apply orthogonal_det. Qed.
Lemma wf_ainv g : wf_rigid g -> wf_rigid (ainv g).
Proof. intros H. rewrite ainv_rinv by auto. now apply wf_rinv. Qed.
Lemma wf_along h l : (forall n, wf_rigid (hpose h n)) -> wf_rigid (along_path h l).
Proof. intros H. induction l; simpl; [apply wf_rid|now apply wf_rcomp]. Qed.

(** ** Rotation matrices *)
Lemma rodrigues_orthogonal s c u : s * s + c * c = 1 -> is_unit u -> orthogonal (rodrigues s c u).
Proof.
  destruct u as [x y z]. unfold is_unit, dot; simpl. intros H Hu.
  split; unfold rodrigues, mmul, mtrans, mid, dot; cbn [vx vy vz r1 r2 r3];
    apply mat_eq; cbn [r1 r2 r3]; apply vec_eq; cbn [vx vy vz]; nsatz.
Qed.
Lemma rodrigues_det s c u : s * s + c * c = 1 -> is_unit u -> mdet (rodrigues s c u) = 1.
Proof.
  destruct u as [x y z]. unfold is_unit, dot; simpl. intros H Hu.
  unfold mdet, rodrigues; msimp. nsatz.
Qed.
Lemma rodrigues_axis s c u : is_unit u -> mvec (rodrigues s c u) u = u.
Proof.
  destruct u as [x y z]. unfold is_unit, dot; simpl. intros Hu.
  unfold rodrigues; msimp. apply vec_eq; simpl; nsatz.
Qed.
Lemma sc_one a : sin a * sin a + cos a * cos a = 1.
Proof. pose proof (sin2_cos2 a). unfold Rsqr in *. lra. Qed.

Lemma unit_vector_unit v u : unit_vector v = Some u -> is_unit u /\ vscale (norm v) u = v.
Proof.
  unfold unit_vector. destruct (Reqb_spec (norm v) 0) as [|Hn]; [discriminate|].
  injection 1 as <-. split.
  - unfold is_unit. rewrite dot_scale_l, dot_scale_r, <- norm_sq. field. exact Hn.
  - destruct v as [x y z]. set (n := norm _) in *. veq; field; exact Hn.
Qed.
Lemma unit_vector_of_unit u : is_unit u -> unit_vector u = Some u.
Proof.
  intros H. unfold unit_vector. rewrite (norm_unit _ H). rb; [lra|].
  f_equal. destruct u. veq; field.
Qed.

Lemma rotation_matrix_spec angle axis point m : rotation_matrix angle axis point = Some m ->
  wf_rigid m /\ mdet (rot m) = 1 /\ to_point m point = point /\ to_vector m axis = axis.
Proof.
  unfold rotation_matrix. destruct (unit_vector axis) as [u|] eqn:E; [|discriminate].
  injection 1 as <-. destruct (unit_vector_unit _ _ E) as [Hu Hs].
  split; [|split; [|split]].
  - apply rodrigues_orthogonal; [apply sc_one|exact Hu].
  - apply rodrigues_det; [apply sc_one|exact Hu].
  - unfold to_point; simpl. veq.
  - unfold to_vector; simpl. rewrite <- Hs at 1. rewrite mvec_scale, rodrigues_axis by exact Hu. exact Hs.
Qed.

(** A rotation is determined by its sine, cosine and axis up to the sign of both. *)
Lemma rodrigues_flip s c u : rodrigues (- s) c (vneg u) = rodrigues s c u.
Proof. destruct u. unfold rodrigues; simpl. apply mat_eq; simpl; apply vec_eq; simpl; ring. Qed.

(** ** atan2 *)
Lemma atan2_sin_cos s c : s * s + c * c = 1 -> sin (atan2 s c) = s /\ cos (atan2 s c) = c.
Proof.
  intros H. unfold atan2. rewrite H, sqrt_1.
  assert (Hc : -1 <= c <= 1) by nra.
  replace (c / 1) with c by field.
  assert (Hq : sqrt (1 - c²) = Rabs s).
  { replace (1 - c²) with (s²) by (unfold Rsqr; lra). apply sqrt_Rsqr_abs. }
  destruct (Rleb_spec 0 s) as [Hs|Hs].
  - rewrite cos_acos, sin_acos, Hq by exact Hc. rewrite Rabs_right by lra. auto.
  - rewrite cos_neg, sin_neg, cos_acos, sin_acos, Hq by exact Hc. rewrite Rabs_left by lra. split; lra.
Qed.

(** ** look_at *)
Ltac lin := unfold mmul, mtrans, mvec, mid, vadd, vsub, vscale, vneg, vzero, dot, cross in *; cbn [vx vy vz r1 r2 r3] in *.

Lemma skew_sq a b c : mmul (skew (V a b c)) (skew (V a b c)) =
  M (V (- (c * c + b * b)) (a * b) (a * c)) (V (a * b) (- (a * a + c * c)) (b * c)) (V (a * c) (b * c) (- (a * a + b * b))).
Proof.
  unfold skew, mmul, mtrans. cbn [vx vy vz r1 r2 r3]. unfold dot. cbn [vx vy vz].
  apply mat_eq; cbn [r1 r2 r3]; apply vec_eq; cbn [vx vy vz]; ring.
Qed.
Lemma look_matrix_closed x y z k : k = 1 / (1 + z) -> look_matrix (V x y z) =
  M (V (1 - k * (x * x)) (- (k * (x * y))) x) (V (- (k * (x * y))) (1 - k * (y * y)) y)
    (V (- x) (- y) (1 - k * (x * x + y * y))).
Proof.
  intros ->. unfold look_matrix.
  assert (E : dot zaxis (V x y z) = z) by (unfold zaxis, dot; cbn [vx vy vz]; ring). rewrite E.
  assert (C : cross zaxis (V x y z) = V (- y) x 0).
  { unfold zaxis, cross; cbn [vx vy vz]. apply vec_eq; cbn [vx vy vz]; ring. }
  rewrite C, skew_sq. clear E C. generalize (1 / (1 + z)). intros k.
  unfold skew, madd, mscale, mid, vadd, vscale. cbn [vx vy vz r1 r2 r3].
  apply mat_eq; cbn [r1 r2 r3]; apply vec_eq; cbn [vx vy vz]; ring.
Qed.
(** with k (1 + z) = 1 and x² + y² + z² = 1, k (x² + y²) = 1 - z *)
Lemma look_k x y z : x * x + y * y + z * z = 1 -> z <> -1 ->
  exists k, k = 1 / (1 + z) /\ k * (1 + z) = 1 /\ k * (x * x + y * y) = 1 - z.
Proof.
  intros Hu Hz. exists (1 / (1 + z)). split; [reflexivity|].
  assert (D : 1 + z <> 0) by lra. split; [field; exact D|].
  replace (x * x + y * y) with ((1 - z) * (1 + z)) by lra. field. exact D.
Qed.

Lemma look_matrix_z b : is_unit b -> vz b <> -1 -> mvec (look_matrix b) zaxis = b.
Proof.
  destruct b as [x y z]. unfold is_unit, dot; cbn [vx vy vz]. intros Hu Hz.
  destruct (look_k x y z Hu Hz) as (k & Ek & _ & Hk2).
  rewrite (look_matrix_closed x y z k Ek), Hk2. unfold zaxis. lin.
  apply vec_eq; cbn [vx vy vz]; ring.
Qed.

Lemma look_matrix_trace b : is_unit b -> vz b <> -1 -> mtrace (look_matrix b) = 1 + 2 * vz b.
Proof.
  destruct b as [x y z]. unfold is_unit, dot; cbn [vx vy vz]. intros Hu Hz.
  destruct (look_k x y z Hu Hz) as (k & Ek & _ & Hk2).
  rewrite (look_matrix_closed x y z k Ek). unfold mtrace; cbn [vx vy vz r1 r2 r3].
  rewrite Rmult_plus_distr_l in *. lra.
Qed.

(** The eigenvector is, up to sign, the axis z x b; here in product form. *)
Lemma look_eig b w : is_unit b -> vz b <> -1 -> eig_spec (look_matrix b) w -> vz b <> 1 ->
  vz w = 0 /\ vx b * vx w + vy b * vy w = 0.
Proof.
  destruct b as [x y z], w as [p q r]. unfold eig_spec, is_unit, dot; cbn [vx vy vz]. intros Hu Hz [Hw He] H1.
  destruct (look_k x y z Hu Hz) as (k & Ek & Hk1 & Hk2).
  rewrite (look_matrix_closed x y z k Ek) in He. lin. clear Ek.
  injection He as E1 E2 E3.
  assert (D : 1 + z <> 0) by lra.
  assert (F3 : x * p + y * q = r * (1 - z)) by nsatz.
  assert (K0 : k <> 0) by (intros ->; lra).
  assert (G1 : x * (r + k * (x * p + y * q)) = 0) by nsatz.
  assert (G2 : y * (r + k * (x * p + y * q)) = 0) by nsatz.
  assert (K : r + k * (x * p + y * q) = 0).
  { destruct (Req_dec x 0) as [->|Hx].
    - destruct (Req_dec y 0) as [->|Hy].
      + exfalso. apply H1. assert (E : (z - 1) * (z + 1) = 0) by lra.
        apply Rmult_integral in E. destruct E; lra.
      + apply Rmult_integral in G2. destruct G2; [contradiction|assumption].
    - apply Rmult_integral in G1. destruct G1; [contradiction|assumption]. }
  assert (R0 : 2 * r = 0) by nsatz.
  split; [lra|]. replace r with 0 in * by lra. lra.
Qed.

Lemma look_sina b w : is_unit b -> vz b <> -1 -> eig_spec (look_matrix b) w ->
  exists s, s * s + vz b * vz b = 1 /\
    rotation_from_matrix (look_matrix b) w = (atan2 s (vz b), w) /\
    rodrigues s (vz b) w = look_matrix b.
Proof.
  intros Hu Hz He.
  assert (Ht : (mtrace (look_matrix b) - 1) / 2 = vz b) by (rewrite look_matrix_trace by auto; field).
  destruct (Req_dec (vz b) 1) as [H1|H1].
  - (* b = z: the matrix is the identity *)
    assert (Hb : b = V 0 0 1).
    { destruct b as [x y z]. unfold is_unit, dot in Hu; cbn [vx vy vz] in *. subst z. apply vec_eq; cbn [vx vy vz]; nra. }
    subst b. assert (Hm : look_matrix (V 0 0 1) = mid).
    { rewrite (look_matrix_closed 0 0 1 _ eq_refl). unfold mid. apply mat_eq; cbn [r1 r2 r3]; apply vec_eq; cbn [vx vy vz]; field. }
    rewrite Hm in *. exists 0. simpl vz. split; [lra|]. split.
    + unfold rotation_from_matrix. rewrite Ht. simpl.
      replace (0 + (1 - 1) * vx w * vy w) with 0 by ring.
      replace (0 + (1 - 1) * vx w * vz w) with 0 by ring.
      replace (0 + (1 - 1) * vy w * vz w) with 0 by ring.
      unfold Rdiv. rewrite !Rmult_0_l. destruct (Rltb _ _); [reflexivity|]. destruct (Rltb _ _); reflexivity.
    + unfold rodrigues. destruct w as [x y z]; simpl. apply mat_eq; simpl; apply vec_eq; simpl; ring.
  - destruct (look_eig b w Hu Hz He H1) as [Wz Wb].
    destruct He as [Hw _].
    destruct b as [x y z], w as [p q r]. unfold is_unit, dot in Hu, Hw; cbn [vx vy vz] in *. subst r.
    (* s := y-component relation: (x,y) = s * (q,-p) *)
    exists (x * q - y * p).
    assert (Hxy : x = (x * q - y * p) * q /\ y = - (x * q - y * p) * p).
    { split; nsatz. }
    destruct Hxy as [Hx Hy].
    set (s := x * q - y * p) in *.
    assert (Hs : s * s + z * z = 1).
    { assert (E : x * x + y * y = s * s) by (rewrite Hx, Hy at 1; nsatz). lra. }
    split; [exact Hs|]. split.
    + unfold rotation_from_matrix. rewrite Ht. cbn [vx vy vz].
      replace (Rltb (/ 10 ^ 8) (Rabs 0)) with false.
      2:{ symmetry. apply Rltb_false. rewrite Rabs_R0. lra. }
      rewrite (look_matrix_closed x y z _ eq_refl). cbn [vx vy vz r1 r2 r3].
      destruct (Rltb_spec (/ 10 ^ 8) (Rabs q)) as [Hq|Hq].
      * assert (q <> 0) by (intros ->; rewrite Rabs_R0 in Hq; lra).
        f_equal. f_equal. rewrite Hx at 1. field. assumption.
      * assert (p <> 0).
        { intros ->. assert (Hq1 : q * q = 1) by lra. unfold Rabs in Hq. destruct (Rcase_abs q); nra. }
        f_equal. f_equal. rewrite Hy at 1. field. assumption.
    + assert (Hz1 : z <> -1) by exact Hz.
      destruct (look_k x y z Hu Hz1) as (k & Ek & Hk1 & Hk2).
      rewrite (look_matrix_closed x y z k Ek). unfold rodrigues. cbn [vx vy vz].
      assert (Hy' : y = - (s * p)) by lra. clear Hy Ek Ht Hz Hz1 H1. clearbody s. subst x y.
      assert (HK : k * (s * s) = 1 - z) by nsatz.
      apply mat_eq; cbn [r1 r2 r3]; apply vec_eq; cbn [vx vy vz]; nsatz.
Qed.

Lemma look_at_rot t b w t' : is_unit b -> np_close (vz b) (-1) = false ->
  eig_spec (look_matrix b) w -> look_at t b w = Some t' ->
  rot (pose t') = mmul (look_matrix b) (rot (pose t)).
Proof.
  intros Hu Hc He. unfold look_at.
  assert (Hd : dot zaxis b = vz b) by (unfold zaxis, dot; simpl; ring). rewrite Hd, Hc.
  assert (Hz : vz b <> -1).
  { intros E. rewrite E in Hc. unfold np_close in Hc.
    assert (Rabs (-1 - -1) <= / 10 ^ 8 + / 10 ^ 5 * Rabs (-1)).
    { replace (-1 - -1) with 0 by ring. rewrite Rabs_R0. pose proof (Rabs_pos (-1)).
      assert (0 < / 10 ^ 8) by (apply Rinv_0_lt_compat; lra).
      assert (0 < / 10 ^ 5) by (apply Rinv_0_lt_compat; lra). nra. }
    revert Hc. rb; [discriminate|contradiction]. }
  destruct (look_sina b w Hu Hz He) as (s & Hs & Hr & Hm). rewrite Hr.
  unfold rotate, rotation_matrix. rewrite (unit_vector_of_unit w) by apply He.
  intros E. injection E as <-. simpl.
  destruct (atan2_sin_cos _ _ Hs) as [-> ->]. now rewrite Hm.
Qed.

(** ** Transformable invariants *)
Definition op_rigid (o : op) : Prop := match o with SetPose g => wf_rigid g | _ => True end.
Definition op_proper (o : op) : Prop := match o with SetPose g => mdet (rot g) = 1 | _ => True end.

Lemma rotate_inv t a x t' : rotate t a x = Some t' ->
  exists m, rotation_matrix a x (loc t) = Some m /\ t' = Tf (loc t) (loc_int t) (rcomp m (pose t)).
Proof.
  unfold rotate. destruct (rotation_matrix a x (loc t)) as [m|] eqn:E; [|discriminate].
  injection 1 as <-. now exists m.
Qed.
Lemma look_at_inv t v w t' : look_at t v w = Some t' -> exists a x, rotate t a x = Some t'.
Proof.
  unfold look_at. destruct (np_close _ _); [now exists PI, (V 0 1 0)|].
  destruct (rotation_from_matrix _ _) as [a x]. now exists a, x.
Qed.

Lemma apply_op_rigid t o t' : apply_op t o = Some t' -> op_rigid o ->
  wf_rigid (pose t) -> wf_rigid (pose t').
Proof.
  assert (HR : forall a x, rotate t a x = Some t' -> wf_rigid (pose t) -> wf_rigid (pose t')).
  { intros a x E H. destruct (rotate_inv _ _ _ _ E) as (m & Em & ->). simpl.
    apply wf_rcomp; [|exact H]. apply (rotation_matrix_spec _ _ _ _ Em). }
  destruct o; simpl; intros E Ho H.
  - injection E as <-. exact Ho.
  - injection E as <-. exact H.
  - unfold translate in E. destruct (_ && _); [discriminate|]. injection E as <-. simpl.
    apply wf_rcomp; [apply orthogonal_id|exact H].
  - eauto.
  - destruct (look_at_inv _ _ _ _ E) as (a & x & E'). eauto.
Qed.
Lemma apply_op_proper t o t' : apply_op t o = Some t' -> op_proper o ->
  mdet (rot (pose t)) = 1 -> mdet (rot (pose t')) = 1.
Proof.
  assert (HR : forall a x, rotate t a x = Some t' -> mdet (rot (pose t)) = 1 -> mdet (rot (pose t')) = 1).
  { intros a x E H. destruct (rotate_inv _ _ _ _ E) as (m & Em & ->). simpl.
    destruct (rotation_matrix_spec _ _ _ _ Em) as (_ & Hd & _). rewrite mdet_mul, Hd, H. ring. }
  destruct o; simpl; intros E Ho H.
  - injection E as <-. exact Ho.
  - injection E as <-. exact H.
  - unfold translate in E. destruct (_ && _); [discriminate|]. injection E as <-. simpl.
    now rewrite mmul_id_l.
  - eauto.
  - destruct (look_at_inv _ _ _ _ E) as (a & x & E'). eauto.
Qed.
Lemma apply_op_loc t o t' : apply_op t o = Some t' -> loc t = tra (pose t) -> loc t' = tra (pose t').
Proof.
  assert (HR : forall a x, rotate t a x = Some t' -> loc t = tra (pose t) -> loc t' = tra (pose t')).
  { intros a x E H. destruct (rotate_inv _ _ _ _ E) as (m & Em & ->). simpl.
    destruct (rotation_matrix_spec _ _ _ _ Em) as (_ & _ & Hp & _). rewrite <- H. now rewrite Hp. }
  destruct o; simpl; intros E H.
  - injection E as <-. reflexivity.
  - injection E as <-. reflexivity.
  - unfold translate in E. destruct (_ && _); [discriminate|]. injection E as <-. simpl.
    rewrite H. unfold to_point; simpl. rewrite mvec_id. reflexivity.
  - eauto.
  - destruct (look_at_inv _ _ _ _ E) as (a & x & E'). eauto.
Qed.
Lemma apply_ops_inv (P : tf -> Prop) (Q : op -> Prop) :
  (forall t o t', apply_op t o = Some t' -> Q o -> P t -> P t') ->
  forall os t t', apply_ops t os = Some t' -> Forall Q os -> P t -> P t'.
Proof.
  intros Hs. induction os as [|o os IH]; simpl; intros t t' E HQ HP.
  - injection E as <-. exact HP.
  - destruct (apply_op t o) as [t1|] eqn:E1; [|discriminate].
    inversion HQ; subst. eauto.
Qed.
Lemma init_loc l : loc (tf_init l) = tra (pose (tf_init l)).
Proof. destruct l as [[]|]; reflexivity. Qed.
Lemma init_rot l : rot (pose (tf_init l)) = mid.
Proof. destruct l as [[]|]; reflexivity. Qed.

(** ** Intersections in a scene tree *)
(** The geometries of a tree with their poses relative to the root. *)
Fixpoint placements (n : node) : list (rigid * nat * (vec -> vec -> list vec)) :=
  match n with
  | Node id _ geom children =>
      (match geom with None => [] | Some f => [(rid, id, f)] end)
      ++ flat_map (fun c => match c with
                            | Node _ cp _ _ => map (fun q => (rcomp cp (fst (fst q)), snd (fst q), snd q)) (placements c)
                            end) children
  end.

(** Every node below the root has a pose with property P. *)
Inductive below (P : rigid -> Prop) : node -> Prop :=
| below_node id g geom children :
    (forall c, In c children -> below P c /\ match c with Node _ cp _ _ => P cp end) ->
    below P (Node id g geom children).

Lemma below_placements (P : rigid -> Prop) n : P rid -> (forall a b, P a -> P b -> P (rcomp a b)) -> below P n ->
  forall q, In q (placements n) -> P (fst (fst q)).
Proof.
  intros Pid Pc. revert n. fix IH 2. intros n H q Hq.
  destruct H as [id g geom children Hc]. simpl in Hq. apply in_app_or in Hq. destruct Hq as [Hq|Hq].
  - destruct geom; [|contradiction]. destruct Hq as [<-|[]]. exact Pid.
  - apply in_flat_map in Hq. destruct Hq as (c & Hin & Hq).
    destruct (Hc c Hin) as [Hb Hp]. specialize (IH c Hb). destruct c as [cid cp cg cc].
    apply in_map_iff in Hq. destruct Hq as (q' & <- & Hq'). simpl. apply Pc; [exact Hp|exact (IH _ Hq')].
Qed.

Definition hits_of (G : rigid) (o d : vec) (q : rigid * nat * (vec -> vec -> list vec)) : list intersection :=
  let '(W, id, f) := q in
  map (fun p => Hit id (to_point (rcomp G W) p) (distance_between (to_point (ainv W) o) p))
      (f (to_point (ainv W) o) (to_vector (ainv W) d)).

Lemma ainv_rid : ainv rid = rid.
Proof. symmetry. apply ainv_unique; [apply invertible_id|apply rcomp_id_l]. Qed.

Lemma flat_map_flat_map {A B C} (f : A -> list B) (g : B -> list C) l :
  flat_map g (flat_map f l) = flat_map (fun a => flat_map g (f a)) l.
Proof. induction l as [|a l IH]; simpl; [reflexivity|]. now rewrite flat_map_app, IH. Qed.
Lemma flat_map_ext_in {A B} (f g : A -> list B) l :
  (forall a, In a l -> f a = g a) -> flat_map f l = flat_map g l.
Proof. induction l as [|a l IH]; simpl; intros H; [reflexivity|]. rewrite H, IH; auto. Qed.
Lemma flat_map_map {A B C} (f : A -> B) (g : B -> list C) l :
  flat_map g (map f l) = flat_map (fun a => g (f a)) l.
Proof. induction l as [|a l IH]; simpl; [reflexivity|]. now rewrite IH. Qed.

Lemma node_hits_placements n : below invertible n ->
  forall G o d, node_hits n G o d = flat_map (hits_of G o d) (placements n).
Proof.
  revert n. fix IH 2. intros n H G o d. destruct H as [id g geom children Hc].
  simpl. rewrite flat_map_app. f_equal.
  - destruct geom as [f|]; simpl; [|reflexivity]. rewrite app_nil_r, ainv_rid, to_point_rid, to_vector_rid, rcomp_id_r.
    reflexivity.
  - rewrite flat_map_flat_map. apply flat_map_ext_in. intros c Hin.
    destruct (Hc c Hin) as [Hb Hp]. pose proof (IH c Hb) as IHc.
    pose proof (below_placements invertible c invertible_id invertible_comp Hb) as HP.
    destruct c as [cid cp cg cc]. rewrite IHc, flat_map_map.
    apply flat_map_ext_in. intros [[W i] f] Hq. simpl. specialize (HP _ Hq). simpl in HP.
    rewrite ainv_comp, to_point_rcomp, to_vector_rcomp by assumption.
    now rewrite rcomp_assoc.
Qed.

(** Evaluation without duplicating subterms. *)
Lemma mvec_eval a b c d e f g h i x y z :
  mvec (M (V a b c) (V d e f) (V g h i)) (V x y z) = V (a*x+b*y+c*z) (d*x+e*y+f*z) (g*x+h*y+i*z).
Proof. reflexivity. Qed.
Lemma to_point_eval a b c d e f g h i t u v x y z :
  to_point (Rigid (M (V a b c) (V d e f) (V g h i)) (V t u v)) (V x y z) =
  V (a*x+b*y+c*z+t) (d*x+e*y+f*z+u) (g*x+h*y+i*z+v).
Proof. reflexivity. Qed.

(** A rotation about u turns vectors perpendicular to u by the angle (s, c). *)
Lemma rodrigues_perp s c u q : is_unit u -> dot q u = 0 ->
  dot (mvec (rodrigues s c u) q) q = c * dot q q /\ dot (cross q (mvec (rodrigues s c u) q)) u = s * dot q q.
Proof.
  intros Hu Hq. destruct q as [q1 q2 q3], u as [u1 u2 u3].
  unfold rodrigues, mvec, cross, is_unit, dot in *; cbn [vx vy vz r1 r2 r3] in *. split; nsatz.
Qed.
