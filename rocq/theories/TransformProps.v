(** C45-C49, C72, C73: coordinate systems. *)
From Coq Require Import Reals Lra Psatz List Bool Arith Lia Permutation.
From Verif Require Import Base Vec OpticsModel PhaseModel TransformModel TransformProofs.
Import ListNotations.
Open Scope R_scope.

(** *** C45 *)
Theorem C45_conversion_inverse : forall h a b p, all_invertible h ->
  point_to_node h b (point_to_node h a p b) a = p /\ vector_to_node h b (vector_to_node h a p b) a = p.
Proof.
  intros h a b p H. unfold point_to_node, vector_to_node.
  rewrite <- to_point_rcomp, <- to_vector_rcomp, transformation_compose by exact H.
  unfold transformation_to. rewrite Nat.eqb_refl. now rewrite to_point_rid, to_vector_rid.
Qed.
Print Assumptions C45_conversion_inverse.

Theorem C45_conversion_composes : forall h a b c p, all_invertible h ->
  point_to_node h b (point_to_node h a p b) c = point_to_node h a p c /\
  vector_to_node h b (vector_to_node h a p b) c = vector_to_node h a p c.
Proof.
  intros h a b c p H. unfold point_to_node, vector_to_node.
  now rewrite <- to_point_rcomp, <- to_vector_rcomp, transformation_compose.
Qed.
Print Assumptions C45_conversion_composes.

(** Converting to the root is nothing but applying the poses one after the other on
    the way up. *)
Theorem C45_one_step_up : forall h n parent root p, all_invertible h ->
  hpath h root = [root] -> hpath h n = hpath h parent ++ [n] ->
  point_to_node h n p parent = to_point (hpose h n) p /\
  point_to_node h n p root = point_to_node h parent (to_point (hpose h n) p) root.
Proof.
  intros h n parent root p H Hr Hn.
  assert (E : transformation_to h n parent = hpose h n).
  { rewrite transformation_world by exact H. unfold world. rewrite Hn, along_path_app, rcomp_assoc.
    rewrite ainv_l, rcomp_id_l by (now apply along_path_inv). simpl. apply rcomp_id_r. }
  assert (F : point_to_node h n p parent = to_point (hpose h n) p) by (unfold point_to_node; now rewrite E).
  split; [exact F|]. rewrite <- F. symmetry. now apply C45_conversion_composes.
Qed.
Print Assumptions C45_one_step_up.

(** root 0; 1 below 0 shifted and scaled; 2 below 1 turned a quarter turn; 3 below 0. *)
Definition c45_tree : hierarchy :=
  Hier (fun n => match n with 0%nat => [0%nat] | 1%nat => [0; 1]%nat | 2%nat => [0; 1; 2]%nat | _ => [0; n]%nat end)
       (fun n => match n with
                 | 1%nat => Rigid (M (V 2 0 0) (V 0 2 0) (V 0 0 2)) (V 1 0 0)
                 | 2%nat => Rigid (M (V 0 (-1) 0) (V 1 0 0) (V 0 0 1)) (V 0 3 0)
                 | 3%nat => Rigid mid (V 0 0 5)
                 | _ => rid
                 end).
Example C45_example : all_invertible c45_tree /\ point_to_node c45_tree 2 (V 1 0 0) 3 = V 1 8 (-5).
Proof.
  assert (H : all_invertible c45_tree).
  { intros n. unfold invertible, mdet. do 4 (destruct n as [|n]; [simpl; lin; lra|]). simpl; lin; lra. }
  split; [exact H|]. unfold point_to_node. rewrite transformation_world by exact H.
  assert (E3 : ainv (world c45_tree 3) = Rigid mid (V 0 0 (-5))).
  { symmetry. apply ainv_unique; [now apply along_path_inv|]. unfold world, along_path; simpl.
    rewrite rcomp_id_l, rcomp_id_r. apply rigid_eq; simpl; [apply mmul_id_l|].
    unfold mid. rewrite to_point_eval. apply vec_eq; simpl; ring. }
  rewrite to_point_rcomp, E3. unfold world, along_path; simpl.
  rewrite !to_point_rcomp, !to_point_rid, !to_point_eval. unfold mid. rewrite to_point_eval. apply vec_eq; cbn [vx vy vz]; ring.
Qed.

(** *** C46 *)
Theorem C46_built_poses_are_rigid : forall location os t,
  apply_ops (tf_init location) os = Some t -> Forall op_rigid os ->
  (forall p q, distance_between (to_point (pose t) p) (to_point (pose t) q) = distance_between p q) /\
  (forall u v, dot (to_vector (pose t) u) (to_vector (pose t) v) = dot u v) /\
  (forall p q, distance_between (to_point (ainv (pose t)) p) (to_point (ainv (pose t)) q) = distance_between p q).
Proof.
  intros l os t E Ho.
  assert (H : wf_rigid (pose t)).
  { apply (apply_ops_inv (fun t => wf_rigid (pose t)) op_rigid (fun t o t' Et Q => apply_op_rigid t o t' Et Q) os (tf_init l) t); auto.
    unfold wf_rigid. rewrite init_rot. apply orthogonal_id. }
  split; [intros; now apply to_point_distance|]. split; [intros; now apply to_vector_dot|].
  intros. apply to_point_distance. now apply wf_ainv.
Qed.
Print Assumptions C46_built_poses_are_rigid.

(** No mirror images: the pose of a node that is only moved, turned and aimed keeps
    the orientation of every frame (triple products). *)
Theorem C46_orientation_preserved : forall location os t,
  apply_ops (tf_init location) os = Some t -> Forall op_proper os ->
  forall u v w, dot (to_vector (pose t) u) (cross (to_vector (pose t) v) (to_vector (pose t) w)) = dot u (cross v w).
Proof.
  intros l os t E Ho u v w.
  assert (H : mdet (rot (pose t)) = 1).
  { apply (apply_ops_inv (fun t => mdet (rot (pose t)) = 1) op_proper (fun t o t' Et Q => apply_op_proper t o t' Et Q) os (tf_init l) t); auto.
    rewrite init_rot. apply mdet_id. }
  assert (T : forall m, dot (mvec m u) (cross (mvec m v) (mvec m w)) = mdet m * dot u (cross v w)).
  { intros [[] [] []]. destruct u, v, w. unfold mdet, mvec. lin. ring. }
  unfold to_vector. rewrite T, H. ring.
Qed.
Print Assumptions C46_orientation_preserved.

Theorem C46_conversions_preserve_distance_and_angle : forall h a b p q u v,
  (forall n, wf_rigid (hpose h n)) ->
  distance_between (point_to_node h a p b) (point_to_node h a q b) = distance_between p q /\
  dot (vector_to_node h a u b) (vector_to_node h a v b) = dot u v.
Proof.
  intros h a b p q u v H.
  assert (W : wf_rigid (transformation_to h a b)).
  { rewrite transformation_world by (intros n; now apply wf_invertible).
    apply wf_rcomp; [apply wf_ainv|]; now apply wf_along. }
  split; [now apply to_point_distance|now apply to_vector_dot].
Qed.
Print Assumptions C46_conversions_preserve_distance_and_angle.

Example C46_example : exists t,
  apply_ops (tf_init (Some (V 1 2 3, false))) [Translate (V 1 0 0) false; Rotate (PI / 2) (V 0 0 3); SetLocation (V 0 0 9) false] = Some t /\
  to_point (pose t) (V 2 0 0) = V 0 2 9.
Proof.
  assert (U : unit_vector (V 0 0 3) = Some (V 0 0 1)).
  { unfold unit_vector, norm, dot; simpl. replace (0 * 0 + 0 * 0 + 3 * 3) with (3 * 3) by ring.
    rewrite sqrt_square by lra. rdec. f_equal. veq; field. }
  eexists. split.
  - simpl. unfold rotate, rotation_matrix; simpl. rewrite U. reflexivity.
  - simpl pose. rewrite !mmul_id_r, sin_PI2, cos_PI2. unfold rodrigues; cbn [vx vy vz].
    rewrite to_point_eval. apply vec_eq; cbn [vx vy vz]; ring.
Qed.

(** *** C47 *)
Theorem C47_location_is_translation : forall location os t,
  apply_ops (tf_init location) os = Some t -> loc t = tra (pose t) /\ to_point (pose t) vzero = loc t.
Proof.
  intros l os t E.
  assert (H : loc t = tra (pose t)).
  { apply (apply_ops_inv (fun t => loc t = tra (pose t)) (fun _ => True) (fun t o t' Et _ => apply_op_loc t o t' Et) os (tf_init l) t); auto.
    - rewrite Forall_forall; auto.
    - apply init_loc. }
  split; [exact H|]. rewrite H. unfold to_point. destruct (pose t) as [[[] [] []] []]. simpl. mveq.
Qed.
Print Assumptions C47_location_is_translation.

Theorem C47_rotate_keeps_location : forall t angle axis t',
  rotate t angle axis = Some t' -> loc t' = loc t.
Proof. intros t a x t' E. destruct (rotate_inv _ _ _ _ E) as (m & _ & ->). reflexivity. Qed.
Print Assumptions C47_rotate_keeps_location.

(** The world-side effect, stated on points rather than on the stored vector: the
    image of the node's origin stays put under rotate and moves by v under translate. *)
Theorem C47_origin_moves : forall location os t, apply_ops (tf_init location) os = Some t ->
  (forall angle axis t', rotate t angle axis = Some t' -> to_point (pose t') vzero = to_point (pose t) vzero) /\
  (forall v i t' p, translate t v i = Some t' -> to_point (pose t') p = vadd (to_point (pose t) p) v /\ loc t' = vadd (loc t) v).
Proof.
  intros l os t E. pose proof (C47_location_is_translation _ _ _ E) as [H H0]. split.
  - intros a x t' Er. rewrite H0. destruct (rotate_inv _ _ _ _ Er) as (m & Em & ->). simpl.
    rewrite to_point_rcomp, H0. apply (rotation_matrix_spec _ _ _ _ Em).
  - intros v i t' p Et. unfold translate in Et. destruct (_ && _); [discriminate|]. injection Et as <-. simpl.
    split; [|reflexivity]. rewrite to_point_rcomp. unfold to_point at 1; simpl. now rewrite mvec_id.
Qed.
Print Assumptions C47_origin_moves.

(** *** C72 *)
Theorem C72_translate_refuted : exists location v i,
  apply_ops (tf_init (Some location)) [Translate v i] = None.
Proof. exists (V 0 0 1, true), (V (1/2) 0 0), false. reflexivity. Qed.
Print Assumptions C72_translate_refuted.

Theorem C72_translate_partial : forall t v i, loc_int t = false \/ i = true ->
  exists t', translate t v i = Some t' /\ loc t' = vadd (loc t) v.
Proof.
  intros t v i H. unfold translate.
  replace (loc_int t && negb i) with false by (destruct H as [-> | ->]; destruct (loc_int t); reflexivity).
  eexists. split; reflexivity.
Qed.
Print Assumptions C72_translate_partial.

(** No integer location, no failure: a node whose locations were all given as floats (or never) can be
    translated after any operations. *)
Definition float_op (o : op) : Prop := match o with SetLocation _ i => i = false | _ => True end.
Theorem C72_float_locations_partial : forall l os t v i, Forall float_op os ->
  apply_ops (tf_init l) os = Some t -> match l with Some (_, i0) => i0 = false | None => True end ->
  exists t', translate t v i = Some t' /\ loc t' = vadd (loc t) v.
Proof.
  intros l os t v i Ho E Hl. apply C72_translate_partial. left.
  assert (H0 : loc_int (tf_init l) = false) by (destruct l as [[p b]|]; [exact Hl|reflexivity]).
  revert E H0. generalize (tf_init l). induction os as [|o os IH]; intros t0 E H0; cbn in E; [injection E as <-; exact H0|].
  inversion Ho as [|? ? Fo Fos]; subst. destruct (apply_op t0 o) as [t1|] eqn:E1; [|discriminate]. apply (IH Fos t1 E). clear E IH Fos Ho.
  destruct o as [g|p b|p b|a x|b w]; cbn in E1.
  - injection E1 as <-. reflexivity.
  - injection E1 as <-. exact Fo.
  - unfold translate in E1. destruct (_ && _); [discriminate|]. injection E1 as <-. exact H0.
  - destruct (rotate_inv _ _ _ _ E1) as (m & _ & ->). exact H0.
  - unfold look_at in E1. destruct (np_close _ _); [|destruct (rotation_from_matrix _ _) as [an dr]];
      destruct (rotate_inv _ _ _ _ E1) as (m & _ & ->); exact H0.
Qed.
Print Assumptions C72_float_locations_partial.

Example C72_example : exists t, translate (tf_init None) (V (1/2) 0 0) false = Some t /\ loc t = V (1/2) 0 0.
Proof. eexists. split; [reflexivity|]. simpl. veq. Qed.

(** *** C48 *)
(** Documented: [axis] is a direction in the node's own frame. A body rotation keeps
    that body axis where it is. *)
Theorem C48_body_axis_fixed_refuted : exists os t t' angle axis,
  apply_ops (tf_init None) os = Some t /\ rotate t angle axis = Some t' /\
  to_vector (pose t') axis <> to_vector (pose t) axis.
Proof.
  assert (Ux : unit_vector (V 1 0 0) = Some (V 1 0 0)) by (apply unit_vector_of_unit; unfold is_unit, dot; simpl; ring).
  assert (Uz : unit_vector (V 0 0 1) = Some (V 0 0 1)) by (apply unit_vector_of_unit; unfold is_unit, dot; simpl; ring).
  exists [Rotate (PI / 2) (V 0 0 1)]. do 2 eexists. exists (PI / 2), (V 1 0 0). split; [|split].
  - simpl. unfold rotate, rotation_matrix. rewrite Uz. reflexivity.
  - unfold rotate, rotation_matrix. rewrite Ux. reflexivity.
  - unfold to_vector; simpl. rewrite !mmul_id_r, mvec_mmul, sin_PI2, cos_PI2. unfold rodrigues; cbn [vx vy vz].
    rewrite !mvec_eval. intros E. injection E as _ E _. lra.
Qed.
Print Assumptions C48_body_axis_fixed_refuted.

(** What holds: the axis is fixed as a direction in the parent's frame; so the
    documented reading holds when the node's frame agrees with its parent's on it. *)
Theorem C48_body_axis_partial : forall t angle axis t',
  rotate t angle axis = Some t' -> to_vector (pose t) axis = axis ->
  to_vector (pose t') axis = to_vector (pose t) axis.
Proof.
  intros t a x t' E H. destruct (rotate_inv _ _ _ _ E) as (m & Em & ->). simpl.
  rewrite to_vector_rcomp, H. apply (rotation_matrix_spec _ _ _ _ Em).
Qed.
Print Assumptions C48_body_axis_partial.

Theorem C48_parent_axis_partial : forall t angle axis t',
  rotate t angle axis = Some t' ->
  forall v, to_vector (pose t) v = axis -> to_vector (pose t') v = axis.
Proof.
  intros t a x t' E v H. destruct (rotate_inv _ _ _ _ E) as (m & Em & ->). simpl.
  rewrite to_vector_rcomp, H. apply (rotation_matrix_spec _ _ _ _ Em).
Qed.
Print Assumptions C48_parent_axis_partial.

(** ... and it turns a vector perpendicular to the axis by exactly [angle]. *)
Theorem C48_angle_partial : forall t angle axis t' v,
  rotate t angle axis = Some t' -> dot (to_vector (pose t) v) axis = 0 ->
  dot (to_vector (pose t') v) (to_vector (pose t) v) = cos angle * dot (to_vector (pose t) v) (to_vector (pose t) v) /\
  dot (cross (to_vector (pose t) v) (to_vector (pose t') v)) axis =
    sin angle * dot (to_vector (pose t) v) (to_vector (pose t) v) * norm axis.
Proof.
  intros t a x t' v E H. destruct (rotate_inv _ _ _ _ E) as (m & Em & ->). simpl.
  rewrite to_vector_rcomp. set (q := to_vector (pose t) v) in *. clearbody q.
  unfold rotation_matrix in Em. destruct (unit_vector x) as [u|] eqn:Eu; [|discriminate].
  injection Em as <-. destruct (unit_vector_unit _ _ Eu) as [Hu Hx].
  assert (Hn : norm x <> 0).
  { intros Z. unfold unit_vector in Eu. rewrite Z in Eu. revert Eu. rb; [discriminate|contradiction]. }
  assert (Hqu : dot q u = 0).
  { rewrite <- Hx, dot_scale_r in H. apply Rmult_integral in H. destruct H; [contradiction|assumption]. }
  unfold to_vector; simpl rot. generalize (sin a) (cos a). intros s c.
  destruct (rodrigues_perp s c u q Hu Hqu) as [K1 K2]. split; [exact K1|].
  rewrite <- Hx at 1. rewrite dot_scale_r, K2. ring.
Qed.
Print Assumptions C48_angle_partial.

Example C48_example : exists t', rotate (tf_init None) (PI / 2) (V 0 0 1) = Some t' /\
  to_vector (pose t') (V 0 0 1) = V 0 0 1 /\ to_vector (pose t') (V 1 0 0) = V 0 1 0.
Proof.
  assert (Uz : unit_vector (V 0 0 1) = Some (V 0 0 1)) by (apply unit_vector_of_unit; unfold is_unit, dot; simpl; ring).
  eexists. split; [unfold rotate, rotation_matrix; rewrite Uz; reflexivity|].
  unfold to_vector; simpl. rewrite !mmul_id_r, sin_PI2, cos_PI2. unfold rodrigues; cbn [vx vy vz]. rewrite !mvec_eval.
  split; apply vec_eq; cbn [vx vy vz]; ring.
Qed.

(** *** C49 *)
(** A node turned before look_at does not face the vector. *)
Theorem C49_look_at_refuted : exists os t t' v w,
  apply_ops (tf_init None) os = Some t /\ is_unit v /\ eig_spec (look_matrix v) w /\
  look_at t v w = Some t' /\ to_vector (pose t') (V 0 0 1) <> v.
Proof.
  assert (Uy : unit_vector (V 0 1 0) = Some (V 0 1 0)) by (apply unit_vector_of_unit; unfold is_unit, dot; simpl; ring).
  assert (Hv : is_unit (V 0 0 1)) by (unfold is_unit, dot; simpl; ring).
  assert (Hc : np_close (vz (V 0 0 1)) (-1) = false).
  { unfold np_close; simpl. apply Rleb_false. replace (1 - -1) with 2 by ring.
    rewrite (Rabs_right 2), (Rabs_left (-1)) by lra. lra. }
  assert (Hm : look_matrix (V 0 0 1) = mid).
  { rewrite (look_matrix_closed 0 0 1 _ eq_refl). unfold mid. apply mat_eq; cbn [r1 r2 r3]; apply vec_eq; cbn [vx vy vz]; field. }
  assert (He : eig_spec (look_matrix (V 0 0 1)) (V 0 0 1)).
  { split; [exact Hv|]. rewrite Hm. lin. apply vec_eq; cbn [vx vy vz]; ring. }
  set (t := Tf vzero false (rcomp (Rigid (rodrigues (sin (PI / 2)) (cos (PI / 2)) (V 0 1 0))
      (vsub vzero (mvec (rodrigues (sin (PI / 2)) (cos (PI / 2)) (V 0 1 0)) vzero))) (translation_matrix vzero))).
  assert (Et : apply_ops (tf_init None) [Rotate (PI / 2) (V 0 1 0)] = Some t).
  { simpl. unfold rotate, rotation_matrix. rewrite Uy. reflexivity. }
  destruct (look_at t (V 0 0 1) (V 0 0 1)) as [t'|] eqn:El.
  - exists [Rotate (PI / 2) (V 0 1 0)], t, t', (V 0 0 1), (V 0 0 1).
    split; [exact Et|]. split; [exact Hv|]. split; [exact He|]. split; [exact El|].
    unfold to_vector. rewrite (look_at_rot t _ _ _ Hv Hc He El), Hm, mmul_id_l.
    unfold t; simpl. rewrite mmul_id_r, sin_PI2, cos_PI2. unfold rodrigues; cbn [vx vy vz]. rewrite mvec_eval.
    intros E. injection E as E _ _. lra.
  - exfalso. unfold look_at in El. replace (dot zaxis (V 0 0 1)) with (vz (V 0 0 1)) in El by (unfold zaxis, dot; simpl; ring).
    rewrite Hc in El. unfold rotation_from_matrix, rotate, rotation_matrix in El.
    rewrite (unit_vector_of_unit _ Hv) in El. discriminate.
Qed.
Print Assumptions C49_look_at_refuted.

(** A vector that is not normalised may be taken for the -z direction. *)
Theorem C49_non_unit_vector_refuted : exists v t', 
  (forall w, look_at (tf_init None) v w = Some t') /\
  (forall k, to_vector (pose t') (V 0 0 1) <> vscale k v).
Proof.
  assert (Uy : unit_vector (V 0 1 0) = Some (V 0 1 0)) by (apply unit_vector_of_unit; unfold is_unit, dot; simpl; ring).
  exists (V 5 0 (-1)). eexists. split.
  - intros w. unfold look_at. replace (dot zaxis (V 5 0 (-1))) with (-1) by (unfold zaxis, dot; simpl; ring).
    replace (np_close (-1) (-1)) with true.
    2:{ symmetry. unfold np_close. apply Rleb_true. replace (-1 - -1) with 0 by ring. rewrite Rabs_R0.
        rewrite (Rabs_left (-1)) by lra. lra. }
    unfold rotate, rotation_matrix. rewrite Uy. reflexivity.
  - intros k. unfold to_vector; simpl. rewrite mmul_id_r, sin_PI, cos_PI. unfold rodrigues; cbn [vx vy vz]. rewrite mvec_eval.
    unfold vscale; cbn [vx vy vz]. intros E. injection E as E1 _ E3. lra.
Qed.
Print Assumptions C49_non_unit_vector_refuted.

(** For a unit vector and a node whose face still points along +z. *)
Theorem C49_look_at_partial : forall t v w t',
  is_unit v -> eig_spec (look_matrix v) w -> to_vector (pose t) (V 0 0 1) = V 0 0 1 ->
  np_close (vz v) (-1) = false \/ v = V 0 0 (-1) ->
  look_at t v w = Some t' ->
  to_vector (pose t') (V 0 0 1) = v /\ loc t' = loc t.
Proof.
  intros t v w t' Hu He Hz Hc El. split.
  2:{ destruct (look_at_inv _ _ _ _ El) as (a & x & E). now apply (C47_rotate_keeps_location t a x). }
  unfold to_vector in *.
  destruct (np_close (vz v) (-1)) eqn:Ec.
  - destruct Hc as [Hc| ->]; [discriminate|].
    unfold look_at in El. replace (dot zaxis (V 0 0 (-1))) with (vz (V 0 0 (-1))) in El by (unfold zaxis, dot; simpl; ring).
    rewrite Ec in El. destruct (rotate_inv _ _ _ _ El) as (m & Em & ->). simpl.
    unfold rotation_matrix in Em. rewrite unit_vector_of_unit in Em by (unfold is_unit, dot; simpl; ring).
    injection Em as <-. simpl. rewrite mvec_mmul, Hz. unfold rodrigues; cbn [vx vy vz]. rewrite sin_PI, cos_PI, mvec_eval.
    apply vec_eq; cbn [vx vy vz]; ring.
  - rewrite (look_at_rot t v w t' Hu Ec He El), mvec_mmul, Hz. apply look_matrix_z; [exact Hu|].
    intros E. rewrite E in Ec. unfold np_close in Ec. apply Rleb_false in Ec.
    replace (-1 - -1) with 0 in Ec by ring. rewrite Rabs_R0, (Rabs_left (-1)) in Ec by lra. lra.
Qed.
Print Assumptions C49_look_at_partial.

(** look_at never fails on such a vector. *)
Theorem C49_look_at_defined_partial : forall t v w,
  is_unit v -> eig_spec (look_matrix v) w -> exists t', look_at t v w = Some t'.
Proof.
  intros t v w Hu [Hw _]. unfold look_at. destruct (np_close _ _).
  - unfold rotate, rotation_matrix. rewrite unit_vector_of_unit by (unfold is_unit, dot; simpl; ring). eauto.
  - unfold rotation_from_matrix, rotate, rotation_matrix. rewrite (unit_vector_of_unit _ Hw). eauto.
Qed.
Print Assumptions C49_look_at_defined_partial.

(** The hypotheses are satisfiable away from the special cases: v = (3/5, 0, 4/5), axis +y. *)
Example C49_example : is_unit (V (3/5) 0 (4/5)) /\ eig_spec (look_matrix (V (3/5) 0 (4/5))) (V 0 1 0) /\
  to_vector (pose (tf_init (Some (V 1 2 3, false)))) (V 0 0 1) = V 0 0 1 /\ np_close (vz (V (3/5) 0 (4/5))) (-1) = false.
Proof.
  split; [unfold is_unit, dot; simpl; field|]. split; [split|split].
  - unfold is_unit, dot; simpl; ring.
  - rewrite (look_matrix_closed _ _ _ _ eq_refl). lin. apply vec_eq; cbn [vx vy vz]; field.
  - simpl. unfold to_vector; simpl. apply mvec_id.
  - simpl. unfold np_close. apply Rleb_false. rewrite (Rabs_right (4 / 5 - -1)), (Rabs_left (-1)) by lra. lra.
Qed.

(** *** C73 *)
(** Scene.intersections gathers exactly, with multiplicity, the hits of every geometry
    with the ray expressed in that node's frame, converted to the world frame, that
    are ahead of the ray; in order of distance. *)
Theorem C73_scene_intersections_complete : forall root o d, below invertible root ->
  Permutation (scene_intersections root o d)
    (filter (fun i => intersection_point_is_ahead o d (h_point i))
      (flat_map (fun q => let '(W, id, f) := q in
         map (fun p => Hit id (to_point W p) (distance_between (to_point (ainv W) o) p))
             (f (to_point (ainv W) o) (to_vector (ainv W) d))) (placements root))) /\
  sorted_by (fun i => distance_between (h_point i) o) (scene_intersections root o d).
Proof.
  intros root o d H. split; [|apply sort_by_sorted].
  unfold scene_intersections. rewrite node_hits_placements by exact H.
  eapply perm_trans; [apply Permutation_sym, sort_by_perm|]. apply Permutation_refl'. f_equal.
  apply flat_map_ext_in. intros [[W id] f] _. simpl. apply map_ext. intros p. now rewrite rcomp_id_l.
Qed.
Print Assumptions C73_scene_intersections_complete.

(** With rigid poses every hit reported on the local ray is on the world ray at the
    same parameter, and the stored distance is the world distance. *)
Theorem C73_hits_on_world_ray : forall root o d i, below wf_rigid root ->
  (forall W id f, In (W, id, f) (placements root) -> forall o' d' p, In p (f o' d') -> exists t, 0 <= t /\ p = vadd o' (vscale t d')) ->
  is_unit d -> In i (scene_intersections root o d) ->
  exists t, 0 < t /\ h_point i = vadd o (vscale t d) /\ h_distance i = t /\ distance_between (h_point i) o = t.
Proof.
  intros root o d i H Hg Hd Hi.
  assert (Hinv : below invertible root).
  { revert H. generalize root. fix IH 2. intros n Hn. destruct Hn as [id g geom ch Hc]. constructor.
    intros c Hin. destruct (Hc c Hin) as [Hb Hp]. split; [exact (IH c Hb)|].
    destruct c. now apply wf_invertible. }
  apply (Permutation_in _ (proj1 (C73_scene_intersections_complete root o d Hinv))) in Hi.
  apply filter_In in Hi. destruct Hi as [Hi Ha]. apply in_flat_map in Hi. destruct Hi as ([[W id] f] & Hq & Hi).
  apply in_map_iff in Hi. destruct Hi as (p & <- & Hp).
  pose proof (below_placements wf_rigid root wf_rid wf_rcomp H _ Hq) as HW. simpl in HW.
  destruct (Hg _ _ _ Hq _ _ _ Hp) as (t & Ht & ->). simpl in *.
  rewrite to_point_line, ainv_point_r, ainv_vector_r in * by (now apply wf_invertible).
  assert (Hdist : forall v k u, 0 <= k -> is_unit u -> distance_between v (vadd v (vscale k u)) = k).
  { intros v k u Hk Hu. rewrite distance_sym. unfold distance_between.
    replace (vsub (vadd v (vscale k u)) v) with (vscale k u) by (destruct v, u; veq).
    rewrite norm_scale_pos, (norm_unit _ Hu) by exact Hk. ring. }
  exists t. split; [|split; [reflexivity|split]].
  - unfold intersection_point_is_ahead in Ha. apply Rltb_true in Ha.
    rewrite dot_add_r, dot_scale_r in Ha. unfold is_unit in Hd. rewrite Hd in Ha.
    assert (0 <= EPS_ZERO). { unfold EPS_ZERO. apply Rmult_le_pos; [lra|]. left. apply Rinv_0_lt_compat. apply pow_lt; lra. }
    lra.
  - apply Hdist; [exact Ht|]. apply (orthogonal_unit (rot (ainv W))); [apply wf_ainv; exact HW|exact Hd].
  - rewrite distance_sym. now apply Hdist.
Qed.
Print Assumptions C73_hits_on_world_ray.

(** A geometry reporting one point one unit ahead, in a node shifted by 2 and turned
    upside down: the ray is seen from the node's own frame. *)
Definition c73_scene : node :=
  Node 0 rid None [Node 1 (Rigid (M (V 1 0 0) (V 0 (-1) 0) (V 0 0 (-1))) (V 2 0 0))
                        (Some (fun o d => [vadd o (vscale 1 d)])) []].
Example C73_example : below wf_rigid c73_scene /\
  exists i, In i (scene_intersections c73_scene (V 0 0 0) (V 0 0 1)) /\ h_node i = 1%nat.
Proof.
  assert (W : wf_rigid (Rigid (M (V 1 0 0) (V 0 (-1) 0) (V 0 0 (-1))) (V 2 0 0))).
  { split; meq. }
  assert (B : below wf_rigid c73_scene).
  { constructor. intros c [<-|[]]. split; [|exact W]. constructor. intros c []. }
  split; [exact B|].
  assert (Bi : below invertible c73_scene).
  { constructor. intros c [<-|[]]. split; [|now apply wf_invertible]. constructor. intros c []. }
  eexists. split.
  - apply (Permutation_in _ (Permutation_sym (proj1 (C73_scene_intersections_complete c73_scene (V 0 0 0) (V 0 0 1) Bi)))).
    apply filter_In. split.
    + apply in_flat_map. eexists. split; [simpl; left; reflexivity|]. apply in_map_iff. eexists. split; [reflexivity|].
      left. reflexivity.
    + simpl h_point. rewrite to_point_line, rcomp_id_r, ainv_point_r, ainv_vector_r by (now apply wf_invertible).
      unfold intersection_point_is_ahead. apply Rltb_true. lin. unfold EPS_ZERO. lra.
  - reflexivity.
Qed.
