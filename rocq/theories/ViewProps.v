(** C133: the viewport of the studio shows the scene that is traced.  C134: a drag of the gizmo
    leaves the document with the node where the viewport shows it. *)
From Coq Require Import Reals Lra Psatz List Bool Arith String.
From Verif Require Import Base Vec TransformModel TransformProofs CompilerModel CompilerProofs CompilerProps MatrixModel ViewModel.
Import ListNotations.
Open Scope R_scope.

(** ** Rotations and quaternions *)
(** the ten products of a quaternion [q] of the matrix with rows a b c, d e f, g h i *)
Definition products (q : quat) (a b c d e f g h i : R) : Prop :=
  (4 * (qw q * qw q) = 1 + a + e + i /\ 4 * (qx q * qx q) = 1 + a - e - i /\ 4 * (qy q * qy q) = 1 + e - a - i /\ 4 * (qz q * qz q) = 1 + i - a - e) /\
  (4 * (qw q * qx q) = h - f /\ 4 * (qw q * qy q) = c - g /\ 4 * (qw q * qz q) = d - b) /\
  (4 * (qx q * qy q) = b + d /\ 4 * (qx q * qz q) = c + g /\ 4 * (qy q * qz q) = f + h).
Lemma over_root t u v w : 0 < t -> u * v = w * t -> 4 * (u * (1 / 2 / sqrt t) * (v * (1 / 2 / sqrt t))) = w.
Proof.
  intros Ht E. pose proof (sqrt_sqrt t (Rlt_le _ _ Ht)) as S. pose proof (sqrt_lt_R0 t Ht).
  replace (4 * (u * (1 / 2 / sqrt t) * (v * (1 / 2 / sqrt t)))) with (u * v / (sqrt t * sqrt t)) by (field; lra).
  rewrite S, E. field. lra.
Qed.
Lemma beside_root t u : 0 < t -> 4 * (1 / 4 / (1 / 2 / sqrt t) * (u * (1 / 2 / sqrt t))) = u.
Proof. intros Ht. pose proof (sqrt_lt_R0 t Ht). field. lra. Qed.
Lemma root_root t : 0 < t -> 4 * (1 / 4 / (1 / 2 / sqrt t) * (1 / 4 / (1 / 2 / sqrt t))) = t.
Proof.
  intros Ht. pose proof (sqrt_sqrt t (Rlt_le _ _ Ht)) as S. pose proof (sqrt_lt_R0 t Ht).
  replace (4 * (1 / 4 / (1 / 2 / sqrt t) * (1 / 4 / (1 / 2 / sqrt t)))) with (sqrt t * sqrt t) by (field; lra). exact S.
Qed.
Lemma over_root' t u v w : 0 < t -> u * v = w * t -> 4 * (u / (2 * sqrt t) * (v / (2 * sqrt t))) = w.
Proof.
  intros Ht E. rewrite <- (over_root t u v w Ht E). pose proof (sqrt_lt_R0 t Ht). field. lra.
Qed.
Lemma beside_root' t u : 0 < t -> 4 * (u / (2 * sqrt t) * (1 / 4 * (2 * sqrt t))) = u.
Proof. intros Ht. pose proof (sqrt_lt_R0 t Ht). field. lra. Qed.
Lemma root_beside t u : 0 < t -> 4 * (1 / 4 * (2 * sqrt t) * (u / (2 * sqrt t))) = u.
Proof. intros Ht. pose proof (sqrt_lt_R0 t Ht). field. lra. Qed.
Lemma root_root' t : 0 < t -> 4 * (1 / 4 * (2 * sqrt t) * (1 / 4 * (2 * sqrt t))) = t.
Proof. intros Ht. pose proof (sqrt_sqrt t (Rlt_le _ _ Ht)) as S. lra. Qed.

Lemma quaternion_products a b c d e f g h i z0 z1 z2 x y z o :
  orthogonal (M (V a b c) (V d e f) (V g h i)) -> mdet (M (V a b c) (V d e f) (V g h i)) = 1 ->
  products (set_from_rotation_matrix [a; d; g; z0; b; e; h; z1; c; f; i; z2; x; y; z; o]) a b c d e f g h i.
Proof.
  intros O D. pose proof (minv_orthogonal _ O) as Mi. unfold minv in Mi. rewrite D, Rinv_1 in Mi.
  destruct O as [O1 O2].
  assert (F : forall p q r s t u v w k p' q' r' s' t' u' v' w' k' : R,
            M (V p q r) (V s t u) (V v w k) = M (V p' q' r') (V s' t' u') (V v' w' k') ->
            (p = p' /\ q = q' /\ r = r') /\ (s = s' /\ t = t' /\ u = u') /\ (v = v' /\ w = w' /\ k = k')).
  { intros. injection H. intros; subst. repeat split. }
  unfold mmul, mtrans, mid, dot, vscale, cross in O1, O2, Mi. cbn [vx vy vz r1 r2 r3] in O1, O2, Mi.
  apply F in O1. apply F in O2. apply F in Mi. clear F D.
  destruct O1 as ((A1 & A2 & A3) & (_ & A4 & A5) & (_ & _ & A6)).
  destruct O2 as ((B1 & B2 & B3) & (_ & B4 & B5) & (_ & _ & B6)).
  destruct Mi as ((M1 & M2 & M3) & (M4 & M5 & M6) & (M7 & M8 & M9)).
  unfold set_from_rotation_matrix, el. cbn [nth].
  assert (N : forall t, 0 < t + 1 -> 0 < 1 + t) by (intros; lra).
  destruct (Rltb_spec 0 (a + e + i)) as [H0|H0].
  - replace (a + e + i + 1) with (1 + a + e + i) by lra. assert (P : 0 < 1 + a + e + i) by lra.
    split; [|split]; cbn [qw qx qy qz]; repeat split; try (apply root_root; exact P); try (apply beside_root; exact P); apply over_root; try exact P; lra.
  - destruct (Rltb e a && Rltb i a)%bool eqn:E1.
    + apply andb_prop in E1. destruct E1 as [E1 E2]. apply Rltb_true in E1. apply Rltb_true in E2.
      assert (P : 0 < 1 + a - e - i) by lra.
      split; [|split]; cbn [qw qx qy qz]; repeat split; try (apply root_root'; exact P); try (apply beside_root'; exact P); try (apply root_beside; exact P); apply over_root'; try exact P; lra.
    + destruct (Rltb_spec i e) as [H2|H2].
      * assert (P : 0 < 1 + e - a - i).
        { apply andb_false_iff in E1. destruct E1 as [E1|E1]; apply Rltb_false in E1; lra. }
        split; [|split]; cbn [qw qx qy qz]; repeat split; try (apply root_root'; exact P); try (apply beside_root'; exact P); try (apply root_beside; exact P); apply over_root'; try exact P; lra.
      * assert (P : 0 < 1 + i - a - e).
        { apply andb_false_iff in E1. destruct E1 as [E1|E1]; apply Rltb_false in E1; lra. }
        split; [|split]; cbn [qw qx qy qz]; repeat split; try (apply root_root'; exact P); try (apply beside_root'; exact P); try (apply root_beside; exact P); apply over_root'; try exact P; lra.
Qed.

Lemma det_square m : orthogonal m -> mdet m = 1 \/ mdet m = -1.
Proof.
  intros [H _]. pose proof (f_equal mdet H) as E. rewrite mdet_mul, mdet_trans, mdet_id in E.
  assert (F : (mdet m - 1) * (mdet m + 1) = 0) by lra. apply Rmult_integral in F. lra.
Qed.
(** the matrix that changes the sign of the first column *)
Definition flip (s : R) : mat := M (V s 0 0) (V 0 1 0) (V 0 0 1).
Lemma flip_orthogonal s : s * s = 1 -> orthogonal (flip s).
Proof. intros H. unfold flip. split; apply mat_eq; msimp; apply vec_eq; cbn; lra. Qed.
Lemma flip_det s : mdet (flip s) = s.
Proof. unfold flip, mdet. msimp. ring. Qed.

(** What three.js draws with the matrix of a payload is the image under the pose. *)
Theorem C133_decomposed : forall g q, wf_rigid g -> apply4 (compose (decompose (ravel_transposed g))) q = to_point g q.
Proof.
  intros [m t] q W. unfold wf_rigid in W. cbn [rot] in W.
  assert (X : forall s, s * s = 1 -> mdet m = s -> orthogonal (mmul m (flip s)) /\ mdet (mmul m (flip s)) = 1).
  { intros s S D. split; [apply orthogonal_mul; [exact W|apply flip_orthogonal, S]|]. rewrite mdet_mul, flip_det, D. exact S. }
  assert (N : forall v, is_unit v -> norm (mvec m v) = 1) by (intros v U; rewrite orthogonal_norm by exact W; apply norm_unit, U).
  pose proof (N (V 1 0 0)) as N1. pose proof (N (V 0 1 0)) as N2. pose proof (N (V 0 0 1)) as N3. clear N.
  unfold is_unit, dot in N1, N2, N3. cbn [vx vy vz] in N1, N2, N3.
  specialize (N1 ltac:(lra)). specialize (N2 ltac:(lra)). specialize (N3 ltac:(lra)).
  destruct m as [[a b c] [d e f] [g h i]]. destruct t as [tx ty tz]. destruct q as [x y z].
  unfold mvec, dot in N1, N2, N3. cbn [vx vy vz r1 r2 r3] in N1, N2, N3.
  replace (V (a * 1 + b * 0 + c * 0) (d * 1 + e * 0 + f * 0) (g * 1 + h * 0 + i * 0)) with (V a d g) in N1 by (apply vec_eq; cbn; ring).
  replace (V (a * 0 + b * 1 + c * 0) (d * 0 + e * 1 + f * 0) (g * 0 + h * 1 + i * 0)) with (V b e h) in N2 by (apply vec_eq; cbn; ring).
  replace (V (a * 0 + b * 0 + c * 1) (d * 0 + e * 0 + f * 1) (g * 0 + h * 0 + i * 1)) with (V c f i) in N3 by (apply vec_eq; cbn; ring).
  assert (D : determinant (ravel_transposed (Rigid (M (V a b c) (V d e f) (V g h i)) (V tx ty tz))) = mdet (M (V a b c) (V d e f) (V g h i))).
  { unfold determinant, el, ravel_transposed, mdet, dot, cross. cbn [nth rot tra r1 r2 r3 vx vy vz]. ring. }
  unfold decompose. rewrite D. unfold ravel_transposed, el. cbn [nth rot tra r1 r2 r3 vx vy vz].
  rewrite N1, N2, N3. set (s := if Rltb (mdet (M (V a b c) (V d e f) (V g h i))) 0 then - (1) else 1).
  assert (S : s * s = 1 /\ mdet (M (V a b c) (V d e f) (V g h i)) = s).
  { unfold s. destruct (det_square _ W) as [E|E]; rewrite E.
    - rewrite (proj2 (Rltb_false 1 0)) by lra. split; lra.
    - rewrite (proj2 (Rltb_true (-1) 0)) by lra. split; lra. }
  clearbody s. destruct S as [S Ds]. destruct (X s S Ds) as [XO XD]. clear X D W Ds N1 N2 N3.
  replace (1 / s) with s by (apply Rmult_eq_reg_l with s; [|intros E; rewrite E in S; lra]; unfold Rdiv; rewrite Rmult_1_l, Rinv_r; [exact S|intros E; rewrite E in S; lra]).
  replace (1 / 1) with 1 by lra. rewrite !Rmult_1_r.
  assert (E : mmul (M (V a b c) (V d e f) (V g h i)) (flip s) = M (V (a * s) b c) (V (d * s) e f) (V (g * s) h i)).
  { unfold flip. apply mat_eq; msimp; apply vec_eq; cbn; ring. }
  rewrite E in XO, XD. pose proof (quaternion_products _ _ _ _ _ _ _ _ _ 0 0 0 tx ty tz 1 XO XD) as P.
  destruct P as ((P1 & P2 & P3 & P4) & (P5 & P6 & P7) & (P8 & P9 & P10)).
  destruct (set_from_rotation_matrix _) as [w qx' qy' qz'].
  cbn [MatrixModel.qw MatrixModel.qx MatrixModel.qy MatrixModel.qz] in P1, P2, P3, P4, P5, P6, P7, P8, P9, P10.
  unfold apply4, compose, el, to_point, mvec, vadd, dot.
  cbn [nth o_quaternion o_scale o_position rot tra r1 r2 r3 vx vy vz MatrixModel.qw MatrixModel.qx MatrixModel.qy MatrixModel.qz].
  assert (Q1 : 1 - (qy' * (qy' + qy') + qz' * (qz' + qz')) = a * s) by lra.
  assert (Q2 : qx' * (qy' + qy') + w * (qz' + qz') = d * s) by lra.
  assert (Q3 : qx' * (qz' + qz') - w * (qy' + qy') = g * s) by lra.
  assert (Q4 : qx' * (qy' + qy') - w * (qz' + qz') = b) by lra.
  assert (Q5 : 1 - (qx' * (qx' + qx') + qz' * (qz' + qz')) = e) by lra.
  assert (Q6 : qy' * (qz' + qz') + w * (qx' + qx') = h) by lra.
  assert (Q7 : qx' * (qz' + qz') + w * (qy' + qy') = c) by lra.
  assert (Q8 : qy' * (qz' + qz') - w * (qx' + qx') = f) by lra.
  assert (Q9 : 1 - (qx' * (qx' + qx') + qy' * (qy' + qy')) = i) by lra.
  rewrite Q1, Q2, Q3, Q4, Q5, Q6, Q7, Q8, Q9.
  apply vec_eq; cbn [vx vy vz]; rewrite ?(Rmult_assoc _ s s), ?S; ring.
Qed.
Print Assumptions C133_decomposed.

(** ** The solids *)
(** the points of a geometry in its own frame, after the classes Box, Sphere and Cylinder *)
Definition occupies (g : sgeometry) (p : vec) : Prop :=
  match g with
  | GBox s => - (vx s / 2) <= vx p <= vx s / 2 /\ - (vy s / 2) <= vy p <= vy s / 2 /\ - (vz s / 2) <= vz p <= vz s / 2
  | GSphere r => 0 <= r /\ dot p p <= r * r
  | GCylinder l r => vx p * vx p + vy p * vy p <= r * r /\ - (l / 2) <= vz p <= l / 2
  | GOther => False
  end.
Lemma abs_le x k : Rabs x <= k <-> - k <= x <= k.
Proof. split; [intros H; apply Rabs_le_inv in H; lra|intros H; apply Rabs_le; lra]. Qed.
Lemma norm_le p r : norm p <= r <-> 0 <= r /\ dot p p <= r * r.
Proof.
  unfold norm. pose proof (sqrt_pos (dot p p)) as S. assert (D : 0 <= dot p p) by (unfold dot; nra).
  pose proof (sqrt_sqrt _ D) as E. split.
  - intros H. split; [lra|]. rewrite <- E. apply Rmult_le_compat; lra.
  - intros [H1 H2]. rewrite <- (sqrt_square r H1). apply sqrt_le_1_alt. exact H2.
Qed.
Theorem C133_solid : forall g gt gp name matrix world p, compile_geometry g = Some (gt, gp) ->
  build_geometry (PNode name (geom_name gt) gp matrix world) p <-> occupies g p.
Proof.
  intros [s|r|l r|] gt gp name matrix world p H; cbn in H; try discriminate; injection H as <- <-.
  - cbn. unfold BoxGeometry. rewrite !abs_le. cbn. reflexivity.
  - cbn. unfold SphereGeometry. cbn. apply norm_le.
  - cbn. unfold rotateX, CylinderGeometry. rewrite cos_PI2, sin_PI2. unfold el. cbn [nth]. split.
    + intros (q & [H1 H2] & ->). apply abs_le in H2. cbn [vx vy vz]. split; nra.
    + intros [H1 H2]. exists (V (vx p) (vz p) (- vy p)). cbn [vx vy vz]. split.
      * rewrite abs_le. split; lra.
      * destruct p as [x y z]. apply vec_eq; cbn [vx vy vz]; ring.
Qed.
Print Assumptions C133_solid.
(** rotateX is the rotation about the x axis also for other angles: two rotations add up, and no
    rotation leaves the solid as it is. *)
Theorem C133_rotation : forall a b s p, (rotateX a (rotateX b s) p <-> rotateX (a + b) s p) /\ (rotateX 0 s p <-> s p).
Proof.
  intros a b s p. unfold rotateX. rewrite cos_plus, sin_plus, cos_0, sin_0. split.
  - split.
    + intros (q & (r & H & ->) & ->). exists r. split; [exact H|]. apply vec_eq; cbn [vx vy vz]; ring.
    + intros (r & H & ->). eexists. split; [exists r; split; [exact H|reflexivity]|]. apply vec_eq; cbn [vx vy vz]; ring.
  - split.
    + intros (q & H & ->). replace (V _ _ _) with q; [exact H|]. destruct q as [x y z]. apply vec_eq; cbn [vx vy vz]; ring.
    + intros H. exists p. split; [exact H|]. destruct p as [x y z]. apply vec_eq; cbn [vx vy vz]; ring.
Qed.
Print Assumptions C133_rotation.

(** ** The scene *)
Lemma map_seq_nth {A B} (f : nat -> B) (P : A -> B -> Prop) (l : list A) :
  (forall i a, nth_error l i = Some a -> P a (f i)) -> forall n, n = List.length l -> Forall2 P l (map f (seq 0 n)).
Proof.
  intros H n ->. revert f H. induction l as [|a l IH]; intros f H; cbn; [constructor|]. constructor; [now apply H|].
  rewrite <- seq_shift, map_map. apply IH. intros i x E. apply (H (S i)). exact E.
Qed.
Lemma nth_of {A} (l : list A) i x d : nth_error l i = Some x -> nth i l d = x.
Proof. intros H. now apply nth_error_nth. Qed.
Theorem C133_scene : forall root T root_id,
  spectra_built root -> poses_rigid root -> compile_scene root = Some (T, root_id) ->
  let drawn := map render_node (payload_nodes T root_id) in
  Forall2 (fun n m => ms_name m = p_name n /\
                      forall p, shown m p <-> exists q, occupies (p_geometry n) q /\ p = to_point (p_to_root n) q)
          (geometry_nodes root) drawn /\
  (* the world, and nothing else, is drawn as the world *)
  map ms_world drawn = true :: map (fun _ => false) (tl drawn).
Proof.
  intros root T root_id B R H. cbv zeta.
  assert (Inv : root_id = 0%nat /\ compile_nodes tables0 (geometry_nodes root) = Some T).
  { destruct root as [id name pose g cs]. destruct (compile_scene_inv _ _ _ _ _ _ _ H) as (_ & E & F). now split. }
  destruct Inv as [-> HT].
  destruct (compile_nodes_ok _ _ _ 0 aligned0 wide0 (spectra_built_nodes _ B) HT) as (_ & _ & W & K).
  pose proof (wi_names _ _ W) as L. cbn [Nat.add] in L.
  split.
  - unfold payload_nodes. rewrite map_map. apply map_seq_nth; [|exact L]. intros i n E.
    destruct (K i n E) as (m & gt & gp & l2w & w2l & st & s & _ & Eg & Et & _ & En & Egt & Egp & El & _). cbn [Nat.add] in *.
    rewrite (nth_of _ _ _ _ En), (nth_of _ _ _ _ Egt), (nth_of _ _ _ _ Egp), (nth_of _ _ _ _ El). split; [reflexivity|].
    destruct (C91_rotated_nodes_accepted root n R (nth_error_In _ _ E)) as (Et' & _). rewrite Et' in Et. injection Et as <- _.
    assert (Wf : wf_rigid (p_to_root n)).
    { destruct (preorder_in _ _ _ (nth_error_In _ _ E)) as (poses & Hc & Ep). rewrite Ep. apply wf_fold; [apply wf_rid|eapply R; exact Hc]. }
    intros p. unfold shown. cbn [render_node ms_solid ms_object pn_matrix]. split; intros (q & Hq & ->); exists q.
    + split; [eapply C133_solid; [exact Eg|exact Hq]|apply C133_decomposed, Wf].
    + split; [eapply C133_solid; [exact Eg|exact Hq]|symmetry; apply C133_decomposed, Wf].
  - unfold payload_nodes. rewrite L.
    assert (N : exists n l, geometry_nodes root = n :: l).
    { destruct root as [id name pose [gm|] cs]; unfold compile_scene in H; unfold geometry_nodes in *; cbn [preorder] in *.
      - destruct gm as [gg gm']. cbn [app]. eauto.
      - cbn [app] in H. destruct (flat_map _ cs); discriminate. }
    destruct N as (n & l & ->). cbn [List.length seq map tl]. f_equal. rewrite <- seq_shift, !map_map. apply map_ext. reflexivity.
Qed.
Print Assumptions C133_scene.

(** ** Lights *)
Theorem C133_lights : forall g, wf_rigid g ->
  let '(marker, origin, direction) := render_light (ravel_transposed g) in
  o_position marker = to_point g vzero /\ origin = to_point g vzero /\
  direction = to_vector g (V 0 0 1) /\ is_unit direction.
Proof.
  intros g W. cbn [render_light].
  assert (E : to_vector g (V 0 0 1) = V (el (ravel_transposed g) 8) (el (ravel_transposed g) 9) (el (ravel_transposed g) 10)).
  { unfold to_vector, ravel_transposed, el, mvec, dot. cbn [nth vx vy vz]. apply vec_eq; cbn; ring. }
  assert (P : to_point g vzero = V (el (ravel_transposed g) 12) (el (ravel_transposed g) 13) (el (ravel_transposed g) 14)).
  { unfold to_point, ravel_transposed, el, mvec, vadd, vzero, dot. cbn [nth vx vy vz]. apply vec_eq; cbn; ring. }
  split; [symmetry; exact P|]. split; [symmetry; exact P|]. split; [symmetry; exact E|]. rewrite <- E.
  unfold is_unit. rewrite to_vector_dot by exact W. unfold dot. cbn. ring.
Qed.
Print Assumptions C133_lights.

(** ** The gizmo *)
(** the position that the last event left the object at *)
Fixpoint dragged_to (p : vec) (es : list gizmo_event) : vec :=
  match es with [] => p | Change _ _ q :: es' => dragged_to q es' | _ :: es' => dragged_to p es' end.
Definition is_change (e : gizmo_event) : Prop := match e with Change _ _ _ => True | _ => False end.
Lemma changes_state es : forall d, Forall is_change es ->
  g_position (gizmo d es) = dragged_to (g_position d) es /\ g_start (gizmo d es) = g_start d /\ exists more, g_posted (gizmo d es) = g_posted d ++ more.
Proof.
  induction es as [|e es IH]; intros d F; [cbn; split; [reflexivity|split; [reflexivity|exists []; now rewrite app_nil_r]]|].
  apply Forall_cons_iff in F. destruct F as [Fe F]. destruct e as [|rt now p|]; try contradiction. cbn [gizmo fold_left].
  change (fold_left gizmo_step es ?x) with (gizmo x es). destruct (IH (gizmo_step d (Change rt now p)) F) as (A & B & more & C).
  rewrite A, B, C. cbn [gizmo_step dragged_to]. destruct (negb rt); [|destruct (Rltb _ _)]; cbn [g_position g_start g_posted].
  - split; [reflexivity|split; [reflexivity|now exists more]].
  - split; [reflexivity|split; [reflexivity|now exists more]].
  - split; [reflexivity|split; [reflexivity|]]. exists (p :: more). now rewrite <- app_assoc.
Qed.
(** A drag that ends away from where it began posts where it ended, last. *)
Theorem C134_drop_partial : forall d es, Forall is_change es ->
  / 10 ^ 6 < distance_between (dragged_to (g_position d) es) (g_position d) ->
  exists before, g_posted (gizmo d (DragBegin :: es ++ [DragEnd])) = g_posted d ++ before ++ [dragged_to (g_position d) es] /\
    (Forall (fun e => match e with Change realtime _ _ => realtime = false | _ => True end) es -> before = []).
Proof.
  intros d es F H. unfold gizmo. cbn [fold_left]. rewrite fold_left_app. cbn [fold_left].
  change (fold_left gizmo_step es ?x) with (gizmo x es). destruct (changes_state es (gizmo_step d DragBegin) F) as (A & B & more & C).
  unfold gizmo_step at 1. rewrite A, B, C. cbn [gizmo_step g_start g_position g_posted].
  rewrite (proj2 (Rltb_true _ _)) by exact H. exists more. rewrite <- app_assoc. split; [reflexivity|].
  intros Nr. enough (E : g_posted (gizmo (gizmo_step d DragBegin) es) = g_posted d).
  { rewrite E in C. cbn in C. rewrite <- (app_nil_r (g_posted d)) in C at 1. now apply app_inv_head in C. }
  clear -F Nr. change (g_posted d) with (g_posted (gizmo_step d DragBegin)). generalize (gizmo_step d DragBegin). clear d.
  induction es as [|e es IH]; intros d; [reflexivity|]. apply Forall_cons_iff in F. destruct F as [Fe F].
  apply Forall_cons_iff in Nr. destruct Nr as [Ne Nr]. destruct e as [|rt now p|]; try contradiction. subst rt.
  cbn [gizmo fold_left]. change (fold_left gizmo_step es ?x) with (gizmo x es). rewrite IH by assumption. reflexivity.
Qed.
Print Assumptions C134_drop_partial.
(** In real time, an object dragged away and back is shown where it was, but the last position posted is another one. *)
Theorem C134_drop_refuted : exists d es p, Forall is_change es /\ dragged_to (g_position d) es = g_position d /\
  g_posted (gizmo d (DragBegin :: es ++ [DragEnd])) = [p] /\ distance_between p (g_position d) = 3.
Proof.
  exists (Drag vzero None 0 []), [Change true 1000 (V 3 0 0); Change true 1100 vzero], (V 3 0 0).
  split; [repeat constructor|]. split; [reflexivity|]. split.
  - unfold gizmo. cbn [app fold_left gizmo_step negb g_last g_position g_start g_posted].
    rewrite (proj2 (Rltb_false (1000 - 0) 150)) by lra. cbn [g_last g_position g_start g_posted].
    rewrite (proj2 (Rltb_true (1100 - 1000) 150)) by lra. cbn [g_last g_position g_start g_posted app].
    rewrite (proj2 (Rltb_false _ _)); [reflexivity|]. unfold distance_between, norm.
    replace (dot _ _) with 0 by (unfold dot, vsub, vzero; cbn; ring). rewrite sqrt_0. assert (0 < 10 ^ 6) by (apply pow_lt; lra).
    left. apply Rinv_0_lt_compat. assumption.
  - unfold distance_between, norm. cbn [g_position]. replace (dot _ _) with (3 * 3) by (unfold dot, vsub, vzero; cbn; ring). apply sqrt_square. lra.
Qed.
Print Assumptions C134_drop_refuted.

(** ** Examples *)
(** the rod of the scene of CompilerProps, from z = 3/2 to z = 5/2 about x = y = 1 *)
Lemma poses_step id name p g cs :
  (forall cid cname cp cg ccs, In (SNode cid cname cp cg ccs) cs -> wf_rigid cp /\ poses_rigid (SNode cid cname cp cg ccs)) ->
  poses_rigid (SNode id name p g cs).
Proof.
  intros H poses n C. inversion C as [|i0 n0 p0 g0 cs0 c n1 cid cname cp cg ccs po Hin Ec Hc]; subst; [constructor|].
  destruct (H _ _ _ _ _ Hin) as [W R]. constructor; [exact W|]. eapply R. exact Hc.
Qed.
Lemma demo_rigid : poses_rigid demo.
Proof.
  assert (T : forall v, wf_rigid (translation_matrix v)) by (intros; exact orthogonal_id).
  assert (S : forall t id name v g cs, t = SNode id name (translation_matrix v) g cs -> poses_rigid t ->
            forall cid cname cp cg ccs, In (SNode cid cname cp cg ccs) [t] -> wf_rigid cp /\ poses_rigid (SNode cid cname cp cg ccs)).
  { intros t id name v g cs -> P cid cname cp cg ccs [E|[]]. injection E as <- <- <- <- <-. split; [apply T|exact P]. }
  unfold demo. apply poses_step. eapply S; [reflexivity|]. apply poses_step. eapply S; [reflexivity|].
  apply poses_step. eapply S; [reflexivity|]. apply poses_step. intros ? ? ? ? ? [].
Qed.
Example C133_example : exists T root_id rod, compile_scene demo = Some (T, root_id) /\
  nth_error (map render_node (payload_nodes T root_id)) 2 = Some rod /\ ms_name rod = "rod"%string /\
  shown rod (V (5 / 4) 1 (5 / 2)) /\ ~ shown rod (V 1 1 3).
Proof.
  destruct C90_demo_compiles as (T & H & _). exists T, 0%nat.
  destruct (C133_scene demo T 0 C90_demo_built demo_rigid H) as [F _]. cbv zeta in F.
  unfold geometry_nodes, demo in F. cbn [preorder flat_map app] in F.
  inversion F as [|n1 m1 l1 k1 _ F1 E1 E2]; clear F. inversion F1 as [|n2 m2 l2 k2 _ F2 E3 E4]; clear F1.
  inversion F2 as [|n3 m3 l3 k3 P F3 E5 E6]; clear F2. subst. clear F3. destruct P as [Pn P]. cbn [p_name p_geometry p_to_root] in Pn, P.
  assert (X : forall q, to_point (rcomp (rcomp (rcomp rid (translation_matrix (V 1 0 0))) (translation_matrix (V 0 1 0))) (translation_matrix (V 0 0 2))) q
                        = vadd q (V 1 1 2)).
  { clear. intros [x y z]. rewrite !to_point_rcomp, to_point_rid.
    unfold translation_matrix, to_point, mvec, mid, vadd, dot. cbn [rot tra r1 r2 r3 vx vy vz]. apply vec_eq; cbn [vx vy vz]; ring. }
  exists m3. split; [exact H|]. split; [reflexivity|]. split; [exact Pn|]. split.
  - apply P. exists (V (1 / 4) 0 (1 / 2)). rewrite X. unfold occupies, vadd. cbn [vx vy vz]. split; [lra|]. apply vec_eq; cbn; lra.
  - intros K. apply P in K. destruct K as (q & O & E). rewrite X in E. destruct q as [x y z]. unfold vadd in E. cbn [vx vy vz] in E.
    injection E as _ _ Ez. unfold occupies in O. cbn [vx vy vz] in O. lra.
Qed.
(** a half turn about the diagonal of x and y has trace -1 *)
Example C133_half_turn : let g := Rigid (M (V 0 1 0) (V 1 0 0) (V 0 0 (-1))) (V 1 2 3) in
  wf_rigid g /\ qw (o_quaternion (decompose (ravel_transposed g))) = 0 /\
  apply4 (compose (decompose (ravel_transposed g))) (V 5 0 1) = V 1 7 2.
Proof.
  cbv zeta. set (g := Rigid _ _). assert (W : wf_rigid g) by (unfold g, wf_rigid; cbn [rot]; split; apply mat_eq; msimp; apply vec_eq; cbn; ring).
  split; [exact W|]. split.
  - unfold g, decompose, ravel_transposed, determinant, el. cbn [nth rot tra r1 r2 r3 vx vy vz o_quaternion].
    assert (N : forall x y z, x * x + y * y + z * z = 1 -> norm (V x y z) = 1) by (intros x y z E; apply norm_unit; exact E).
    rewrite !N by ring. rewrite (proj2 (Rltb_false _ 0)) by lra. unfold set_from_rotation_matrix, el. cbn [nth].
    rewrite (proj2 (Rltb_false 0 _)) by lra. rewrite (proj2 (Rltb_false (0 * (1 / 1)) (0 * (1 / 1)))) by lra. cbn [andb].
    rewrite (proj2 (Rltb_true _ _)) by lra. cbn [qw]. unfold Rdiv. ring.
  - rewrite C133_decomposed by exact W. unfold g, to_point, mvec, dot, vadd. cbn. apply vec_eq; cbn; ring.
Qed.
(** a reflection, for which three.js gives a negative scale *)
Example C133_reflection : let g := Rigid (M (V (-1) 0 0) (V 0 1 0) (V 0 0 1)) vzero in
  wf_rigid g /\ vx (o_scale (decompose (ravel_transposed g))) = -1 /\ apply4 (compose (decompose (ravel_transposed g))) (V 5 6 7) = V (-5) 6 7.
Proof.
  cbv zeta. set (g := Rigid _ _). assert (W : wf_rigid g) by (unfold g, wf_rigid; cbn [rot]; split; apply mat_eq; msimp; apply vec_eq; cbn; ring).
  split; [exact W|]. split.
  - unfold g, decompose, ravel_transposed, determinant, el. cbn [nth rot tra r1 r2 r3 vx vy vz o_scale].
    rewrite (proj2 (Rltb_true _ 0)) by lra. rewrite norm_unit; [lra|]. unfold is_unit, dot. cbn. ring.
  - rewrite C133_decomposed by exact W. unfold g, to_point, mvec, dot, vadd, vzero. cbn. apply vec_eq; cbn; ring.
Qed.
