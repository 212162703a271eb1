(** C129: inside and on the surface of a cylinder; the rest of C53: integer points. *)
From Coq Require Import Reals Lra Psatz List Bool Arith Lia ZArith.
From Verif Require Import Base Vec OpticsModel PhaseModel TransformModel TransformProofs GeomModel GeomProofs GeomProps.
Import ListNotations.
Open Scope R_scope.

(** The direction of the fake ray of Cylinder.is_on_surface *)
Definition diagonal : vec := vscale (/ norm (V 1 1 1)) (V 1 1 1).
Lemma norm111 : norm (V 1 1 1) = sqrt 3.
Proof. unfold norm, dot; cbn. f_equal. ring. Qed.
Lemma sqrt3 : 0 < sqrt 3 /\ sqrt 3 * sqrt 3 = 3.
Proof. split; [apply sqrt_lt_R0; lra|apply sqrt_sqrt; lra]. Qed.
Lemma diagonal_coords : vx diagonal = / sqrt 3 /\ vy diagonal = / sqrt 3 /\ vz diagonal = / sqrt 3.
Proof. unfold diagonal. rewrite norm111. cbn. repeat split; ring. Qed.
Lemma inv_sqrt3 : 0 < / sqrt 3 /\ / sqrt 3 * / sqrt 3 = / 3.
Proof.
  destruct sqrt3 as [A B]. split; [now apply Rinv_0_lt_compat|]. rewrite <- Rinv_mult. now rewrite B.
Qed.
Lemma diagonal_unit : is_unit diagonal.
Proof. destruct diagonal_coords as (A & B & C). destruct inv_sqrt3 as [_ D]. unfold is_unit, dot. rewrite A, B, C, D. lra. Qed.
Lemma close_zero_iff x : close_to_zero x = true <-> Rabs x < EPS_ZERO.
Proof. apply Rltb_true. Qed.

Theorem C129_contains : forall length radius p, 0 < radius ->
  cylinder_contains length radius p = true <-> - (length / 2) < vz p < length / 2 /\ vx p * vx p + vy p * vy p < radius * radius.
Proof.
  intros length radius p Hr. unfold cylinder_contains. rewrite !andb_true_iff, !Rltb_true.
  replace (vx p ^ 2 + vy p ^ 2) with (vx p * vx p + vy p * vy p) by ring.
  rewrite sqrt_lt_radius by (try lra; nra). split; intros; lra.
Qed.
(** The surface test is true only next to the surface ... *)
Theorem C129_surface_near : forall length radius p, 0 < length -> 0 < radius -> cylinder_on_surface length radius p = true ->
  exists q, on_cylinder length radius q /\ distance_between p q < EPS_ZERO.
Proof.
  intros length radius p Hl Hr H. unfold cylinder_on_surface in H. fold diagonal in H.
  destruct (ray_z_cylinder length radius p diagonal) as [|t l] eqn:E; [discriminate|].
  assert (Ht : In t (ray_z_cylinder length radius p diagonal)) by (rewrite E; left; reflexivity).
  apply cylinder_ts_in in Ht; auto. destruct Ht as [H0 Ht]. apply close_zero_iff in H. rewrite Rabs_right in H by lra.
  exists (at_ray p diagonal t). split; [unfold on_cylinder; tauto|]. rewrite distance_at_ray; auto. apply diagonal_unit.
Qed.
(** ... and true on the walls and the caps, but not always on the rims. *)
Theorem C129_surface_complete_partial : forall length radius p, 0 < length -> 0 < radius ->
  on_wall length radius p \/ on_cap length radius p -> cylinder_on_surface length radius p = true.
Proof.
  intros length radius p Hl Hr H. unfold cylinder_on_surface. fold diagonal.
  assert (I0 : In 0 (ray_z_cylinder length radius p diagonal)).
  { apply cylinder_ts_in; auto. split; [lra|]. replace (at_ray p diagonal 0) with p by (unfold at_ray; destruct p as [a b c]; destruct diagonal as [d e f]; veq).
    destruct diagonal_coords as (A & B & C). destruct inv_sqrt3 as [D _]. rewrite A, C. destruct H as [H|H]; [left|right]; (split; [exact H|]); [left|]; lra. }
  assert (S : sorted_by (fun t => t) (ray_z_cylinder length radius p diagonal)) by apply sort_by_sorted.
  destruct (ray_z_cylinder length radius p diagonal) as [|t l] eqn:E; [destruct I0|].
  assert (Ht : In t (ray_z_cylinder length radius p diagonal)) by (rewrite E; left; reflexivity).
  apply cylinder_ts_in in Ht; auto. destruct Ht as [H0 _]. pose proof (sorted_by_head _ _ _ _ S I0) as Hh. cbn in Hh.
  apply close_zero_iff. replace t with 0 by lra. rewrite Rabs_R0. apply EPS_pos.
Qed.
Theorem C129_surface_complete_refuted : exists length radius p, 0 < length /\ 0 < radius /\ on_cylinder length radius p /\
  cylinder_on_surface length radius p = false.
Proof.
  exists 2, 1, (V 1 0 1). split; [lra|]. split; [lra|]. split; [right; right; split; cbn; lra|].
  unfold cylinder_on_surface. fold diagonal. destruct (ray_z_cylinder 2 1 (V 1 0 1) diagonal) as [|t l] eqn:E; [reflexivity|exfalso].
  assert (Ht : In t (ray_z_cylinder 2 1 (V 1 0 1) diagonal)) by (rewrite E; left; reflexivity).
  apply cylinder_ts_in in Ht; try lra. destruct Ht as [H0 Ht]. destruct diagonal_coords as (A & B & C). destruct inv_sqrt3 as [D _].
  unfold at_ray, vadd, vscale, on_wall, on_cap in Ht. cbn [vx vy vz] in Ht. rewrite A, B, C in Ht. set (s := / sqrt 3) in *. clearbody s.
  assert (0 <= t * s) by nra. set (x := t * s) in *. clearbody x. destruct Ht as [[[H1 H2] _]|[[H1 H2] _]]; nra.
Qed.
(** The two tests overlap in a shell below the surface; off the shell they do not. *)
Theorem C129_exclusive_refuted : exists length radius p, 0 < length /\ 0 < radius /\
  cylinder_contains length radius p = true /\ cylinder_on_surface length radius p = true.
Proof.
  assert (Ep : 0 < EPS_ZERO) by apply EPS_pos. assert (E1 : EPS_ZERO < 1) by (unfold EPS_ZERO; lra). set (e := EPS_ZERO / 4).
  exists 2, 1, (V 0 0 (1 - e)). split; [lra|]. split; [lra|]. split; [apply C129_contains; [lra|cbn; unfold e; lra]|].
  destruct diagonal_coords as (A & B & C). destruct inv_sqrt3 as [D D2]. destruct sqrt3 as [S1 S2].
  assert (St : sqrt 3 < 2) by nra. assert (Sv : sqrt 3 * / sqrt 3 = 1) by (apply Rinv_r; lra).
  assert (I0 : In (e * sqrt 3) (ray_z_cylinder 2 1 (V 0 0 (1 - e)) diagonal)).
  { apply cylinder_ts_in; try lra. split; [unfold e; nra|]. right. unfold at_ray, vadd, vscale, on_cap; cbn [vx vy vz]. rewrite A, B, C.
    replace (e * sqrt 3 * / sqrt 3) with e by (rewrite Rmult_assoc, Sv; ring). split; [|lra]. split; [unfold e; nra|right; lra]. }
  unfold cylinder_on_surface. fold diagonal.
  assert (S : sorted_by (fun t => t) (ray_z_cylinder 2 1 (V 0 0 (1 - e)) diagonal)) by apply sort_by_sorted.
  destruct (ray_z_cylinder 2 1 (V 0 0 (1 - e)) diagonal) as [|t l] eqn:E; [destruct I0|].
  assert (Ht : In t (ray_z_cylinder 2 1 (V 0 0 (1 - e)) diagonal)) by (rewrite E; left; reflexivity).
  apply cylinder_ts_in in Ht; try lra. destruct Ht as [H0 _]. pose proof (sorted_by_head _ _ _ _ S I0) as Hh. cbn in Hh.
  apply close_zero_iff. rewrite Rabs_right by lra. unfold e in Hh. nra.
Qed.
Theorem C129_exclusive_partial : forall length radius p, 0 < length -> 0 < radius ->
  (forall q, on_cylinder length radius q -> EPS_ZERO <= distance_between p q) -> cylinder_on_surface length radius p = false.
Proof.
  intros length radius p Hl Hr F. destruct (cylinder_on_surface length radius p) eqn:E; [exfalso|reflexivity].
  destruct (C129_surface_near _ _ _ Hl Hr E) as (q & Hq & D). specialize (F q Hq). lra.
Qed.
Example C129_example : cylinder_contains 2 1 (V (1/2) (1/2) 0) = true /\ cylinder_contains 2 1 (V (4/5) (4/5) 0) = false /\ cylinder_on_surface 2 1 (V 0 1 0) = true.
Proof.
  split; [apply C129_contains; cbn; lra|]. split.
  - destruct (cylinder_contains 2 1 (V (4/5) (4/5) 0)) eqn:E; [|reflexivity]. apply C129_contains in E; [cbn in E; lra|lra].
  - apply C129_surface_complete_partial; try lra. left. unfold on_wall; cbn. lra.
Qed.
Print Assumptions C129_contains.
Print Assumptions C129_surface_near.
Print Assumptions C129_surface_complete_partial.
Print Assumptions C129_surface_complete_refuted.
Print Assumptions C129_exclusive_refuted.
Print Assumptions C129_exclusive_partial.

(** ** Integer points and C53 *)
(** utils.py 15-62 on_aabb_surface for a point of Python ints: np.array(point) has an integer dtype, so the
    face coordinate assigned to it is cut to an integer (towards zero). *)
Definition cut (x : R) : R := if Rltb x 0 then - IZR (Int_part (- x)) else IZR (Int_part x).
Definition int_face_points (size : vec) (x y z : Z) : list vec :=
  let p := V (IZR x) (IZR y) (IZR z) in
  [V (cut (- (1/2) * vx size)) (vy p) (vz p); V (cut (1/2 * vx size)) (vy p) (vz p);
   V (vx p) (cut (- (1/2) * vy size)) (vz p); V (vx p) (cut (1/2 * vy size)) (vz p);
   V (vx p) (vy p) (cut (- (1/2) * vz size)); V (vx p) (vy p) (cut (1/2 * vz size))].
Definition box_on_surface_int (size : vec) (x y z : Z) : bool :=
  existsb (fun q => Rltb (Rabs (distance_between (V (IZR x) (IZR y) (IZR z)) q)) (2 * EPS_ZERO / 2)) (int_face_points size x y z).

Lemma int_part_is x k : IZR k <= x < IZR k + 1 -> Int_part x = k.
Proof.
  intros H. destruct (base_Int_part x) as [A B]. assert (L1 : (Int_part x < k + 1)%Z) by (apply lt_IZR; rewrite plus_IZR; lra).
  assert (L2 : (k < Int_part x + 1)%Z) by (apply lt_IZR; rewrite plus_IZR; lra). lia.
Qed.
Lemma cut_Z k : cut (IZR k) = IZR k.
Proof.
  assert (I : forall m, Int_part (IZR m) = m).
  { intros m. apply int_part_is; lra. }
  unfold cut. destruct (Rltb_spec (IZR k) 0); [|now rewrite I]. replace (- IZR k) with (IZR (- k)) by apply opp_IZR. rewrite I, opp_IZR. ring.
Qed.
Lemma cut_half : cut (- (1/2) * 1) = 0 /\ cut (1/2 * 1) = 0.
Proof.
  assert (I : Int_part (1/2) = 0%Z) by (apply int_part_is; lra).
  unfold cut. rewrite (proj2 (Rltb_true _ _)) by lra. rewrite (proj2 (Rltb_false _ _)) by lra.
  replace (- (- (1/2) * 1)) with (1/2) by ring. replace (1/2 * 1) with (1/2) by ring. rewrite I. split; ring.
Qed.
(** The centre of the unit cube, given as (0, 0, 0), counts as a surface point; (0.0, 0.0, 0.0) does not. *)
Theorem C53_integer_point_refuted : exists size, 0 < vx size /\ 0 < vy size /\ 0 < vz size /\
  box_on_surface_int size 0 0 0 = true /\ box_on_surface size (V 0 0 0) = false /\
  forall q, on_box size q -> 1/2 <= distance_between (V 0 0 0) q.
Proof.
  exists (V 1 1 1). cbn [vx vy vz]. repeat split; try lra.
  - unfold box_on_surface_int, int_face_points. cbn [existsb vx vy vz]. rewrite (proj1 cut_half).
    replace (distance_between (V 0 0 0) (V 0 0 0)) with 0.
    + rewrite Rabs_R0, (proj2 (Rltb_true _ _)); [reflexivity|]. pose proof EPS_pos. lra.
    + unfold distance_between, norm, vsub, dot; cbn. replace (_ + _) with 0 by ring. now rewrite sqrt_0.
  - destruct (box_on_surface (V 1 1 1) (V 0 0 0)) eqn:E; [exfalso|reflexivity]. apply box_surface_iff in E. cbn [vx vy vz] in E.
    replace (0 + 1 / 2) with (1/2) in E by ring. replace (0 - 1 / 2) with (- (1/2)) in E by ring. rewrite Rabs_Ropp, Rabs_right in E by lra.
    assert (EPS_ZERO < 1/2) by (unfold EPS_ZERO; lra). tauto || (destruct E as [E|[E|[E|[E|[E|E]]]]]; lra).
  - intros q [_ H]. cbn [vx vy vz] in H. unfold distance_between, norm. rewrite <- (sqrt_square (1/2)) by lra. apply sqrt_le_1_alt.
    unfold dot, vsub; cbn [vx vy vz]. pose proof (Rle_0_sqr (vx q)). pose proof (Rle_0_sqr (vy q)). pose proof (Rle_0_sqr (vz q)). unfold Rsqr in *.
    assert (K : forall x, Rabs x = 1/2 -> x * x = 1/4) by (intros x Hx; unfold Rabs in Hx; destruct (Rcase_abs x); nra).
    destruct H as [H|[H|H]]; apply K in H; nra.
Qed.
(** With even side lengths the faces are at integers and the test is the one of C53. *)
Theorem C53_integer_point_partial : forall a b c x y z,
  box_on_surface_int (V (2 * IZR a) (2 * IZR b) (2 * IZR c)) x y z = box_on_surface (V (2 * IZR a) (2 * IZR b) (2 * IZR c)) (V (IZR x) (IZR y) (IZR z)).
Proof.
  intros a b c x y z.
  assert (F : int_face_points (V (2 * IZR a) (2 * IZR b) (2 * IZR c)) x y z = face_points (V (2 * IZR a) (2 * IZR b) (2 * IZR c)) (V (IZR x) (IZR y) (IZR z))).
  { unfold int_face_points, face_points. cbn [vx vy vz].
    replace (- (1 / 2) * (2 * IZR a)) with (IZR (- a)) by (rewrite opp_IZR; field). replace (1 / 2 * (2 * IZR a)) with (IZR a) by field.
    replace (- (1 / 2) * (2 * IZR b)) with (IZR (- b)) by (rewrite opp_IZR; field). replace (1 / 2 * (2 * IZR b)) with (IZR b) by field.
    replace (- (1 / 2) * (2 * IZR c)) with (IZR (- c)) by (rewrite opp_IZR; field). replace (1 / 2 * (2 * IZR c)) with (IZR c) by field.
    now rewrite !cut_Z. }
  unfold box_on_surface_int, box_on_surface, on_aabb_surface. rewrite F. unfold face_points. cbn [combine filter existsb snd map].
  repeat match goal with |- context [Rltb ?u ?v] => destruct (Rltb u v); cbn [map orb]; [reflexivity|] end. reflexivity.
Qed.
Example C53_integer_example : box_on_surface_int (V 2 4 6) 1 0 0 = true.
Proof.
  change (V 2 4 6) with (V 2 4 6). replace (V 2 4 6) with (V (2 * IZR 1) (2 * IZR 2) (2 * IZR 3)) by (apply vec_eq; cbn; lra).
  rewrite C53_integer_point_partial. apply C53_every_surface_point_accepted; cbn; try lra. split; [unfold in_box; cbn; lra|]. left. cbn. rewrite Rabs_R1. lra.
Qed.
Print Assumptions C53_integer_point_refuted.
Print Assumptions C53_integer_point_partial.
