(** Lemmas for geometry intersections. *)
From Coq Require Import Reals Lra Psatz List Bool Arith Lia Permutation Sorted.
From Verif Require Import Base Vec OpticsModel PhaseModel TransformModel TransformProofs GeomModel.
Import ListNotations.
Open Scope R_scope.

Lemma EPS_pos : 0 < EPS_ZERO.
Proof. unfold EPS_ZERO. apply Rmult_lt_0_compat; [lra|]. apply Rinv_0_lt_compat, pow_lt; lra. Qed.
Lemma EPS_small : EPS_ZERO < / 10 ^ 9.
Proof. unfold EPS_ZERO. lra. Qed.
Lemma tiny_pos : 0 < tiny.
Proof. unfold tiny. apply Rinv_0_lt_compat, pow_lt; lra. Qed.

Lemma np_close_0 x : np_close x 0 = true <-> Rabs x <= / 10 ^ 8.
Proof. unfold np_close. rewrite Rabs_R0, Rminus_0_r, Rmult_0_r, Rplus_0_r. apply Rleb_true. Qed.

(** ** Quadratics *)
Lemma quad_root a b c t : 0 < a -> 0 <= b * b - 4 * a * c ->
  (a * t * t + b * t + c = 0 <->
   t = (- b - sqrt (b * b - 4 * a * c)) / (2 * a) \/ t = (- b + sqrt (b * b - 4 * a * c)) / (2 * a)).
Proof.
  intros Ha Hd. set (q := sqrt (b * b - 4 * a * c)).
  assert (Hq : q * q = b * b - 4 * a * c) by (apply sqrt_sqrt; exact Hd).
  split.
  - intros H. assert (E : (2 * a * t + b - q) * (2 * a * t + b + q) = 0) by nra.
    apply Rmult_integral in E. destruct E as [E|E]; [right|left].
    + replace (- b + q) with (t * (2 * a)) by lra. field. lra.
    + replace (- b - q) with (t * (2 * a)) by lra. field. lra.
  - intros [E|E].
    + assert (E2 : 2 * a * t = - b - q) by (rewrite E; field; lra).
      apply (Rmult_eq_reg_l (4 * a)); [|lra]. nra.
    + assert (E2 : 2 * a * t = - b + q) by (rewrite E; field; lra).
      apply (Rmult_eq_reg_l (4 * a)); [|lra]. nra.
Qed.
Lemma quad_none a b c t : 0 < a -> b * b - 4 * a * c < 0 -> a * t * t + b * t + c <> 0.
Proof. intros Ha Hd E. pose proof (Rle_0_sqr (2 * a * t + b)). unfold Rsqr in *. nra. Qed.
Lemma quad_order a b c : 0 < a ->
  (- b - sqrt (b * b - 4 * a * c)) / (2 * a) <= (- b + sqrt (b * b - 4 * a * c)) / (2 * a).
Proof.
  intros Ha. pose proof (sqrt_pos (b * b - 4 * a * c)). unfold Rdiv.
  apply Rmult_le_compat_r; [|lra]. left. apply Rinv_0_lt_compat. lra.
Qed.

Lemma dot_pos_nonzero d : d <> vzero -> 0 < dot d d.
Proof.
  intros H. destruct (Rle_lt_or_eq_dec _ _ (dot_self_nonneg d)) as [L|E]; [exact L|].
  exfalso. apply H. destruct d as [x y z]. unfold dot in E; simpl in E. unfold vzero.
  apply vec_eq; simpl; nra.
Qed.
Lemma at_ray_sq o d t : dot (at_ray o d t) (at_ray o d t) = dot d d * t * t + 2 * dot d o * t + dot o o.
Proof. unfold at_ray. vsimp. ring. Qed.
Lemma norm_eq_sq p r : 0 <= r -> (norm p = r <-> dot p p = r * r).
Proof.
  intros Hr. pose proof (norm_sq p) as H. pose proof (norm_nonneg p). split.
  - intros E. rewrite E in H. lra.
  - intros E. nra.
Qed.
Lemma on_sphere_quad r o d t : 0 <= r ->
  (norm (at_ray o d t) = r <-> dot d d * t * t + 2 * dot d o * t + (dot o o - r * r) = 0).
Proof. intros Hr. rewrite norm_eq_sq by exact Hr. rewrite at_ray_sq. split; intros; lra. Qed.

Lemma sorted2 (x y : R) : x <= y -> sort_by (fun t => t) [x; y] = [x; y].
Proof. intros H. simpl. rb; [lra|reflexivity]. Qed.

(** The kernel's sphere, exactly. *)
Lemma k_sphere_in r o d t : 0 <= r -> d <> vzero ->
  (In t (k_intersect_sphere r o d) <-> EPS_ZERO < t /\ norm (at_ray o d t) = r).
Proof.
  intros Hr Hd. pose proof (dot_pos_nonzero d Hd) as Ha.
  rewrite on_sphere_quad by exact Hr.
  unfold k_intersect_sphere. cbv zeta.
  set (b := 2 * dot d o). set (a := dot d d) in *. set (c := dot o o - r * r).
  destruct (Rltb_spec (b * b - 4 * a * c) 0) as [Hn|Hn].
  - split; [intros []|]. intros [_ E]. exfalso. exact (quad_none a b c t Ha Hn E).
  - rewrite (quad_root a b c t Ha ltac:(lra)).
    set (t1 := (- b - _) / _). set (t2 := (- b + _) / _).
    rewrite in_app_iff. destruct (Rltb_spec EPS_ZERO t1), (Rltb_spec EPS_ZERO t2); simpl; split;
      intros; try tauto;
      repeat match goal with H : _ \/ _ |- _ => destruct H end;
      repeat match goal with H : _ /\ _ |- _ => destruct H end; subst; try tauto;
      repeat match goal with H : _ \/ _ |- _ => destruct H end; subst; try tauto.
Qed.

Lemma k_sphere_sorted r o d : d <> vzero -> sorted_by (fun t => t) (k_intersect_sphere r o d).
Proof.
  intros Hd. pose proof (dot_pos_nonzero d Hd) as Ha.
  unfold k_intersect_sphere. cbv zeta. destruct (Rltb _ 0); [constructor|].
  pose proof (quad_order (dot d d) (2 * dot d o) (dot o o - r * r) Ha).
  unfold sorted_by. destruct (Rltb _ _), (Rltb _ _); simpl; repeat first [assumption | constructor].
Qed.

(** Python's sphere away from the tolerance band. *)
Definition sphere_disc (r : R) (o d : vec) : R := (2 * dot d o) ^ 2 - 4 * dot d d * (dot o o - r ^ 2).
Definition clear_of_grazing (r : R) (o d : vec) : Prop :=
  sphere_disc r o d <= 0 \/ / 10 ^ 8 < sphere_disc r o d.

Lemma sphere_ts_in r o d t : 0 <= r -> d <> vzero -> clear_of_grazing r o d ->
  (In t (sphere_ts r o d) <-> 0 <= t /\ norm (at_ray o d t) = r).
Proof.
  intros Hr Hd Hg. pose proof (dot_pos_nonzero d Hd) as Ha.
  rewrite on_sphere_quad by exact Hr.
  unfold sphere_ts. cbv zeta. fold (sphere_disc r o d).
  assert (Ed : sphere_disc r o d = (2 * dot d o) * (2 * dot d o) - 4 * dot d d * (dot o o - r * r))
    by (unfold sphere_disc; ring).
  unfold clear_of_grazing in Hg. rewrite Ed in *.
  set (b := 2 * dot d o) in *. set (a := dot d d) in *. set (c := dot o o - r * r) in *.
  destruct (Rltb_spec (b * b - 4 * a * c) 0) as [Hn|Hn].
  - split; [intros []|]. intros [_ E]. exfalso. exact (quad_none a b c t Ha Hn E).
  - rewrite (quad_root a b c t Ha ltac:(lra)). rewrite filter_In, Rleb_true.
    destruct (np_close (b * b - 4 * a * c) 0) eqn:Ec.
    + apply np_close_0 in Ec.
      assert (Hz : b * b - 4 * a * c = 0).
      { destruct Hg as [Hg|Hg]; [lra|]. pose proof (Rle_abs (b * b - 4 * a * c)). lra. }
      rewrite Hz, sqrt_0, Rminus_0_r, Rplus_0_r. simpl. split.
      * intros [[E|[]] H0]. split; [exact H0|left; now symmetry].
      * intros [H0 [E|E]]; (split; [left; now symmetry|exact H0]).
    + rewrite sorted2 by (apply quad_order; exact Ha). simpl. split.
      * intros [[E|[E|[]]] H0]; (split; [exact H0|]); [left|right]; now symmetry.
      * intros [H0 [E|E]]; (split; [|exact H0]); [left|right; left]; now symmetry.
Qed.

Lemma sphere_ts_sorted r o d : sorted_by (fun t => t) (sphere_ts r o d).
Proof.
  unfold sphere_ts. cbv zeta. destruct (Rltb _ 0); [constructor|].
  apply sorted_by_filter, sort_by_sorted.
Qed.

(** ** Directional membership of a slab *)
Definition in_slab (size o d t : R) : Prop := - (size / 2) <= o + t * d <= size / 2.
Definition in_box (size p : vec) : Prop :=
  - (vx size / 2) <= vx p <= vx size / 2 /\ - (vy size / 2) <= vy p <= vy size / 2 /\
  - (vz size / 2) <= vz p <= vz size / 2.
Definition in_st (st : option R * option R) (t : R) : Prop :=
  match fst st with None => True | Some m => m <= t end /\
  match snd st with None => True | Some m => t <= m end.
Definition exact_component (d : R) : Prop := d = 0 \/ tiny <= Rabs d.

Lemma slab_spec size o d st : 0 <= size -> exact_component d ->
  (slab size o d st = None -> forall t, ~ in_slab size o d t) /\
  (forall st', slab size o d st = Some st' -> forall t, in_st st' t <-> in_st st t /\ in_slab size o d t).
Proof.
  intros Hsz He. unfold slab. pose proof tiny_pos as Tp.
  destruct (Rltb_spec (Rabs d) tiny) as [Hs|Hs].
  - assert (d = 0) by (destruct He; [assumption|lra]). subst d.
    unfold in_slab. destruct (Rltb_spec o (- (1/2) * size)), (Rltb_spec (1/2 * size) o); simpl; split;
      try (intros _ t; rewrite Rmult_0_r; lra); try discriminate.
    intros st' E t. injection E as <-. rewrite Rmult_0_r. split; [intros H; split; [exact H|lra]|tauto].
  - assert (Hd : d <> 0) by (intros ->; rewrite Rabs_R0 in Hs; lra).
    split; [destruct (Rltb _ _); discriminate|].
    intros st' E t.
    assert (K : in_slab size o d t <->
      let t1 := (- (1/2) * size - o) * (1 / d) in let t2 := (1/2 * size - o) * (1 / d) in
      let '(u1, u2) := if Rltb t2 t1 then (t2, t1) else (t1, t2) in u1 <= t <= u2).
    { cbv zeta. set (t1 := (- (1/2) * size - o) * (1 / d)). set (t2 := (1/2 * size - o) * (1 / d)).
      assert (E1 : t1 * d = - (1/2) * size - o) by (unfold t1; field; exact Hd).
      assert (E2 : t2 * d = 1/2 * size - o) by (unfold t2; field; exact Hd).
      unfold in_slab. clearbody t1 t2.
      destruct (Rlt_le_dec d 0) as [Dn|Dp].
      - assert (A : o + t * d <= size / 2 <-> t2 <= t) by (split; nra).
        assert (B : - (size / 2) <= o + t * d <-> t <= t1) by (split; nra).
        destruct (Rltb_spec t2 t1) as [H21|H21]; [tauto|]. assert (t1 = t2) by nra.
        split; [|intros; assert (t1 = t) by lra; assert (t2 = t) by lra; split; [apply B|apply A]; lra].
        rewrite A, B. intros; lra.
      - assert (0 < d) by lra.
        assert (A : o + t * d <= size / 2 <-> t <= t2) by (split; nra).
        assert (B : - (size / 2) <= o + t * d <-> t1 <= t) by (split; nra).
        destruct (Rltb_spec t2 t1) as [H21|H21]; [exfalso; nra|tauto]. }
    rewrite K. cbv zeta. clear K.
    set (t1 := (- (1/2) * size - o) * (1 / d)) in *. set (t2 := (1/2 * size - o) * (1 / d)) in *.
    destruct (Rltb t2 t1); injection E as <-; unfold in_st; simpl;
      destruct (fst st), (snd st); rb; split; intros; repeat split; try tauto; try lra.
Qed.

Lemma box_interval_spec size o d : 0 <= vx size -> 0 <= vy size -> 0 <= vz size ->
  exact_component (vx d) -> exact_component (vy d) -> exact_component (vz d) ->
  match box_interval size o d with
  | None => forall t, ~ in_box size (at_ray o d t)
  | Some st => forall t, in_st st t <-> in_box size (at_ray o d t)
  end.
Proof.
  intros Sx Sy Sz Ex Ey Ez. unfold box_interval.
  assert (E : forall t, in_box size (at_ray o d t) <->
    in_slab (vx size) (vx o) (vx d) t /\ in_slab (vy size) (vy o) (vy d) t /\ in_slab (vz size) (vz o) (vz d) t)
    by (intros t; reflexivity).
  destruct (slab (vx size) (vx o) (vx d) (None, None)) as [s1|] eqn:E1.
  2:{ intros t. rewrite E. intros (H & _). exact (proj1 (slab_spec _ _ _ _ Sx Ex) E1 t H). }
  pose proof (proj2 (slab_spec _ _ _ _ Sx Ex) _ E1) as H1.
  destruct (slab (vy size) (vy o) (vy d) s1) as [s2|] eqn:E2.
  2:{ intros t. rewrite E. intros (_ & H & _). exact (proj1 (slab_spec _ _ _ _ Sy Ey) E2 t H). }
  pose proof (proj2 (slab_spec _ _ _ _ Sy Ey) _ E2) as H2.
  destruct (slab (vz size) (vz o) (vz d) s2) as [s3|] eqn:E3.
  2:{ intros t. rewrite E. intros (_ & _ & H). exact (proj1 (slab_spec _ _ _ _ Sz Ez) E3 t H). }
  pose proof (proj2 (slab_spec _ _ _ _ Sz Ez) _ E3) as H3.
  intros t. rewrite E, H3, H2, H1. unfold in_st; simpl. tauto.
Qed.

(** With some non-zero direction component both ends are finite. *)
Lemma slab_finite size o d st st' : slab size o d st = Some st' ->
  (exists m M, st = (Some m, Some M)) \/ tiny <= Rabs d -> exists m M, st' = (Some m, Some M).
Proof.
  unfold slab. destruct (Rltb_spec (Rabs d) tiny) as [H|H].
  - destruct (_ || _); [discriminate|]. injection 1 as <-. intros [K|K]; [exact K|lra].
  - destruct (Rltb _ _); injection 1 as <-; intros _; destruct st as [[m|] [M|]]; simpl; eauto.
Qed.
Lemma box_interval_finite size o d st : box_interval size o d = Some st ->
  tiny <= Rabs (vx d) \/ tiny <= Rabs (vy d) \/ tiny <= Rabs (vz d) ->
  exists m M, st = (Some m, Some M).
Proof.
  unfold box_interval. destruct (slab (vx size) _ _ _) as [s1|] eqn:E1; [|discriminate].
  destruct (slab (vy size) _ _ _) as [s2|] eqn:E2; [|discriminate]. intros E3 H.
  apply (slab_finite _ _ _ _ _ E3). destruct H as [H|[H|H]]; [| |right; exact H]; left.
  - apply (slab_finite _ _ _ _ _ E2). left. apply (slab_finite _ _ _ _ _ E1). right; exact H.
  - apply (slab_finite _ _ _ _ _ E2). right; exact H.
Qed.

(** ** Cylinder *)
Definition on_wall (length radius : R) (p : vec) : Prop :=
  vx p * vx p + vy p * vy p = radius * radius /\ - (length / 2) < vz p < length / 2.
Definition on_cap (length radius : R) (p : vec) : Prop :=
  vx p * vx p + vy p * vy p < radius * radius /\ (vz p = - (length / 2) \/ vz p = length / 2).
Definition on_rim (length radius : R) (p : vec) : Prop :=
  vx p * vx p + vy p * vy p = radius * radius /\ (vz p = - (length / 2) \/ vz p = length / 2).
Definition in_cylinder (length radius : R) (p : vec) : Prop :=
  vx p * vx p + vy p * vy p <= radius * radius /\ - (length / 2) <= vz p <= length / 2.

Lemma radial_quad o d t r : vx (at_ray o d t) * vx (at_ray o d t) + vy (at_ray o d t) * vy (at_ray o d t) = r * r <->
  (vx d * vx d + vy d * vy d) * t * t + 2 * (vx o * vx d + vy o * vy d) * t + (vx o * vx o + vy o * vy o - r * r) = 0.
Proof. unfold at_ray, vadd, vscale; simpl. split; intros; lra. Qed.

Lemma cyl_roots_in a b c t : 0 < a -> (In t (cyl_roots a b c) <-> a * t * t + b * t + c = 0).
Proof.
  intros Ha. unfold cyl_roots. cbv zeta. destruct (Reqb_spec a 0); [lra|].
  destruct (Rltb_spec (b * b - 4 * a * c) 0).
  - split; [intros []|]. intros E. exfalso. exact (quad_none a b c t Ha ltac:(assumption) E).
  - rewrite (quad_root a b c t Ha) by lra. simpl. split; intros; intuition.
Qed.

Lemma sqrt_lt_radius x r : 0 <= x -> 0 <= r -> (sqrt x < r <-> x < r * r).
Proof.
  intros Hx Hr. pose proof (sqrt_pos x). pose proof (sqrt_sqrt x Hx). split; intros; nra.
Qed.

Lemma sort_in (t : R) l : In t (sort_by (fun t => t) l) <-> In t l.
Proof.
  pose proof (sort_by_perm (fun t : R => t) l) as P. split; apply Permutation_in; [now symmetry|exact P].
Qed.

Lemma cylinder_ts_in length radius o d t : 0 < length -> 0 < radius ->
  (In t (ray_z_cylinder length radius o d) <->
   0 <= t /\ ((on_wall length radius (at_ray o d t) /\ (vx d <> 0 \/ vy d <> 0)) \/
              (on_cap length radius (at_ray o d t) /\ vz d <> 0))).
Proof.
  intros Hl Hr. unfold ray_z_cylinder. cbv zeta. rewrite sort_in, in_app_iff, !filter_In, andb_true_iff, !Rltb_true, !Rleb_true.
  replace (vx d ^ 2 + vy d ^ 2) with (vx d * vx d + vy d * vy d) by ring.
  replace (vx o ^ 2 + vy o ^ 2 - radius ^ 2) with (vx o * vx o + vy o * vy o - radius * radius) by ring.
  rewrite sqrt_lt_radius by (try lra; nra).
  set (p := at_ray o d t).
  replace (vx p ^ 2 + vy p ^ 2) with (vx p * vx p + vy p * vy p) by ring.
  assert (W : (In t (cyl_roots (vx d * vx d + vy d * vy d) (2 * (vx o * vx d + vy o * vy d)) (vx o * vx o + vy o * vy o - radius * radius))
               <-> vx p * vx p + vy p * vy p = radius * radius /\ (vx d <> 0 \/ vy d <> 0))).
  { destruct (Req_dec (vx d * vx d + vy d * vy d) 0) as [E|E].
    - assert (vx d = 0 /\ vy d = 0) as [Ex Ey] by (split; nra).
      unfold cyl_roots. rewrite E. destruct (Reqb_spec 0 0); [|lra]. split; [intros []|]. rewrite Ex, Ey. intros [_ [K|K]]; lra.
    - assert (0 < vx d * vx d + vy d * vy d) by nra.
      rewrite cyl_roots_in by assumption. unfold p. rewrite radial_quad. split; [|tauto].
      intros K. split; [exact K|]. destruct (Req_dec (vx d) 0); [|now left]. right. intros Ey. nra. }
  assert (Cc : In t (fdiv ((- (1 / 2 * length) - vz o) * -1) (- vz d) ++ fdiv (1 / 2 * length - vz o) (vz d))
               <-> (vz p = - (length / 2) \/ vz p = length / 2) /\ vz d <> 0).
  { rewrite in_app_iff. unfold fdiv, p, at_ray, vadd, vscale; simpl vz.
    destruct (Reqb_spec (- vz d) 0), (Reqb_spec (vz d) 0); try lra.
    - simpl. split; [tauto|]. intros [_ K]; contradiction.
    - simpl. split.
      + intros [[<-|[]]|[<-|[]]]; (split; [|assumption]); [left|right]; field; assumption.
      + intros [[K|K] _]; [left|right]; left.
        * replace ((- (1/2 * length) - vz o) * -1) with (- (t * vz d)) by lra. field. assumption.
        * replace (1/2 * length - vz o) with (t * vz d) by lra. field. assumption. }
  rewrite W, Cc. unfold on_wall, on_cap. fold p.
  assert (Z : - (1/2) * length < vz p /\ vz p < 1/2 * length <-> - (length / 2) < vz p < length / 2)
    by (split; intros; lra).
  rewrite Z. tauto.
Qed.

Lemma k_cylinder_in length radius o d t : 0 < length -> 0 < radius ->
  (vx d = 0 /\ vy d = 0 \/ tiny < vx d * vx d + vy d * vy d) -> (vz d = 0 \/ tiny < Rabs (vz d)) ->
  (In t (k_intersect_cylinder length radius o d) <->
   EPS_ZERO < t /\ ((on_wall length radius (at_ray o d t) /\ (vx d <> 0 \/ vy d <> 0)) \/
              ((on_cap length radius (at_ray o d t) \/ on_rim length radius (at_ray o d t)) /\ vz d <> 0))).
Proof.
  intros Hl Hr Ha Hz. pose proof tiny_pos as Tp. unfold k_intersect_cylinder. cbv zeta.
  rewrite filter_In, Rltb_true, in_app_iff.
  set (p := at_ray o d t).
  assert (W : In t (if Rltb tiny (vx d * vx d + vy d * vy d) then
      if Rleb 0 (2 * (vx o * vx d + vy o * vy d) * (2 * (vx o * vx d + vy o * vy d)) - 4 * (vx d * vx d + vy d * vy d) * (vx o * vx o + vy o * vy o - radius * radius))
      then filter (fun t => Rltb (- (1/2 * length)) (vz o + t * vz d) && Rltb (vz o + t * vz d) (1/2 * length))
         [(- (2 * (vx o * vx d + vy o * vy d)) - sqrt (2 * (vx o * vx d + vy o * vy d) * (2 * (vx o * vx d + vy o * vy d)) - 4 * (vx d * vx d + vy d * vy d) * (vx o * vx o + vy o * vy o - radius * radius))) / (2 * (vx d * vx d + vy d * vy d));
          (- (2 * (vx o * vx d + vy o * vy d)) + sqrt (2 * (vx o * vx d + vy o * vy d) * (2 * (vx o * vx d + vy o * vy d)) - 4 * (vx d * vx d + vy d * vy d) * (vx o * vx o + vy o * vy o - radius * radius))) / (2 * (vx d * vx d + vy d * vy d))]
      else [] else []) <-> on_wall length radius p /\ (vx d <> 0 \/ vy d <> 0)).
  { destruct Ha as [[Ex Ey]|Ha].
    - rewrite Ex, Ey. replace (Rltb tiny (0 * 0 + 0 * 0)) with false by (symmetry; apply Rltb_false; lra).
      split; [intros []|]. intros [_ [K|K]]; lra.
    - replace (Rltb tiny (vx d * vx d + vy d * vy d)) with true by (symmetry; apply Rltb_true; exact Ha).
      assert (Hp : 0 < vx d * vx d + vy d * vy d) by lra.
      assert (Hnz : vx d <> 0 \/ vy d <> 0).
      { destruct (Req_dec (vx d) 0); [|now left]. right. intros Ey. nra. }
      unfold on_wall, p. rewrite radial_quad.
      set (a := vx d * vx d + vy d * vy d) in *. set (b := 2 * (vx o * vx d + vy o * vy d)) in *.
      set (c := vx o * vx o + vy o * vy o - radius * radius) in *.
      destruct (Rleb_spec 0 (b * b - 4 * a * c)) as [Hd|Hd].
      + rewrite filter_In, andb_true_iff, !Rltb_true, (quad_root a b c t Hp Hd).
        unfold at_ray, vadd, vscale; simpl. split; [intros [K1 K2]|intros [[K1 K2] K3]]; intuition lra.
      + split; [intros []|]. intros [[K _] _]. exfalso. exact (quad_none a b c t Hp ltac:(lra) K). }
  rewrite W.
  assert (Cc : In t (if Rltb tiny (Rabs (vz d)) then
      filter (fun t => Rleb ((vx o + t * vx d) * (vx o + t * vx d) + (vy o + t * vy d) * (vy o + t * vy d)) (radius * radius))
        [(- (1/2 * length) - vz o) / vz d; (1/2 * length - vz o) / vz d] else [])
    <-> (on_cap length radius p \/ on_rim length radius p) /\ vz d <> 0).
  { destruct Hz as [Ez|Hz].
    - rewrite Ez, Rabs_R0. replace (Rltb tiny 0) with false by (symmetry; apply Rltb_false; lra).
      split; [intros []|]. intros [_ K]; lra.
    - replace (Rltb tiny (Rabs (vz d))) with true by (symmetry; apply Rltb_true; exact Hz).
      assert (Hnz : vz d <> 0) by (intros E; rewrite E, Rabs_R0 in Hz; lra).
      rewrite filter_In, Rleb_true. unfold on_cap, on_rim, p, at_ray, vadd, vscale; simpl vx; simpl vy; simpl vz.
      assert (In t [(- (1/2 * length) - vz o) / vz d; (1/2 * length - vz o) / vz d] <->
              (vz o + t * vz d = - (length / 2) \/ vz o + t * vz d = length / 2)) as ->.
      { simpl. split.
        - intros [<-|[<-|[]]]; [left|right]; field; exact Hnz.
        - intros [K|K]; [left|right; left].
          + replace (- (1/2 * length) - vz o) with (t * vz d) by lra. field. exact Hnz.
          + replace (1/2 * length - vz o) with (t * vz d) by lra. field. exact Hnz. }
      split.
      + intros [K1 K2]. split; [|exact Hnz]. destruct (Rle_lt_or_eq_dec _ _ K2); [left|right]; auto.
      + intros [[[K1 K2]|[K1 K2]] _]; (split; [exact K2|lra]). }
  rewrite Cc. tauto.
Qed.

(** ** Box faces *)
Lemma dist_axis p q : (vy p = vy q -> vz p = vz q -> distance_between p q = Rabs (vx p - vx q)) /\
  (vx p = vx q -> vz p = vz q -> distance_between p q = Rabs (vy p - vy q)) /\
  (vx p = vx q -> vy p = vy q -> distance_between p q = Rabs (vz p - vz q)).
Proof.
  unfold distance_between, norm, vsub, dot; simpl. repeat split; intros E1 E2; rewrite E1, E2.
  - rewrite <- sqrt_Rsqr_abs. f_equal. unfold Rsqr. ring.
  - rewrite <- sqrt_Rsqr_abs. f_equal. unfold Rsqr. ring.
  - rewrite <- sqrt_Rsqr_abs. f_equal. unfold Rsqr. ring.
Qed.

(** ** Counting *)
Lemma filter_perm {A} (f : A -> bool) l l' : Permutation l l' -> Permutation (filter f l) (filter f l').
Proof.
  induction 1; simpl; auto.
  - destruct (f x); auto.
  - destruct (f x), (f y); auto. apply perm_swap.
  - eapply perm_trans; eauto.
Qed.
Lemma filter_filter {A} (f g : A -> bool) l : filter f (filter g l) = filter (fun x => g x && f x) l.
Proof. induction l as [|x l IH]; simpl; [reflexivity|]. destruct (g x); simpl; [destruct (f x)|]; rewrite IH; reflexivity. Qed.
Lemma filter_ext_in_b {A} (f g : A -> bool) l : (forall x, In x l -> f x = g x) -> filter f l = filter g l.
Proof. induction l as [|x l IH]; simpl; intros H; [reflexivity|]. rewrite H, IH; auto. Qed.
Lemma filter_app_b {A} (f : A -> bool) l l' : filter f (l ++ l') = filter f l ++ filter f l'.
Proof. induction l as [|x l IH]; simpl; [reflexivity|]. destruct (f x); rewrite IH; reflexivity. Qed.

Lemma eq_perm {A} (a b : list A) : a = b -> Permutation a b.
Proof. intros ->. apply Permutation_refl. Qed.
Lemma bool_eq_iff (a b : bool) : (a = true <-> b = true) -> a = b.
Proof. destruct a, b; intuition. Qed.

(** Python's cylinder and the kernel's, unless the ray meets a rim. *)
Lemma cylinder_engines length radius o d : 0 < length -> 0 < radius ->
  (vx d = 0 /\ vy d = 0 \/ tiny < vx d * vx d + vy d * vy d) -> (vz d = 0 \/ tiny < Rabs (vz d)) ->
  (forall t, EPS_ZERO < t -> ~ on_rim length radius (at_ray o d t)) ->
  Permutation (filter (fun t => Rltb EPS_ZERO t) (ray_z_cylinder length radius o d))
              (k_intersect_cylinder length radius o d).
Proof.
  intros Hl Hr Ha Hz Hrim. pose proof tiny_pos as Tp. pose proof EPS_pos as Ep.
  unfold ray_z_cylinder. cbv zeta.
  eapply perm_trans; [apply filter_perm, Permutation_sym, sort_by_perm|].
  unfold k_intersect_cylinder. cbv zeta. remember (fun t => Rltb EPS_ZERO t) as f eqn:Ef.
  rewrite !(filter_app_b f). apply eq_perm.
  match goal with |- ?a ++ ?b = ?c ++ ?d => enough (a = c /\ b = d) as [K1 K2] by (rewrite K1, K2; reflexivity) end.
  subst f. split.
  - replace (vx d ^ 2 + vy d ^ 2) with (vx d * vx d + vy d * vy d) by ring.
    replace (vx o ^ 2 + vy o ^ 2 - radius ^ 2) with (vx o * vx o + vy o * vy o - radius * radius) by ring.
    set (a := vx d * vx d + vy d * vy d) in *. set (b := 2 * (vx o * vx d + vy o * vy d)) in *.
    set (c := vx o * vx o + vy o * vy o - radius * radius) in *.
    unfold cyl_roots. cbv zeta. destruct Ha as [[Ex Ey]|Ha].
    + replace a with 0 by (unfold a; rewrite Ex, Ey; ring).
      destruct (Reqb_spec 0 0); [|lra]. destruct (Rltb_spec tiny 0); [lra|]. reflexivity.
    + destruct (Reqb_spec a 0); [lra|]. destruct (Rltb_spec tiny a); [|lra].
      destruct (Rltb_spec (b * b - 4 * a * c) 0), (Rleb_spec 0 (b * b - 4 * a * c)); try lra; [reflexivity|].
      repeat rewrite filter_filter. apply filter_ext_in_b. intros t _. apply bool_eq_iff.
      rewrite !andb_true_iff, !Rltb_true, Rleb_true. unfold at_ray, vadd, vscale; simpl. split; intros; lra.
  - destruct Hz as [Ez|Hz].
    + rewrite Ez, Rabs_R0. unfold fdiv. destruct (Reqb_spec (- 0) 0); [|lra]. destruct (Reqb_spec 0 0); [|lra].
      destruct (Rltb_spec tiny 0); [lra|]. reflexivity.
    + assert (Hnz : vz d <> 0) by (intros E; rewrite E, Rabs_R0 in Hz; lra).
      unfold fdiv. destruct (Reqb_spec (- vz d) 0); [lra|]. destruct (Reqb_spec (vz d) 0); [lra|].
      destruct (Rltb_spec tiny (Rabs (vz d))); [|lra].
      replace ((- (1 / 2 * length) - vz o) * -1 / - vz d) with ((- (1 / 2 * length) - vz o) / vz d) by (field; exact Hnz).
      simpl app. repeat rewrite filter_filter. apply filter_ext_in_b. intros t Ht. apply bool_eq_iff.
      rewrite !andb_true_iff, !Rltb_true, !Rleb_true.
      set (p := at_ray o d t).
      replace (vx p ^ 2 + vy p ^ 2) with (vx p * vx p + vy p * vy p) by ring.
      rewrite sqrt_lt_radius by (try lra; nra).
      assert (Hcap : vz p = - (length / 2) \/ vz p = length / 2).
      { unfold p, at_ray, vadd, vscale; simpl. destruct Ht as [<-|[<-|[]]]; [left|right]; field; exact Hnz. }
      change (vx o + t * vx d) with (vx p). change (vy o + t * vy d) with (vy p).
      split; [intros; lra|]. intros [K1 K2]. split; [lra|]. split; [|exact K2].
      destruct (Rle_lt_or_eq_dec _ _ K1) as [L|E]; [exact L|]. exfalso. apply (Hrim t K2). split; assumption.
Qed.

(** Kernel cylinder: number of hits ahead, by cases on the order of the four candidates. *)
Definition cnt (b : bool) : nat := if b then 1%nat else 0%nat.
Definition wall_ok (length : R) (o d : vec) (t : R) : bool :=
  Rltb (- (1/2 * length)) (vz o + t * vz d) && Rltb (vz o + t * vz d) (1/2 * length) && Rltb EPS_ZERO t.
Definition cap_ok (radius : R) (o d : vec) (t : R) : bool :=
  Rleb ((vx o + t * vx d) * (vx o + t * vx d) + (vy o + t * vy d) * (vy o + t * vy d)) (radius * radius) && Rltb EPS_ZERO t.

Lemma k_cylinder_length length radius o d a b c :
  a = vx d * vx d + vy d * vy d -> b = 2 * (vx o * vx d + vy o * vy d) ->
  c = vx o * vx o + vy o * vy o - radius * radius ->
  List.length (k_intersect_cylinder length radius o d) =
  Nat.add
   (if Rltb tiny a then if Rleb 0 (b * b - 4 * a * c) then
        Nat.add (cnt (wall_ok length o d ((- b - sqrt (b * b - 4 * a * c)) / (2 * a))))
                (cnt (wall_ok length o d ((- b + sqrt (b * b - 4 * a * c)) / (2 * a))))
      else 0%nat else 0%nat)
   (if Rltb tiny (Rabs (vz d)) then
      Nat.add (cnt (cap_ok radius o d ((- (1/2 * length) - vz o) / vz d)))
              (cnt (cap_ok radius o d ((1/2 * length - vz o) / vz d)))
    else 0%nat).
Proof.
  intros -> -> ->. unfold k_intersect_cylinder. cbv zeta. rewrite filter_app_b, app_length. f_equal.
  - destruct (Rltb tiny _); [|reflexivity]. destruct (Rleb 0 _); [|reflexivity].
    rewrite filter_filter. simpl. unfold wall_ok. destruct (_ && _ && _), (_ && _ && _); reflexivity.
  - destruct (Rltb tiny _); [|reflexivity].
    rewrite filter_filter. simpl. unfold cap_ok. destruct (Rleb _ _ && _), (Rleb _ _ && _); reflexivity.
Qed.

Definition b4 (E w1 w2 c1 c2 : R) : nat :=
  Nat.add (Nat.add (cnt (Rltb c1 w1 && Rltb w1 c2 && Rltb E w1)) (cnt (Rltb c1 w2 && Rltb w2 c2 && Rltb E w2)))
          (Nat.add (cnt (Rleb w1 c1 && Rleb c1 w2 && Rltb E c1)) (cnt (Rleb w1 c2 && Rleb c2 w2 && Rltb E c2))).

(** Like [rb] but dropping impossible branches at once. *)
Ltac rbp :=
  repeat (match goal with
  | |- context [Rltb ?x ?y] => destruct (Rltb_spec x y); try (exfalso; lra)
  | |- context [Rleb ?x ?y] => destruct (Rleb_spec x y); try (exfalso; lra)
  end).

Lemma parity_core E w1 w2 c1 c2 : 0 <= E -> w1 <= w2 -> c1 < c2 ->
  let inside t := w1 <= t <= w2 /\ c1 <= t <= c2 in
  (forall t, E < t -> (t = w1 \/ t = w2) -> (t = c1 \/ t = c2) -> False) ->
  (inside 0 -> (exists t, E < t /\ inside t) -> b4 E w1 w2 c1 c2 = 1%nat) /\
  ((forall t, 0 <= t <= E -> ~ inside t) -> b4 E w1 w2 c1 c2 = 0%nat \/ b4 E w1 w2 c1 c2 = 2%nat).
Proof.
  intros HE Hw Hc inside Hrim. unfold inside, b4. split.
  - intros H0 (t & Ht & H1).
    destruct (Rlt_le_dec w2 c2).
    + rdec. rewrite ?andb_false_r. reflexivity.
    + rdec. rewrite ?andb_false_r. reflexivity.
  - intros Hout.
    destruct (Rlt_le_dec w2 c1) as [A|A]; [left; rdec; rewrite ?andb_false_r; rbp; simpl; try reflexivity; exfalso; lra|].
    destruct (Rlt_le_dec c2 w1) as [B|B]; [left; rbp; simpl; try reflexivity; exfalso; lra|].
    assert (M : Rmin w2 c2 < 0 \/ E < Rmax w1 c1).
    { destruct (Rlt_le_dec (Rmin w2 c2) 0) as [|P]; [now left|]. right.
      destruct (Rlt_le_dec E (Rmax w1 c1)) as [|Q]; [assumption|exfalso].
      apply (Hout (Rmax 0 (Rmax w1 c1))).
      - unfold Rmax in *. destruct (Rle_dec w1 c1), (Rle_dec 0 _); lra.
      - unfold Rmax, Rmin in *. destruct (Rle_dec w1 c1), (Rle_dec w2 c2), (Rle_dec 0 _); lra. }
    unfold Rmin, Rmax in M. destruct (Rle_dec w2 c2), (Rle_dec w1 c1).
    + destruct M as [M|M]; [left; rbp; simpl; try reflexivity; exfalso; lra|].
      right. assert (c1 <> w2) by (intros E1; apply (Hrim c1); auto).
      destruct (Rle_lt_or_eq_dec w2 c2 ltac:(lra)).
      * rbp; simpl; try reflexivity; exfalso; lra.
      * subst c2. exfalso. apply (Hrim w2); auto. lra.
    + destruct M as [M|M]; [left; rbp; simpl; try reflexivity; exfalso; lra|].
      right. assert (w1 <> c2) by (intros E1; apply (Hrim w1); auto).
      destruct (Rle_lt_or_eq_dec w2 c2 ltac:(lra)).
      * rbp; simpl; try reflexivity; exfalso; lra.
      * subst c2. exfalso. apply (Hrim w2); auto. lra.
    + destruct M as [M|M]; [left; rbp; simpl; try reflexivity; exfalso; lra|].
      right. rbp; simpl; try reflexivity; exfalso; lra.
    + destruct M as [M|M]; [left; rbp; simpl; try reflexivity; exfalso; lra|].
      right. assert (w1 <> c2) by (intros E1; apply (Hrim w1); auto).
      rbp; simpl; try reflexivity; exfalso; lra.
Qed.

Lemma quad_le a b c t : 0 < a -> 0 <= b * b - 4 * a * c ->
  (a * t * t + b * t + c <= 0 <->
   (- b - sqrt (b * b - 4 * a * c)) / (2 * a) <= t <= (- b + sqrt (b * b - 4 * a * c)) / (2 * a)).
Proof.
  intros Ha Hd. set (q := sqrt (b * b - 4 * a * c)).
  assert (Hq : q * q = b * b - 4 * a * c) by (apply sqrt_sqrt; exact Hd).
  assert (Hq0 : 0 <= q) by apply sqrt_pos.
  set (w1 := (- b - q) / (2 * a)). set (w2 := (- b + q) / (2 * a)).
  assert (E1 : 2 * a * w1 = - b - q) by (unfold w1; field; lra).
  assert (E2 : 2 * a * w2 = - b + q) by (unfold w2; field; lra).
  assert (F : 4 * a * (a * t * t + b * t + c) = (2 * a * (t - w1)) * (2 * a * (t - w2))).
  { replace (2 * a * (t - w1)) with (2 * a * t + b + q) by lra.
    replace (2 * a * (t - w2)) with (2 * a * t + b - q) by lra. nra. }
  assert (W : w1 <= w2) by nra. clearbody w1 w2.
  split.
  - intros H. assert (G : (t - w1) * (t - w2) <= 0).
    { assert (4 * a * (a * t * t + b * t + c) <= 0) by nra.
      assert (4 * a * a * ((t - w1) * (t - w2)) <= 0) by nra.
      assert (0 < 4 * a * a) by nra. nra. }
    split; nra.
  - intros [H1 H2]. assert (G : (t - w1) * (t - w2) <= 0) by nra.
    assert (4 * a * a * ((t - w1) * (t - w2)) <= 0) by (assert (0 < 4 * a * a) by nra; nra).
    assert (4 * a * (a * t * t + b * t + c) <= 0) by nra. nra.
Qed.

Lemma k_cylinder_parity length radius o d : 0 < length -> 0 < radius -> d <> vzero ->
  (vx d = 0 /\ vy d = 0 \/ tiny < vx d * vx d + vy d * vy d) -> (vz d = 0 \/ tiny < Rabs (vz d)) ->
  (forall t, EPS_ZERO < t -> ~ on_rim length radius (at_ray o d t)) ->
  (in_cylinder length radius o -> (exists t, EPS_ZERO < t /\ in_cylinder length radius (at_ray o d t)) ->
     List.length (k_intersect_cylinder length radius o d) = 1%nat) /\
  ((forall t, 0 <= t <= EPS_ZERO -> ~ in_cylinder length radius (at_ray o d t)) ->
     List.length (k_intersect_cylinder length radius o d) = 0%nat \/
     List.length (k_intersect_cylinder length radius o d) = 2%nat).
Proof.
  intros Hl Hr Hd Ha Hz Hrim. pose proof tiny_pos as Tp. pose proof EPS_pos as Ep.
  set (a := vx d * vx d + vy d * vy d). set (b := 2 * (vx o * vx d + vy o * vy d)).
  set (c := vx o * vx o + vy o * vy o - radius * radius).
  rewrite (k_cylinder_length length radius o d a b c eq_refl eq_refl eq_refl).
  assert (Hin : forall t, in_cylinder length radius (at_ray o d t) <->
     a * t * t + b * t + c <= 0 /\ - (length / 2) <= vz o + t * vz d <= length / 2).
  { intros t. unfold in_cylinder, at_ray, vadd, vscale, a, b, c; simpl. split; intros; lra. }
  assert (Hrim' : forall t, EPS_ZERO < t -> a * t * t + b * t + c = 0 ->
     vz o + t * vz d = - (length / 2) \/ vz o + t * vz d = length / 2 -> False).
  { intros t Ht E1 E2. apply (Hrim t Ht). split; [apply radial_quad; exact E1|exact E2]. }
  assert (H00 : in_cylinder length radius o -> in_cylinder length radius (at_ray o d 0)).
  { unfold in_cylinder, at_ray, vadd, vscale; simpl. rewrite !Rmult_0_l, !Rplus_0_r. auto. }
  assert (Hcap : forall t, cap_ok radius o d t = Rleb (a * t * t + b * t + c) 0 && Rltb EPS_ZERO t).
  { intros t. unfold cap_ok. f_equal. apply bool_eq_iff. rewrite !Rleb_true. unfold a, b, c. split; intros; lra. }
  destruct Ha as [[Ex Ey]|Ha].
  - (* vertical ray *)
    assert (A0 : a = 0) by (unfold a; rewrite Ex, Ey; ring).
    assert (B0 : b = 0) by (unfold b; rewrite Ex, Ey; ring).
    assert (Zn : vz d <> 0) by (intros E; apply Hd; apply vec_eq; simpl; assumption).
    destruct Hz as [Hz|Hz]; [contradiction|].
    rewrite !Hcap. setoid_rewrite Hin in H00. setoid_rewrite Hin. rewrite A0, B0 in *.
    destruct (Rltb_spec tiny 0); [lra|]. destruct (Rltb_spec tiny (Rabs (vz d))); [|lra].
    set (u1 := (- (1/2 * length) - vz o) / vz d). set (u2 := (1/2 * length - vz o) / vz d).
    assert (E1 : u1 * vz d = - (length / 2) - vz o) by (unfold u1; field; exact Zn).
    assert (E2 : u2 * vz d = length / 2 - vz o) by (unfold u2; field; exact Zn).
    clearbody u1 u2.
    assert (Hbox : forall t, - (length / 2) <= vz o + t * vz d <= length / 2 <->
       (vz d > 0 /\ u1 <= t <= u2) \/ (vz d < 0 /\ u2 <= t <= u1)).
    { intros t. destruct (Rlt_le_dec (vz d) 0); split; intros K.
      - right. split; [assumption|]. split; nra.
      - destruct K as [K|K]; [lra|]. split; nra.
      - left. split; [lra|]. split; nra.
      - destruct K as [K|K]; [|lra]. split; nra. }
    setoid_rewrite Hbox.
    replace (0 * u1 * u1 + 0 * u1 + c) with c by ring. replace (0 * u2 * u2 + 0 * u2 + c) with c by ring.
    split.
    + intros Hin0 (t & Ht & K1 & K2). destruct (H00 Hin0) as [K3 K4]. apply Hbox in K4.
      rbp; simpl; try reflexivity; exfalso; lra.
    + intros Hout.
      destruct (Rle_lt_dec c 0) as [C|C]; [|left; rbp; reflexivity].
      assert (M : forall t, 0 <= t <= EPS_ZERO -> ~ ((vz d > 0 /\ u1 <= t <= u2) \/ (vz d < 0 /\ u2 <= t <= u1))).
      { intros t Ht K. apply (Hout t Ht). split; [lra|exact K]. }
      pose proof (M 0 ltac:(lra)) as M0. pose proof (M u1) as M1. pose proof (M u2) as M2.
      assert (u1 <> u2) by (intros ->; lra).
      assert (vz d > 0 /\ u1 < u2 \/ vz d < 0 /\ u2 < u1) as [[? ?]|[? ?]].
      { destruct (Rlt_le_dec (vz d) 0); [right|left]; split; try lra; nra. }
      * destruct (Rlt_le_dec EPS_ZERO u1); [right; rbp; reflexivity|].
        destruct (Rlt_le_dec u2 0); [left; rbp; reflexivity|]. exfalso.
        destruct (Rle_lt_dec 0 u1); [apply M1; [lra|left; lra]|apply M0; left; lra].
      * destruct (Rlt_le_dec EPS_ZERO u2); [right; rbp; reflexivity|].
        destruct (Rlt_le_dec u1 0); [left; rbp; reflexivity|]. exfalso.
        destruct (Rle_lt_dec 0 u2); [apply M2; [lra|right; lra]|apply M0; right; lra].
  - fold a in Ha. destruct (Rltb_spec tiny a) as [_|]; [|lra].
    assert (Ap : 0 < a) by lra.
    destruct (Rleb_spec 0 (b * b - 4 * a * c)) as [Hdisc|Hdisc].
    2:{ assert (N : forall t, ~ a * t * t + b * t + c <= 0).
        { intros t K. pose proof (Rle_0_sqr (2 * a * t + b)). unfold Rsqr in *. nra. }
        rewrite !Hcap. setoid_rewrite Hin. split; [intros _ (t & _ & K & _); destruct (N t K)|].
        intros _. left. simpl. destruct (Rltb _ _); [|reflexivity].
        assert (F : forall t, Rleb (a * t * t + b * t + c) 0 = false).
        { intros t. apply Rleb_false. apply Rnot_le_lt. apply N. }
        rewrite !F. reflexivity. }
    pose proof (quad_order a b c Ap) as Ho.
    assert (Hq : forall t, a * t * t + b * t + c <= 0 <->
       (- b - sqrt (b * b - 4 * a * c)) / (2 * a) <= t <= (- b + sqrt (b * b - 4 * a * c)) / (2 * a))
      by (intros t; now apply quad_le).
    assert (Hq0 : forall t, a * t * t + b * t + c = 0 <->
       t = (- b - sqrt (b * b - 4 * a * c)) / (2 * a) \/ t = (- b + sqrt (b * b - 4 * a * c)) / (2 * a))
      by (intros t; now apply quad_root).
    set (w1 := (- b - _) / _) in *. set (w2 := (- b + _) / _) in *. clearbody w1 w2.
    destruct Hz as [Ez|Hz].
    + (* horizontal ray *)
      rewrite Ez, Rabs_R0 in *. destruct (Rltb_spec tiny 0); [lra|].
      assert (W : forall t, wall_ok length o d t = Rltb (- (length / 2)) (vz o) && Rltb (vz o) (length / 2) && Rltb EPS_ZERO t).
      { intros t. unfold wall_ok. rewrite Ez. f_equal. f_equal; apply bool_eq_iff; rewrite !Rltb_true; lra. }
      rewrite !W. setoid_rewrite Hin. setoid_rewrite Hq.
      assert (Hr2 : EPS_ZERO < w2 -> vz o <> - (length / 2) /\ vz o <> length / 2).
      { intros L. split; intros K; apply (Hrim' w2 L); try (apply Hq0; now right); rewrite Rmult_0_r; [left|right]; lra. }
      split.
      * intros H0 (t & Ht & K1 & K2). specialize (H00 H0). apply Hin in H00. rewrite Hq, Rmult_0_r in H00.
        rewrite Rmult_0_r in K2. specialize (Hr2 ltac:(lra)).
        assert (- (length / 2) < vz o < length / 2) by (destruct Hr2; split; lra).
        rdec. reflexivity.
      * intros Hout.
        destruct (Rlt_le_dec (- (length / 2)) (vz o)); [|left; rdec; reflexivity].
        destruct (Rlt_le_dec (vz o) (length / 2)); [|left; rdec; reflexivity].
        rdec. simpl.
        pose proof (Hout 0 ltac:(lra)) as O1. pose proof (Hout w1) as O2. rewrite Rmult_0_r in O1, O2.
        destruct (Rlt_le_dec EPS_ZERO w1); [right; rdec; reflexivity|].
        destruct (Rlt_le_dec w2 0); [left; rdec; reflexivity|]. exfalso.
        destruct (Rle_lt_dec 0 w1); [apply O2; [lra|split; lra]|apply O1; split; lra].
    + assert (Zn : vz d <> 0) by (intros E; rewrite E, Rabs_R0 in Hz; lra).
      destruct (Rltb_spec tiny (Rabs (vz d))); [|lra].
      set (u1 := (- (1/2 * length) - vz o) / vz d). set (u2 := (1/2 * length - vz o) / vz d).
      assert (E1 : u1 * vz d = - (length / 2) - vz o) by (unfold u1; field; exact Zn).
      assert (E2 : u2 * vz d = length / 2 - vz o) by (unfold u2; field; exact Zn).
      clearbody u1 u2. rewrite !Hcap.
      assert (G : exists c1 c2, c1 < c2 /\
         (forall t, - (length / 2) <= vz o + t * vz d <= length / 2 <-> c1 <= t <= c2) /\
         (forall t, wall_ok length o d t = Rltb c1 t && Rltb t c2 && Rltb EPS_ZERO t) /\
         (forall t, (t = c1 \/ t = c2) -> vz o + t * vz d = - (length / 2) \/ vz o + t * vz d = length / 2) /\
         (c1 = u1 /\ c2 = u2 \/ c1 = u2 /\ c2 = u1)).
      { destruct (Rlt_le_dec (vz d) 0) as [Dn|Dp].
        - exists u2, u1. split; [nra|]. split; [intros t; split; intros; split; nra|]. split; [|split; [|auto]].
          + intros t. unfold wall_ok. f_equal. rewrite andb_comm.
            f_equal; apply bool_eq_iff; rewrite !Rltb_true; split; intros; nra.
          + intros t [->| ->]; [right|left]; lra.
        - exists u1, u2. split; [nra|]. split; [intros t; split; intros; split; nra|]. split; [|split; [|auto]].
          + intros t. unfold wall_ok. f_equal.
            f_equal; apply bool_eq_iff; rewrite !Rltb_true; split; intros; nra.
          + intros t [->| ->]; [left|right]; lra. }
      destruct G as (c1 & c2 & Hc & Hcz & Hw & Hcr & Hu).
      assert (B4 : Nat.add (Nat.add (cnt (wall_ok length o d w1)) (cnt (wall_ok length o d w2)))
           (Nat.add (cnt (Rleb (a * u1 * u1 + b * u1 + c) 0 && Rltb EPS_ZERO u1)) (cnt (Rleb (a * u2 * u2 + b * u2 + c) 0 && Rltb EPS_ZERO u2)))
         = b4 EPS_ZERO w1 w2 c1 c2).
      { assert (Q : forall t, Rleb (a * t * t + b * t + c) 0 = Rleb w1 t && Rleb t w2).
        { intros t. apply bool_eq_iff. rewrite andb_true_iff, !Rleb_true. apply Hq. }
        unfold b4. rewrite !Hw, !Q. destruct Hu as [[-> ->]|[-> ->]]; [reflexivity|]. f_equal. apply Nat.add_comm. }
      rewrite B4.
      destruct (parity_core EPS_ZERO w1 w2 c1 c2 ltac:(lra) Ho Hc) as [P1 P2].
      { intros t Ht Kw Kc. apply (Hrim' t Ht); [now apply Hq0|now apply Hcr]. }
      assert (Hin2 : forall t, in_cylinder length radius (at_ray o d t) <-> w1 <= t <= w2 /\ c1 <= t <= c2).
      { intros t. rewrite Hin, Hq, Hcz. reflexivity. }
      split.
      * intros H0 (t & Ht & K). apply P1; [apply Hin2, H00, H0|]. exists t. split; [exact Ht|now apply Hin2].
      * intros Hout. apply P2. intros t Ht K. apply (Hout t Ht). now apply Hin2.
Qed.
