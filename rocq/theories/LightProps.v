(** Properties C106-C109: rays leaving light sources. *)
From Coq Require Import Reals Lra Psatz List Bool Arith Lia.
From Verif Require Import Base Vec DistModel DistProps OpticsProofs PhaseModel PhaseProofs PhaseProps TransformModel TracerModel StreamModel StreamProps LightModel.
Import ListNotations.
Open Scope R_scope.

(** ** C106 Both engines emit the same rays *)
(** emit.py switches to isotropic emission below 1e-12 *)
Definition regular_light (l : light) : Prop :=
  match l_direction l with DHenyeyGreenstein g => / 10 ^ 12 <= Rabs g | _ => True end.

Lemma same_wavelength w u : forall x, call_wavelength w u = Some x ->
  match w with WNumber | WCustom _ => True | _ => e_wavelength w u = Some (Some x) end.
Proof. destruct w as [|nm|[d|]| |f]; simpl; intros x H; try discriminate H; auto; now rewrite H. Qed.
Lemma same_position p u : forall x, call_position p u = Some x ->
  match p with PCustom _ => True | _ => e_position p u = Some x end.
Proof. destruct p; simpl; auto. Qed.
Lemma same_direction d u : match d with DHenyeyGreenstein g => / 10 ^ 12 <= Rabs g | _ => True end ->
  forall x, call_direction d u = Some x -> match d with DCustom _ => True | _ => e_direction d u = Some x end.
Proof.
  destruct d as [| | |t|g|f]; simpl; auto; intros Hg x H.
  - f_equal. now destruct (C42_engines_agree t (l_d1 u) (l_d2 u) x H) as (_ & E & _).
  - f_equal. exact (C43_bundle_henyey_greenstein _ _ _ _ _ Hg H).
Qed.
Lemma row_times_transpose v m : vmat v (mtrans m) = mvec m v.
Proof. unfold vmat. f_equal. destruct m as [[a b c] [d e f] [g h i]]. reflexivity. Qed.
Lemma same_ray n u r : regular_light (ln_light n) -> node_ray n u = Some r -> e_ray n u = Some r.
Proof.
  intros Hreg H. pose proof H as H0. unfold node_ray, light_ray in H.
  unfold e_ray. destruct n as [[w p d name] g]; simpl in *. unfold regular_light in Hreg; simpl in Hreg.
  destruct (call_wavelength w u) as [x|] eqn:Ew; [|discriminate].
  destruct (call_position p u) as [q|] eqn:Ep; [|discriminate].
  destruct (call_direction d u) as [v|] eqn:Ed; [|discriminate].
  pose proof (same_wavelength _ _ _ Ew) as Fw. pose proof (same_position _ _ _ Ep) as Fp. pose proof (same_direction _ _ Hreg _ Ed) as Fd.
  assert (Ew' : e_wavelength w u = Some (Some x) \/ e_wavelength w u = None) by (destruct w as [| |[|]| |]; auto).
  assert (Ep' : e_position p u = Some q \/ e_position p u = None) by (destruct p; auto).
  assert (Ed' : e_direction d u = Some v \/ e_direction d u = None) by (destruct d; auto).
  destruct Ew' as [ -> | -> ]; [|exact H0]. destruct Ep' as [ -> | -> ]; [|exact H0]. destruct Ed' as [ -> | -> ]; [|exact H0].
  rewrite !row_times_transpose. exact H.
Qed.

(** Row i of the bundle is ray i of Scene.emit, when each light uses the same draws for its
    first, second, ... ray. *)
Theorem C106_same_rays_partial : forall lights u num_rays i r,
  (forall n, In n lights -> regular_light (ln_light n)) -> (i < num_rays)%nat ->
  scene_ray lights (fun i => u (i mod length lights) (i / length lights))%nat i = Some r ->
  bundle_ray lights u num_rays i = Some r.
Proof.
  intros lights u num i r Hreg Hi H. unfold scene_ray in H. unfold bundle_ray.
  destruct (Nat.eq_dec (length lights) 0) as [E|E]; [unfold scene_emit_light in H; rewrite E in H; discriminate|].
  destruct (C16_round_robin (length lights) num ltac:(lia)) as (_ & _ & Hrr). destruct (Hrr i Hi) as [ -> E2 ]. rewrite E2 in H.
  destruct (nth_error lights (i mod length lights)) as [n|] eqn:En; [|discriminate].
  apply same_ray; [|exact H]. apply Hreg. eapply nth_error_In; eauto.
Qed.
Print Assumptions C106_same_rays_partial.

(** Below 1e-12 the asymmetry makes no difference to the bundle: with the draws of the isotropic
    branch of the Python function (which uses it below EPS_ZERO) it emits the same direction. *)
Theorem C106_nearly_isotropic_partial : forall g p u2 u3 d, g <> 0 -> Rabs g < EPS_ZERO ->
  henyey_greenstein g p u2 u3 = Some d -> e_henyey_greenstein g u2 u3 = d.
Proof.
  intros g p u2 u3 d Hg Hs H. unfold henyey_greenstein in H.
  destruct (Reqb _ _); [discriminate|]. destruct (Reqb _ _); [discriminate|]. cbv zeta in H. unfold close_to_zero in H.
  rewrite (proj2 (Rltb_true _ _) Hs) in H. injection H as <-.
  assert (EPS_ZERO < / 10 ^ 12).
  { unfold EPS_ZERO. apply (Rmult_lt_reg_r (10 ^ 12 * 2 ^ 52)); [lra|]. field_simplify; lra. }
  unfold e_henyey_greenstein. rewrite (proj2 (Rltb_true _ _)) by lra. reflexivity.
Qed.
Print Assumptions C106_nearly_isotropic_partial.

(** A cone of 120 degrees: Scene.emit raises on the first ray, the bundle is emitted, and into the
    directions of a cone of 60 degrees.  An asymmetry parameter of 0: the same. *)
Theorem C106_same_rays_refuted : exists n1 n2 : light_node, forall u,
  (node_ray n1 u = None /\ (0 <= l_d1 u < 1 -> exists r, e_ray n1 u = Some r /\ 1 / 2 <= vz (direction r))) /\
  (node_ray n2 u = None /\ exists r, e_ray n2 u = Some r).
Proof.
  exists (LightNode (mkLight WDefault PDefault (DCone (2 * PI / 3)) 0) rid), (LightNode (mkLight WDefault PDefault (DHenyeyGreenstein 0) 0) rid).
  intros u. pose proof PI_RGT_0 as HP. split; [split|split].
  - unfold node_ray, light_ray; simpl. unfold cone.
    rewrite (proj2 (Rltb_true (PI / 2) (2 * PI / 3))) by lra. now rewrite orb_true_r.
  - intros Hd. unfold e_ray; simpl. eexists. split; [reflexivity|]. cbn [direction].
    rewrite row_times_transpose. unfold mvec, dot, e_cone, spherical_to_cart; cbn [vx vy vz r3 mid]. rewrite !Rmult_0_l, !Rplus_0_l, Rmult_1_l.
    assert (Es : sin (2 * PI / 3) = sin (PI / 3)).
    { replace (2 * PI / 3) with (PI - PI / 3) by field. now rewrite sin_PI_x. }
    rewrite Es, sin_PI3. pose proof (sqrt01 (l_d1 u) ltac:(lra) ltac:(lra)) as Hs.
    assert (H3 : sqrt 3 * sqrt 3 = 3) by (apply sqrt_sqrt; lra). pose proof (sqrt_pos 3) as H3p.
    assert (H32 : sqrt 3 < 2) by nra.
    destruct (cos_asin_nonneg (sqrt (l_d1 u) * (sqrt 3 / 2)) ltac:(nra)) as [Hc Hcc].
    assert (Hq : sqrt (l_d1 u) * sqrt (l_d1 u) = l_d1 u) by (apply sqrt_sqrt; lra).
    assert (E : sqrt (l_d1 u) * (sqrt 3 / 2) * (sqrt (l_d1 u) * (sqrt 3 / 2)) = l_d1 u * 3 / 4).
    { transitivity (sqrt (l_d1 u) * sqrt (l_d1 u) * (sqrt 3 * sqrt 3) / 4); [field|]. rewrite Hq, H3. field. }
    rewrite E in Hcc. nra.
  - unfold node_ray, light_ray; simpl. unfold henyey_greenstein. destruct (Reqb_spec (2 * 0) 0); [reflexivity|lra].
  - unfold e_ray; simpl. eexists. reflexivity.
Qed.
Print Assumptions C106_same_rays_refuted.

(** Two lights, the second one translated: the fourth ray is the second light's second ray. *)
Example C106_example :
  let lights := [LightNode (mkLight WDefault PDefault DDefault 0) rid;
                 LightNode (mkLight (WConstant 600) (PRectangular 1 2) DDefault 1) (Rigid mid (V 0 0 5))] in
  let u := fun l k : nat => LDraws 0 (1 / 2) (3 / 4) 0 0 0 0 in
  scene_ray lights (fun i => u (i mod 2) (i / 2))%nat 3 = Some (Ray (V 0 1 5) (V 0 0 1) 600 0 0 (Light 1)) /\
  bundle_ray lights u 5 3 = Some (Ray (V 0 1 5) (V 0 0 1) 600 0 0 (Light 1)).
Proof.
  intros lights u.
  assert (E : scene_ray lights (fun i => u (i mod 2) (i / 2))%nat 3 = Some (Ray (V 0 1 5) (V 0 0 1) 600 0 0 (Light 1))).
  { unfold scene_ray. simpl. unfold node_ray. simpl. unfold representation, to_point, to_vector, rectangular_mask, uniform; simpl.
    unfold mvec, vadd, dot; simpl. repeat f_equal; lra. }
  split; [exact E|]. apply C106_same_rays_partial; [|lia|exact E].
  intros n [<-|[<-|[]]]; exact I.
Qed.

(** ** C107 Rays leave a light inside its aperture and cone *)
Definition in_aperture (p : position_delegate) (q : vec) : Prop :=
  match p with
  | PDefault => q = vzero
  | PRectangular x y => - x <= vx q <= x /\ - y <= vy q <= y /\ vz q = 0
  | PCircular r => vx q * vx q + vy q * vy q <= r * r /\ vz q = 0
  | PCube x y z => - x <= vx q <= x /\ - y <= vy q <= y /\ - z <= vz q <= z
  | PCustom _ => True
  end.
(** [c] is the cosine of the angle with the axis of the light *)
Definition in_cone (d : direction_delegate) (c : R) : Prop :=
  match d with
  | DDefault => c = 1
  | DIsotropic => -1 <= c <= 1
  | DLambertian => 0 < c <= 1
  | DCone t => cos t <= c <= 1
  | DHenyeyGreenstein _ => -1 <= c <= 1
  | DCustom _ => True
  end.
Definition in_band (w : wavelength_delegate) (x : R) : Prop :=
  match w with
  | WDefault => x = 555
  | WConstant nm => x = nm
  | WSpectrum (Some d) => exists p, 0 <= p < 1 /\ dist_sample d p = Some x
  | _ => True
  end.
Definition no_custom (l : light) : Prop :=
  match l_position l with PRectangular x y => 0 <= x /\ 0 <= y | PCircular r => 0 <= r | PCube x y z => 0 <= x /\ 0 <= y /\ 0 <= z | PCustom _ => False | _ => True end /\
  match l_direction l with DCone t => 0 <= t <= PI | DCustom _ => False | _ => True end /\
  match l_wavelength l with WCustom _ => False | _ => True end.
Definition unit_draws (u : ldraws) : Prop :=
  0 <= l_w u < 1 /\ 0 <= l_p1 u < 1 /\ 0 <= l_p2 u < 1 /\ 0 <= l_p3 u < 1 /\ 0 <= l_d1 u < 1 /\ 0 <= l_d2 u < 1 /\ 0 <= l_d3 u < 1.

(** The ray [r] in the world, seen from the light node at [g] *)
Definition leaves_properly (l : light) (g : rigid) (r : ray) : Prop :=
  in_aperture (l_position l) (to_point (rinv g) (position r)) /\
  is_unit (direction r) /\ in_cone (l_direction l) (dot (direction r) (to_vector g (V 0 0 1))) /\
  in_band (l_wavelength l) (wavelength r) /\ source r = Light (light_name l) /\ travelled r = 0 /\ duration r = 0.

Lemma in_aperture_call p u q : unit_draws u -> match p with PRectangular x y => 0 <= x /\ 0 <= y | PCircular r => 0 <= r | PCube x y z => 0 <= x /\ 0 <= y /\ 0 <= z | PCustom _ => False | _ => True end ->
  e_position p u = Some q -> in_aperture p q.
Proof.
  intros (_ & H1 & H2 & H3 & _). destruct p as [|x y|r|x y z|f]; simpl; intros Hp H; try injection H as <-.
  - reflexivity.
  - apply (C44_rectangular_mask x y); tauto.
  - pose proof (C44_circular_mask r (l_p1 u) (l_p2 u) Hp H2) as K. cbv zeta in K. tauto.
  - apply (C44_cube_mask x y z); tauto.
  - exact I.
Qed.
Lemma unit_cos d : is_unit d -> -1 <= vz d <= 1.
Proof. unfold is_unit, dot. intros H. assert (0 <= vx d * vx d) by nra. assert (0 <= vy d * vy d) by nra. nra. Qed.
Lemma e_cone_unit_in t d1 d2 : 0 <= t <= PI -> 0 <= d1 < 1 -> cos t <= vz (e_cone t d1 d2).
Proof.
  intros Ht Hd. unfold e_cone; simpl. pose proof PI_RGT_0.
  pose proof (sqrt01 d1 ltac:(lra) ltac:(lra)) as Hs. pose proof (sin_ge_0 t ltac:(lra) ltac:(lra)) as Hst. pose proof (SIN_bound t) as Hb. pose proof (sin_cos_one t) as Hsc.
  destruct (cos_asin_nonneg (sqrt d1 * sin t) ltac:(nra)) as [Hc Hcc].
  destruct (Rle_lt_dec 0 (cos t)) as [Hct|Hct]; [|lra].
  assert (E : sqrt d1 * sin t * (sqrt d1 * sin t) = d1 * (sin t * sin t)).
  { transitivity (sqrt d1 * sqrt d1 * (sin t * sin t)); [ring|]. now rewrite sqrt_sqrt by lra. }
  rewrite E in Hcc. apply Rsqr_incr_0_var; auto. unfold Rsqr. assert (0 <= sin t * sin t) by nra. nra.
Qed.
Lemma in_cone_call d u v : unit_draws u -> match d with DCone t => 0 <= t <= PI | DCustom _ => False | _ => True end ->
  e_direction d u = Some v -> is_unit v /\ in_cone d (vz v).
Proof.
  intros (_ & _ & _ & _ & H1 & H2 & _). destruct d as [| | |t|g|f]; simpl; intros Hd H; try contradiction; injection H as <-.
  - split; [|reflexivity]. unfold is_unit, dot; simpl; ring.
  - assert (K := spherical_unit (acos (2 * l_d2 u - 1)) (2 * PI * l_d1 u)). split; [exact K|]. now apply unit_cos in K.
  - destruct (C42_lambertian (l_d1 u) (l_d2 u) H1) as (K1 & K2 & _). split; [exact K1|]. apply unit_cos in K1. unfold e_lambertian, lambertian in *. lra.
  - assert (K : is_unit (e_cone t (l_d1 u) (l_d2 u))) by apply spherical_unit. split; [exact K|].
    pose proof (e_cone_unit_in t (l_d1 u) (l_d2 u) Hd H1). apply unit_cos in K. lra.
  - assert (K : is_unit (e_henyey_greenstein g (l_d1 u) (l_d2 u))).
    { unfold e_henyey_greenstein. destruct (Rltb _ _); apply spherical_unit. }
    split; [exact K|]. now apply unit_cos in K.
Qed.
Lemma in_band_call w u x : unit_draws u -> e_wavelength w u = Some (Some x) -> in_band w x.
Proof.
  intros (H & _). destruct w as [|nm|[d|]| |f]; simpl; intros E; try exact I; try (injection E as <-; reflexivity).
  exists (l_w u). split; [exact H|]. now injection E.
Qed.

Theorem C107_bundle_rays : forall n u r, no_custom (ln_light n) -> wf_rigid (ln_to_root n) -> unit_draws u ->
  e_ray n u = Some r -> leaves_properly (ln_light n) (ln_to_root n) r.
Proof.
  intros [l g] u r (Hp & Hd & Hw) Hg Hu H. simpl in *. unfold e_ray in H; simpl in H.
  destruct (e_wavelength (l_wavelength l) u) as [[x|]|] eqn:Ew.
  2: { destruct (e_position (l_position l) u) eqn:Ep; [|destruct (l_position l); contradiction || discriminate].
       destruct (e_direction (l_direction l) u) eqn:Ed; [discriminate|]. destruct (l_direction l); contradiction || discriminate. }
  2: { unfold node_ray, light_ray in H; simpl in H. destruct (l_wavelength l) as [| |[|]| |]; try contradiction; discriminate. }
  destruct (e_position (l_position l) u) as [q|] eqn:Ep; [|destruct (l_position l); contradiction || discriminate].
  destruct (e_direction (l_direction l) u) as [v|] eqn:Ed; [|destruct (l_direction l); contradiction || discriminate].
  injection H as <-. rewrite !row_times_transpose. unfold leaves_properly; simpl.
  change (vadd (mvec (rot g) q) (tra g)) with (to_point g q). rewrite rinv_point_l by exact Hg.
  destruct (in_cone_call _ _ _ Hu Hd Ed) as [K1 K2].
  split; [exact (in_aperture_call _ _ _ Hu Hp Ep)|]. split; [unfold is_unit; change (mvec (rot g) v) with (to_vector g v); rewrite to_vector_dot; auto|].
  split. { change (mvec (rot g) v) with (to_vector g v). rewrite to_vector_dot by exact Hg. unfold dot at 1; simpl. replace (vx v * 0 + vy v * 0 + vz v * 1) with (vz v) by ring. exact K2. }
  split; [exact (in_band_call _ _ _ Hu Ew)|]. auto.
Qed.
Print Assumptions C107_bundle_rays.

Theorem C107_python_rays : forall n u r, no_custom (ln_light n) -> wf_rigid (ln_to_root n) -> unit_draws u ->
  node_ray n u = Some r -> leaves_properly (ln_light n) (ln_to_root n) r.
Proof.
  intros [l g] u r Hn Hg Hu H. pose proof H as H0. simpl in *. unfold node_ray, light_ray in H; simpl in H.
  destruct (call_wavelength (l_wavelength l) u) as [x|] eqn:Ew; [|discriminate].
  destruct (call_position (l_position l) u) as [q|] eqn:Ep; [|discriminate].
  destruct (call_direction (l_direction l) u) as [v|] eqn:Ed; [|discriminate].
  injection H as <-. pose proof Hn as (Hp & Hd & Hw).
  assert (Ep' : e_position (l_position l) u = Some q) by (pose proof (same_position _ _ _ Ep) as K; destruct (l_position l); auto; contradiction).
  assert (Kd : is_unit v /\ in_cone (l_direction l) (vz v)).
  { destruct (l_direction l) as [| | |t|gg|f] eqn:E.
    - exact (in_cone_call DDefault _ _ Hu Hd (same_direction DDefault u I _ Ed)).
    - exact (in_cone_call DIsotropic _ _ Hu Hd (same_direction DIsotropic u I _ Ed)).
    - exact (in_cone_call DLambertian _ _ Hu Hd (same_direction DLambertian u I _ Ed)).
    - exact (in_cone_call (DCone t) _ _ Hu Hd (same_direction (DCone t) u I _ Ed)).
    - assert (K : is_unit v).
      { simpl in Ed. unfold henyey_greenstein in Ed. destruct (Reqb _ _); [discriminate|]. destruct (Reqb _ _); [discriminate|]. cbv zeta in Ed.
        destruct (close_to_zero gg); injection Ed as <-; apply spherical_unit. }
      split; [exact K|]. simpl. now apply unit_cos in K.
    - contradiction. }
  destruct Kd as [K1 K2]. unfold leaves_properly; simpl. rewrite rinv_point_l by exact Hg.
  split; [exact (in_aperture_call _ _ _ Hu Hp Ep')|]. split; [unfold is_unit; rewrite to_vector_dot; auto|].
  split. { rewrite to_vector_dot by exact Hg. unfold dot at 1; simpl. replace (vx v * 0 + vy v * 0 + vz v * 1) with (vz v) by ring. exact K2. }
  split; [|auto]. pose proof (same_wavelength _ _ _ Ew) as K.
  destruct (l_wavelength l) as [|nm|[dd|]| |f]; try exact I; exact (in_band_call _ _ _ Hu K).
Qed.
Print Assumptions C107_python_rays.

Example C107_example : exists n u r, no_custom (ln_light n) /\ wf_rigid (ln_to_root n) /\ unit_draws u /\
  node_ray n u = Some r /\ position r <> vzero /\ dot (direction r) (to_vector (ln_to_root n) (V 0 0 1)) < 1.
Proof.
  exists (LightNode (mkLight WDefault (PCircular 1) (DCone (PI / 2)) 0) (Rigid mid (V 1 2 3))), (LDraws 0 0 (1 / 4) 0 (1 / 4) 0 0).
  pose proof PI_RGT_0. pose proof PI2_3_2.
  destruct (C42_cone_accepts (PI / 2) (1 / 4) 0) as [d Hd].
  { split; [|lra]. assert (/ 10 ^ 8 < / 10) by (apply Rinv_lt_contravar; lra). lra. }
  eexists. split. { unfold no_custom; simpl. repeat split; lra. }
  split. { exact orthogonal_id. }
  split. { unfold unit_draws; simpl. repeat split; lra. }
  split. { unfold node_ray, light_ray; simpl. rewrite Hd. reflexivity. }
  simpl. split.
  - intros E. apply (f_equal vz) in E. revert E. unfold to_point, vadd, mvec, dot; simpl. lra.
  - destruct (C42_cone (PI / 2) (1 / 4) 0 d ltac:(lra) ltac:(lra) Hd) as (_ & _ & Hz & E). rewrite sin_PI2 in E.
    unfold to_vector, mvec, dot; simpl. nra.
Qed.

(** ** C108 Light masks fill the aperture and the cone asked for *)
Lemma cos_period1 x : cos (x + 2 * PI) = cos x.
Proof. rewrite <- (cos_period x 1). f_equal. simpl. ring. Qed.
Lemma sin_period1 x : sin (x + 2 * PI) = sin x.
Proof. rewrite <- (sin_period x 1). f_equal. simpl. ring. Qed.
Lemma polar x y s : 0 <= s -> x * x + y * y = s * s -> exists p, 0 <= p < 1 /\ x = s * cos (2 * PI * p) /\ y = s * sin (2 * PI * p).
Proof.
  intros Hs H. pose proof PI_RGT_0 as HP. destruct (Req_dec s 0) as [E|E].
  - subst. assert (x = 0) by nra. assert (y = 0) by nra. exists 0. split; [lra|]. subst. split; ring.
  - assert (Hsp : 0 < s) by lra. set (c := x / s).
    assert (Hc : c * s = x) by (unfold c; field; exact E).
    assert (Hcc : c * c <= 1) by (assert (0 < s * s) by nra; assert (c * c * (s * s) = x * x) by (rewrite <- Hc; ring); nra).
    assert (Hb : -1 <= c <= 1) by (split; nra).
    pose proof (acos_bound c) as Ha. pose proof (cos_acos c Hb) as Hca.
    assert (Hsin : 0 <= sin (acos c)) by (apply sin_ge_0; lra).
    pose proof (sin_cos_one (acos c)) as Hsc. rewrite Hca in Hsc.
    assert (Hy : (s * sin (acos c)) * (s * sin (acos c)) = y * y).
    { replace (y * y) with (s * s - x * x) by lra. rewrite <- Hc. nra. }
    destruct (Rle_lt_dec 0 y) as [Hy0|Hy0].
    + exists (acos c / (2 * PI)). assert (E2 : 2 * PI * (acos c / (2 * PI)) = acos c) by (field; lra).
      split. { split; [apply Rmult_le_pos; [lra|left; apply Rinv_0_lt_compat; lra]|]. apply (Rmult_lt_reg_r (2 * PI)); [lra|]. unfold Rdiv. rewrite Rmult_assoc, Rinv_l by lra. lra. }
      rewrite E2, Hca. split; [lra|]. assert (0 <= s * sin (acos c)) by nra. nra.
    + assert (Hpos : 0 < acos c).
      { destruct Ha as [[Ha|Ha] _]; [exact Ha|]. rewrite <- Ha, sin_0 in Hy. nra. }
      exists (1 - acos c / (2 * PI)). assert (E2 : 2 * PI * (1 - acos c / (2 * PI)) = - acos c + 2 * PI) by (field; lra).
      assert (Hq : 0 < acos c / (2 * PI) <= 1).
      { split; [apply Rdiv_lt_0_compat; lra|]. apply (Rmult_le_reg_r (2 * PI)); [lra|]. unfold Rdiv. rewrite Rmult_assoc, Rinv_l by lra. lra. }
      split; [lra|]. rewrite E2, cos_period1, sin_period1, cos_neg, sin_neg, Hca. split; [lra|].
      assert (0 <= s * sin (acos c)) by nra. nra.
Qed.

Lemma unit_polar d theta : is_unit d -> 0 <= sin theta -> cos theta = vz d -> exists p, 0 <= p < 1 /\ spherical_to_cart theta (2 * PI * p) = d.
Proof.
  intros Hd Hs Hc. unfold is_unit, dot in Hd. pose proof (sin_cos_one theta) as Hsc. rewrite Hc in Hsc.
  destruct (polar (vx d) (vy d) (sin theta) Hs ltac:(lra)) as (p & Hp & E1 & E2).
  exists p. split; [exact Hp|]. unfold spherical_to_cart. rewrite Hc, <- E1, <- E2. now destruct d.
Qed.
Lemma sin_acos_nonneg c : 0 <= sin (acos c).
Proof. pose proof (acos_bound c). apply sin_ge_0; lra. Qed.

Theorem C108_isotropic_covers_partial : forall d, is_unit d -> vz d < 1 ->
  exists g1 g2, 0 <= g1 < 1 /\ 0 <= g2 < 1 /\ isotropic g1 g2 = d.
Proof.
  intros d Hd Hz. pose proof (unit_cos d Hd) as Hb.
  destruct (unit_polar d (acos (2 * ((1 + vz d) / 2) - 1)) Hd (sin_acos_nonneg _)) as (p & Hp & E).
  { replace (2 * ((1 + vz d) / 2) - 1) with (vz d) by field. now apply cos_acos. }
  exists p, ((1 + vz d) / 2). split; [exact Hp|]. split; [lra|]. exact E.
Qed.
Print Assumptions C108_isotropic_covers_partial.

Lemma asin_covers d k : is_unit d -> 0 < k <= 1 -> 0 <= vz d -> 1 - vz d * vz d < k * k ->
  exists p1 p2, 0 <= p1 < 1 /\ 0 <= p2 < 1 /\ spherical_to_cart (asin (sqrt p1 * k)) (2 * PI * p2) = d.
Proof.
  intros Hd Hk Hz Hlt. pose proof (unit_cos d Hd) as Hb. set (p1 := (1 - vz d * vz d) / (k * k)).
  assert (Hkk : 0 < k * k) by nra.
  assert (Ep : p1 * (k * k) = 1 - vz d * vz d) by (unfold p1; field; lra).
  assert (H1 : 0 <= p1) by (assert (0 <= p1 * (k * k)) by nra; nra).
  assert (H2 : p1 < 1) by nra.
  pose proof (sqrt01 p1 H1 ltac:(lra)) as Hs. assert (Hq : sqrt p1 * sqrt p1 = p1) by (apply sqrt_sqrt; lra).
  assert (Hx : 0 <= sqrt p1 * k <= 1) by nra.
  destruct (cos_asin_nonneg (sqrt p1 * k) ltac:(lra)) as [Hc Hcc].
  assert (E : sqrt p1 * k * (sqrt p1 * k) = 1 - vz d * vz d).
  { transitivity (sqrt p1 * sqrt p1 * (k * k)); [ring|]. rewrite Hq. exact Ep. }
  rewrite E in Hcc.
  destruct (unit_polar d (asin (sqrt p1 * k)) Hd) as (p2 & Hp2 & E2).
  - rewrite sin_asin by lra. lra.
  - nra.
  - exists p1, p2. auto.
Qed.

Theorem C108_lambertian_covers_partial : forall d, is_unit d -> 0 < vz d ->
  exists p1 p2, 0 <= p1 < 1 /\ 0 <= p2 < 1 /\ lambertian p1 p2 = d.
Proof.
  intros d Hd Hz. destruct (asin_covers d 1 Hd ltac:(lra) ltac:(lra) ltac:(nra)) as (p1 & p2 & H1 & H2 & E).
  exists p1, p2. split; [exact H1|]. split; [exact H2|]. unfold lambertian. now rewrite Rmult_1_r in E.
Qed.
Print Assumptions C108_lambertian_covers_partial.

Theorem C108_cone_covers_partial : forall t d, / 10 ^ 8 < t <= PI / 2 -> is_unit d -> cos t < vz d ->
  exists p1 p2, 0 <= p1 < 1 /\ 0 <= p2 < 1 /\ cone t p1 p2 = Some d /\ e_cone t p1 p2 = d.
Proof.
  intros t d Ht Hd Hz. assert (Ht0 : 0 < t) by (assert (0 < / 10 ^ 8) by (apply Rinv_0_lt_compat; lra); lra).
  pose proof PI_RGT_0. assert (Hs : 0 < sin t) by (apply sin_gt_0; lra). pose proof (SIN_bound t) as Hb.
  pose proof (cos_nonneg_quadrant t ltac:(lra)) as Hc. pose proof (sin_cos_one t) as Hsc.
  destruct (asin_covers d (sin t) Hd ltac:(lra) ltac:(lra) ltac:(nra)) as (p1 & p2 & H1 & H2 & E).
  exists p1, p2. split; [exact H1|]. split; [exact H2|].
  destruct (C42_cone_accepts t p1 p2 Ht) as [d' Hd']. rewrite Hd'. unfold cone in Hd'. destruct (_ || _) in Hd'; [discriminate|].
  injection Hd' as <-. split; [now rewrite E|exact E].
Qed.
Print Assumptions C108_cone_covers_partial.

Theorem C108_circle_covers_partial : forall r x y, 0 < r -> x * x + y * y < r * r ->
  exists u1 u2, 0 <= u1 < 1 /\ 0 <= u2 < 1 /\ circular_mask r u1 u2 = V x y 0.
Proof.
  intros r x y Hr H. set (s := sqrt (x * x + y * y)).
  assert (Hs : 0 <= s) by apply sqrt_pos. assert (Hss : s * s = x * x + y * y) by (apply sqrt_sqrt; nra).
  destruct (polar x y s Hs ltac:(lra)) as (p & Hp & E1 & E2).
  exists p, (s / r * (s / r)). split; [exact Hp|].
  assert (Hq : s / r * r = s) by (field; lra). assert (H0 : 0 <= s / r) by (apply Rmult_le_pos; [exact Hs|left; apply Rinv_0_lt_compat; exact Hr]).
  split. { split; [nra|]. assert (s < r) by nra. assert (s / r < 1) by (apply (Rmult_lt_reg_r r); lra). nra. }
  unfold circular_mask, uniform. rewrite sqrt_square by exact H0. rewrite Hq.
  replace (0 + (2 * PI - 0) * p) with (2 * PI * p) by ring. now rewrite <- E1, <- E2.
Qed.
Print Assumptions C108_circle_covers_partial.

(** A half-angle of 120 degrees, which a document may ask for: a direction at 90 degrees to the
    axis is in the cone but never emitted. *)
Theorem C108_wide_cone_refuted : exists t d, 0 <= t <= PI /\ is_unit d /\ cos t < vz d /\
  forall p1 p2, 0 <= p1 < 1 -> e_cone t p1 p2 <> d /\ cone t p1 p2 <> Some d.
Proof.
  exists (2 * PI / 3), (V 1 0 0). pose proof PI_RGT_0 as HP.
  assert (Ec : cos (2 * PI / 3) = - (1 / 2)).
  { replace (2 * PI / 3) with (PI - PI / 3) by field. rewrite Rtrigo_facts.cos_pi_minus, cos_PI3. reflexivity. }
  split; [lra|]. split; [unfold is_unit, dot; simpl; ring|]. simpl. rewrite Ec. split; [lra|].
  intros p1 p2 Hp. assert (E : e_cone (2 * PI / 3) p1 p2 <> V 1 0 0).
  { intros E. apply (f_equal vz) in E. simpl in E.
    assert (Es : sin (2 * PI / 3) = sin (PI / 3)).
    { replace (2 * PI / 3) with (PI - PI / 3) by field. now rewrite sin_PI_x. }
    rewrite Es, sin_PI3 in E. pose proof (sqrt01 p1 ltac:(lra) ltac:(lra)) as Hs.
    assert (H3 : sqrt 3 * sqrt 3 = 3) by (apply sqrt_sqrt; lra). pose proof (sqrt_pos 3) as H3p. assert (H32 : sqrt 3 < 2) by nra.
    destruct (cos_asin_nonneg (sqrt p1 * (sqrt 3 / 2)) ltac:(nra)) as [_ Hcc]. rewrite E in Hcc.
    assert (Hq : sqrt p1 * sqrt p1 = p1) by (apply sqrt_sqrt; lra).
    assert (E4 : sqrt p1 * (sqrt 3 / 2) * (sqrt p1 * (sqrt 3 / 2)) = p1 * 3 / 4).
    { transitivity (sqrt p1 * sqrt p1 * (sqrt 3 * sqrt 3) / 4); [field|]. rewrite Hq, H3. field. }
    rewrite E4 in Hcc. lra. }
  split; [exact E|]. unfold cone. rewrite (proj2 (Rltb_true (PI / 2) (2 * PI / 3))) by lra. rewrite orb_true_r. discriminate.
Qed.
Print Assumptions C108_wide_cone_refuted.

(** light.py 184-188: rectangular_mask(1, 1) is described as a square with length and width of one
    unit; it is two units wide. *)
Theorem C108_unit_square_refuted : exists u1 u2 v1 v2, 0 <= u1 < 1 /\ 0 <= u2 < 1 /\ 0 <= v1 < 1 /\ 0 <= v2 < 1 /\
  1 < vx (rectangular_mask 1 1 v1 v2) - vx (rectangular_mask 1 1 u1 u2).
Proof. exists 0, 0, (3 / 4), 0. unfold rectangular_mask, uniform; simpl. repeat split; lra. Qed.
Print Assumptions C108_unit_square_refuted.
Example C108_example : exists p1 p2, 0 <= p1 < 1 /\ 0 <= p2 < 1 /\ cone (PI / 2) p1 p2 = Some (V (3 / 5) 0 (4 / 5)).
Proof.
  pose proof PI_RGT_0 as HP. pose proof PI2_3_2 as HQ. assert (HR : / 10 ^ 8 < / 10) by (apply Rinv_lt_contravar; lra).
  destruct (C108_cone_covers_partial (PI / 2) (V (3 / 5) 0 (4 / 5))) as (p1 & p2 & K1 & K2 & E & _).
  - lra.
  - unfold is_unit, dot; simpl; lra.
  - simpl. rewrite cos_PI2. lra.
  - exists p1, p2. auto.
Qed.

(** ** C109 Lights in documents *)
(** What the document says about the rays of a light, for a node at [g].  Nothing is said about
    spectra that cannot be sampled. *)
Definition says_wavelength (s : light_spec) (x : R) : Prop :=
  match ls_mask_wavelength s with
  | Some (NMask (MNanometers nm)) => x = nm
  | Some (NMask (MSpectrum (Some rows))) => hd 0 (map fst rows) <= x <= last (map fst rows) 0
  | Some (NMask (MSpectrum None)) => False
  | Some (Number _) | None => match ls_wavelength s with Some nm => x = nm | None => x = 555 end
  end.
Definition says_position (s : light_spec) (q : vec) : Prop :=
  match ls_mask_position s with
  | Some (Mask (MRect l)) => exists x y, l = [x; y] /\ Rabs (vx q) <= x /\ Rabs (vy q) <= y /\ vz q = 0
  | Some (Mask (MCube l)) => exists x y z, l = [x; y; z] /\ Rabs (vx q) <= x /\ Rabs (vy q) <= y /\ Rabs (vz q) <= z
  | Some (Mask (MCircle r)) => vx q * vx q + vy q * vy q <= r * r /\ vz q = 0
  | Some (PointLike _) | None => q = vzero
  end.
(** [c]: cosine of the angle with the direction in which the node faces *)
Definition says_direction (s : light_spec) (c : R) : Prop :=
  match ls_mask_direction s with
  | Some (Mask MIsotropic) | Some (Mask (MHenyeyGreenstein _)) => -1 <= c <= 1
  | Some (Mask MLambertian) => 0 < c
  | Some (Mask (MCone (Some a))) => cos (a * PI / 180) <= c
  | Some (Mask (MCone None)) => False
  | Some (PointLike _) | None => c = 1
  end.

(** Lengths are not negative and angles are at most 180 degrees; the schema does not check this. *)
Definition sensible (s : light_spec) : Prop :=
  match ls_mask_position s with
  | Some (Mask (MRect l)) | Some (Mask (MCube l)) => Forall (fun x => 0 <= x) l
  | Some (Mask (MCircle r)) => 0 <= r
  | _ => True
  end /\
  match ls_mask_direction s with Some (Mask (MCone (Some a))) => 0 <= a <= 180 | _ => True end.

Theorem C109_rays_as_written_partial : forall s name l g u r,
  parse_light s name = Some l -> sensible s -> wf_rigid g -> unit_draws u ->
  node_ray (LightNode l g) u = Some r \/ e_ray (LightNode l g) u = Some r ->
  says_wavelength s (wavelength r) /\ says_position s (to_point (rinv g) (position r)) /\
  is_unit (direction r) /\ says_direction s (dot (direction r) (to_vector g (V 0 0 1))) /\ source r = Light name.
Proof.
  intros s name l g u r Hl Hs Hg Hu Hr. unfold parse_light in Hl.
  destruct (match ls_mask_wavelength s with None => _ | Some _ => _ end) as [w|] eqn:Ew in Hl; [|discriminate].
  destruct (match ls_mask_position s with None => _ | Some _ => _ end) as [p|] eqn:Ep in Hl; [|discriminate].
  destruct (match ls_mask_direction s with None => _ | Some _ => _ end) as [d|] eqn:Ed in Hl; [|discriminate].
  injection Hl as <-. destruct Hs as [Hsp Hsd].
  assert (Kw : (match w with WCustom _ => False | _ => True end) /\ forall x, call_wavelength w u = Some x \/ e_wavelength w u = Some (Some x) -> says_wavelength s x).
  { clear - Ew Hu. destruct Hu as [Hu _]. unfold says_wavelength.
    assert (Kn : forall nm w, (if Reqb nm 0 then WNumber else WConstant nm) = w -> (match w with WCustom _ => False | _ => True end) /\
             forall x, call_wavelength w u = Some x \/ e_wavelength w u = Some (Some x) -> x = nm).
    { intros nm w0 <-. destruct (Reqb nm 0); simpl; (split; [exact I|]); intros x [K|K]; try discriminate; now injection K. }
    assert (Kd : forall w, match ls_wavelength s with None => WDefault | Some nm => if Reqb nm 0 then WNumber else WConstant nm end = w ->
             (match w with WCustom _ => False | _ => True end) /\
             forall x, call_wavelength w u = Some x \/ e_wavelength w u = Some (Some x) -> match ls_wavelength s with Some nm => x = nm | None => x = 555 end).
    { intros w0. destruct (ls_wavelength s) as [nm|]; [apply Kn|]. intros <-. simpl. split; [exact I|]. intros x [K|K]; now injection K. }
    destruct (ls_mask_wavelength s) as [[x|[nm|[rows|]]]|].
    - destruct (Reqb x 0); [|discriminate]. injection Ew as Ew. exact (Kd _ Ew).
    - injection Ew as <-. simpl. split; [exact I|]. intros x [K|K]; now injection K.
    - simpl in Ew. destruct (mk_dist _ _ _) as [dd| | |] eqn:Em; try discriminate; injection Ew as <-; simpl; (split; [exact I|]).
      + assert (Hlen : length (map fst rows) = length (map snd rows)) by now rewrite !map_length.
        destruct (C30_sample_in_range _ _ _ (l_w u) Hlen Em ltac:(lra)) as (x & E & Hx). rewrite E.
        intros y [K|K]; injection K as <-; exact Hx.
      + intros y [K|K]; discriminate.
    - discriminate.
    - injection Ew as Ew. exact (Kd _ Ew). }
  destruct Kw as [Kw1 Kw2].
  assert (Hno : no_custom (mkLight w p d name)).
  { unfold no_custom; simpl. split; [|split; [|exact Kw1]].
    - clear - Ep Hsp. destruct (ls_mask_position s) as [[[|]|[[|x [|y [|]]]|[|x [|y [|z [|]]]]|r]]|]; try discriminate; simpl in Ep; injection Ep as <-; auto.
      + inversion Hsp as [|? ? A1 A2]; subst. inversion A2; auto.
      + inversion Hsp as [|? ? A1 A2]; subst. inversion A2 as [|? ? A3 A4]; subst. inversion A4; auto.
    - clear - Ed Hsd. destruct (ls_mask_direction s) as [[[|]|[| |[a|]|gg]]|]; try discriminate; simpl in Ed; injection Ed as <-; auto.
      pose proof PI_RGT_0. unfold radians. split; [apply Rmult_le_pos; lra|]. replace PI with (180 * (PI / 180)) at 2 by field. apply Rmult_le_compat_r; lra. }
  assert (Hprop : leaves_properly (mkLight w p d name) g r).
  { destruct Hr as [Hr|Hr]; [exact (C107_python_rays (LightNode _ g) u r Hno Hg Hu Hr)|exact (C107_bundle_rays (LightNode _ g) u r Hno Hg Hu Hr)]. }
  destruct Hprop as (A1 & A2 & A3 & _ & A5 & _). simpl in A1, A3, A5.
  split; [|split; [|split; [exact A2|split; [|exact A5]]]].
  - apply Kw2. clear - Hr. destruct Hr as [Hr|Hr].
    + unfold node_ray, light_ray in Hr; simpl in Hr.
      destruct (call_wavelength w u) as [x|]; [|discriminate]. destruct (call_position p u); [|discriminate]. destruct (call_direction d u); [|discriminate].
      injection Hr as <-. now left.
    + assert (Kn : node_ray (LightNode (mkLight w p d name) g) u = Some r -> call_wavelength w u = Some (wavelength r)).
      { unfold node_ray, light_ray; simpl. destruct (call_wavelength w u) as [x|]; [|discriminate]. destruct (call_position p u); [|discriminate]. destruct (call_direction d u); [|discriminate].
        intros K. now injection K as <-. }
      unfold e_ray in Hr; simpl in Hr. destruct (e_wavelength w u) as [[x|]|]; destruct (e_position p u); try (left; now apply Kn); destruct (e_direction d u); try (left; now apply Kn); try discriminate.
      injection Hr as <-. now right.
  - clear - A1 Ep. unfold says_position. set (q := to_point _ _) in *. clearbody q.
    destruct (ls_mask_position s) as [[[|]|[[|x [|y [|]]]|[|x [|y [|z [|]]]]|rr]]|]; try discriminate; simpl in Ep; injection Ep as <-; simpl in A1; auto.
    + exists x, y. split; [reflexivity|]. destruct A1 as (B1 & B2 & B3). split; [apply Rabs_le; lra|]. split; [apply Rabs_le; lra|exact B3].
    + exists x, y, z. split; [reflexivity|]. destruct A1 as (B1 & B2 & B3). split; [apply Rabs_le; lra|]. split; apply Rabs_le; lra.
  - clear - A3 Ed. unfold says_direction. set (c := dot _ _) in *. clearbody c.
    destruct (ls_mask_direction s) as [[[|]|[| |[a|]|gg]]|]; try discriminate; simpl in Ed; injection Ed as <-; simpl in A3; auto; try tauto.
    unfold radians in A3. replace (a * PI / 180) with (a * (PI / 180)) by field. tauto.
Qed.
Print Assumptions C109_rays_as_written_partial.

(** Documents whose lights load and emit for every draw: lists of the right length, half-angles
    from 1e-6 to 90 degrees, spectra that load, a wavelength that is not 0. *)
Definition usable (s : light_spec) : Prop :=
  match ls_mask_position s with
  | Some (PointLike _) => False
  | Some (Mask (MRect l)) => length l = 2%nat
  | Some (Mask (MCube l)) => length l = 3%nat
  | _ => True
  end /\
  match ls_mask_direction s with
  | Some (PointLike _) => False
  | Some (Mask (MCone (Some a))) => / 10 ^ 6 < a <= 90
  | Some (Mask (MCone None)) => False
  | Some (Mask (MHenyeyGreenstein g)) => -1 < g < 1 /\ g <> 0
  | _ => True
  end /\
  match ls_mask_wavelength s with
  | Some (NMask (MNanometers _)) => True
  | Some (NMask (MSpectrum (Some rows))) => exists d, mk_dist (map fst rows) (map snd rows) false = MkOk d
  | Some (NMask (MSpectrum None)) | Some (Number _) => False
  | None => match ls_wavelength s with Some nm => nm <> 0 | None => True end
  end.
Theorem C109_usable_partial : forall s name, usable s -> exists l, parse_light s name = Some l /\
  forall g u, unit_draws u -> exists r, node_ray (LightNode l g) u = Some r.
Proof.
  intros s name (Hp & Hd & Hw).
  assert (Kp : exists p, match ls_mask_position s with None | Some (PointLike []) => Some PDefault | Some m => parse_position_mask m end = Some p /\ match p with PCustom _ => False | _ => True end).
  { destruct (ls_mask_position s) as [[l|[l|l|r]]|].
    - contradiction.
    - destruct l as [|x [|y [|]]]; try discriminate. eexists; split; [reflexivity|exact I].
    - destruct l as [|x [|y [|z [|]]]]; try discriminate. eexists; split; [reflexivity|exact I].
    - eexists; split; [reflexivity|exact I].
    - eexists; split; [reflexivity|exact I]. }
  assert (Kd : exists d, match ls_mask_direction s with None | Some (PointLike []) => Some DDefault | Some m => parse_direction_mask m end = Some d /\
               forall u, unit_draws u -> exists v, call_direction d u = Some v).
  { destruct (ls_mask_direction s) as [[l|[| |[a|]|g]]|]; try contradiction; (eexists; split; [reflexivity|]); intros u (_ & _ & _ & _ & U1 & U2 & U3); simpl; eauto.
    - apply C42_cone_accepts. unfold radians. pose proof PI_RGT_0. pose proof PI2_3_2. 
      assert (/ 10 ^ 8 < / 10 ^ 6 * (PI / 180)).
      { replace (/ 10 ^ 8) with (/ 10 ^ 6 * (1 / 100)) by field. apply Rmult_lt_compat_l; [apply Rinv_0_lt_compat; lra|lra]. }
      split; [|replace (PI / 2) with (90 * (PI / 180)) by field; apply Rmult_le_compat_r; lra].
      eapply Rlt_trans; [eassumption|]. apply Rmult_lt_compat_r; lra.
    - unfold henyey_greenstein. destruct Hd as [Hg Hg0].
      rewrite (proj2 (Reqb_false (2 * g) 0)) by lra. rewrite (proj2 (Reqb_false (1 + g * (2 * l_d1 u - 1)) 0)) by nra.
      cbv zeta. destruct (close_to_zero g); eauto. }
  assert (Kw : exists w, match ls_mask_wavelength s with
                    | None => Some (match ls_wavelength s with None => WDefault | Some nm => if Reqb nm 0 then WNumber else WConstant nm end)
                    | Some (Number x) => if Reqb x 0 then Some (match ls_wavelength s with None => WDefault | Some nm => if Reqb nm 0 then WNumber else WConstant nm end) else parse_wavelength_mask (Number x)
                    | Some m => parse_wavelength_mask m
                    end = Some w /\ forall u, unit_draws u -> exists x, call_wavelength w u = Some x).
  { destruct (ls_mask_wavelength s) as [[x|[nm|[rows|]]]|]; try contradiction.
    - eexists; split; [reflexivity|]. intros u _. simpl. eauto.
    - destruct Hw as [dd Hw]. exists (WSpectrum (Some dd)). simpl. rewrite Hw. split; [reflexivity|]. intros u [Hu _].
      destruct (C30_sample_in_range (map fst rows) (map snd rows) dd (l_w u)) as (x & E & _); [now rewrite !map_length|exact Hw|lra|]. eauto.
    - destruct (ls_wavelength s) as [nm|].
      + rewrite (proj2 (Reqb_false nm 0)) by exact Hw. eexists; split; [reflexivity|]. intros u _. simpl. eauto.
      + eexists; split; [reflexivity|]. intros u _. simpl. eauto. }
  destruct Kp as (p & Ep & Kp). destruct Kd as (d & Ed & Kd). destruct Kw as (w & Ew & Kw).
  exists (mkLight w p d name). split. { unfold parse_light. cbv zeta. now rewrite Ew, Ep, Ed. }
  intros g u Hu. destruct (Kd u Hu) as [v Ev]. destruct (Kw u Hu) as [x Ex].
  assert (Kq : exists q, call_position p u = Some q) by (destruct p; simpl; eauto; contradiction). destruct Kq as [q Eq].
  unfold node_ray, light_ray; simpl. rewrite Ex, Eq, Ev. eauto.
Qed.
Print Assumptions C109_usable_partial.

(** Lights that the schema accepts: a fixed position or direction, a fixed wavelength as a mask
    and a rectangle with three sides do not load; a wavelength of 0 loads but never emits. *)
Theorem C109_accepted_lights_refuted : exists s1 s2 s3 s4 s5,
  schema_light s1 /\ ls_mask_position s1 = Some (PointLike [0; 0; 1]) /\
  schema_light s2 /\ ls_mask_direction s2 = Some (PointLike [0; 0; 1]) /\
  schema_light s3 /\ ls_mask_wavelength s3 = Some (Number 600) /\
  schema_light s4 /\ ls_mask_position s4 = Some (Mask (MRect [1; 1; 1])) /\
  (forall name, parse_light s1 name = None /\ parse_light s2 name = None /\ parse_light s3 name = None /\ parse_light s4 name = None) /\
  schema_light s5 /\ forall name, exists l, parse_light s5 name = Some l /\ forall g u, node_ray (LightNode l g) u = None /\ e_ray (LightNode l g) u = None.
Proof.
  exists (LightSpec None None (Some (PointLike [0; 0; 1])) None), (LightSpec None None None (Some (PointLike [0; 0; 1]))),
    (LightSpec None (Some (Number 600)) None None), (LightSpec None None (Some (Mask (MRect [1; 1; 1]))) None), (LightSpec (Some 0) None None None).
  unfold schema_light; simpl. do 8 (split; [auto|]). split.
  { intros name. split; [reflexivity|]. split; [reflexivity|]. split; [|reflexivity].
    unfold parse_light; simpl. now rewrite (proj2 (Reqb_false 600 0)) by lra. }
  split; [exact I|]. intros name. unfold parse_light; simpl. rewrite (proj2 (Reqb_true 0 0)) by reflexivity.
  eexists. split; [reflexivity|]. intros g u. auto.
Qed.
Print Assumptions C109_accepted_lights_refuted.

Example C109_example : exists s, ls_wavelength s = Some 500 /\ ls_mask_wavelength s = Some (NMask (MNanometers 450)) /\
  ls_mask_direction s = Some (Mask (MCone (Some 60))) /\ schema_light s /\ sensible s /\ usable s /\
  exists l, parse_light s 7%nat = Some l /\ forall g u r, wf_rigid g -> unit_draws u -> node_ray (LightNode l g) u = Some r ->
    wavelength r = 450 /\ 1 / 2 <= dot (direction r) (to_vector g (V 0 0 1)).
Proof.
  exists (LightSpec (Some 500) (Some (NMask (MNanometers 450))) (Some (Mask (MRect [1; 2]))) (Some (Mask (MCone (Some 60))))).
  split; [reflexivity|]. split; [reflexivity|]. split; [reflexivity|]. split; [exact I|].
  assert (Hs : sensible (LightSpec (Some 500) (Some (NMask (MNanometers 450))) (Some (Mask (MRect [1; 2]))) (Some (Mask (MCone (Some 60)))))).
  { unfold sensible; simpl. split; [|lra]. repeat constructor; lra. }
  split; [exact Hs|]. split. { unfold usable; simpl. split; [reflexivity|]. split; [|exact I]. split; [|lra]. assert (/ 10 ^ 6 < / 10) by (apply Rinv_lt_contravar; lra). lra. }
  eexists. split; [reflexivity|]. intros g u r Hg Hu Hr.
  destruct (C109_rays_as_written_partial (LightSpec (Some 500) (Some (NMask (MNanometers 450))) (Some (Mask (MRect [1; 2]))) (Some (Mask (MCone (Some 60))))) 7%nat _ g u r eq_refl Hs Hg Hu (or_introl Hr)) as (K1 & _ & _ & K4 & _).
  unfold says_wavelength in K1; unfold says_direction in K4; simpl in K1, K4. split; [exact K1|].
  replace (60 * PI / 180) with (PI / 3) in K4 by field. now rewrite cos_PI3 in K4.
Qed.
