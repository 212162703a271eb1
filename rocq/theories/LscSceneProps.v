(** C131: the scene of an LSC is the one that was configured. *)
From Coq Require Import Reals Lra Lia Psatz ZArith List Bool String.
From Verif Require Import Base Vec DistModel DistSpec DistProps DyeModel DyeProps ComponentModel OpticsModel PhaseModel PhaseProps TransformModel TransformProofs TransformProps LscSceneModel.
Import ListNotations.
Open Scope R_scope.

(** ** What the calls ask for *)
Definition asks (c : call) : bool := match c with AddLuminophore _ _ _ _ _ | AddAbsorber _ _ => true | _ => false end.
Definition asked (cs : list call) : list call := filter asks cs.
Definition lights (cs : list call) : list ldata := flat_map (fun c => match c with AddLight d => [d] | _ => [] end) cs.
(** calls before the first run, with spectra that the constructors of components accept *)
Definition configuring (c : call) : Prop :=
  match c with
  | AddLuminophore _ co e _ _ => exists r, luminophore co e None false = Made r
  | AddAbsorber _ co => exists r, abs_dist co None false = Made r
  | AddLight _ | AddAirGapMirror _ => True
  | AddScatterer _ _ _ | Run => False
  end.
(** the component [k] is the one that the call describes *)
Definition built (c : call) (k : comp) : Prop :=
  match c with
  | AddLuminophore n co e q ph =>
      co_name k = n /\ co_yield k = q /\ co_phase k = ph /\ exists d, co_ems k = Some d /\ luminophore co e None false = Made (co_abs k, d)
  | AddAbsorber n co => co_name k = n /\ co_yield k = 0 /\ co_ems k = None /\ abs_dist co None false = Made (co_abs k)
  | _ => False
  end.
(** the light node [n] is where the call puts it: origin at the location; without rotation its axes
    are those of the world; with one they are turned by the angle about the axis *)
Definition placed (d : ldata) (n : lnode) : Prop :=
  ln_name n = ld_name d /\ ln_direction n = ld_direction d /\ ln_wavelength n = ld_wavelength d /\ ln_position n = ld_position d /\
  match ld_rotation d with
  | None => exists t, ln_tf n = Some t /\ to_point (pose t) vzero = fst (ld_location d) /\ forall v, to_vector (pose t) v = v
  | Some (angle, axis) => norm axis <> 0 -> exists t, ln_tf n = Some t /\ to_point (pose t) vzero = fst (ld_location d) /\
      to_vector (pose t) axis = axis /\
      forall v, dot v axis = 0 -> to_vector (pose t) v = vadd (vscale (cos angle) v) (vscale (sin angle / norm axis) (cross axis v))
  end.

Lemma asked_app a b : asked (a ++ b) = asked a ++ asked b.
Proof. apply filter_app. Qed.
Definition cdata_of (c : call) : list cdata :=
  match c with
  | AddLuminophore n co e q ph => [CData (LuminophoreCls e q ph) n co]
  | AddAbsorber n co => [CData AbsorberCls n co]
  | _ => []
  end.
Lemma script_config cs : Forall configuring cs -> forall l, l_scene l = None ->
  exists l', script l cs = (l', None) /\ l_size l' = l_size l /\ l_range l' = l_range l /\ l_n0 l' = l_n0 l /\ l_n1 l' = l_n1 l /\ l_scene l' = None /\
    l_components l' = l_components l ++ flat_map cdata_of cs /\ l_lights l' = l_lights l ++ lights cs /\
    (l_mirror l' = true <-> l_mirror l = true \/ exists b, In (AddAirGapMirror b) cs).
Proof.
  intros H. induction H as [|c cs Hc H IH]; intros l Hs.
  - exists l. cbn [script flat_map lights]. rewrite !app_nil_r. repeat split; auto. intros [E|[b []]]. exact E.
  - destruct c as [n co e q ph|n co|n co ph|d|b|]; try contradiction;
      cbn [script exec];
      match goal with |- exists _, script ?l1 cs = _ /\ _ => destruct (IH l1 Hs) as (l' & E & A1 & A2 & A3 & A4 & A5 & A6 & A7 & A8) end;
      exists l'; cbn [with_components with_lights l_size l_range l_n0 l_n1 l_components l_lights l_mirror] in *;
      (split; [exact E|]); do 5 (split; [assumption|]); cbn [flat_map cdata_of lights app];
      rewrite A6, A7, ?app_nil_r, <- ?app_assoc; (split; [reflexivity|]); (split; [reflexivity|]); rewrite A8.
    1-3: split; [intros [E1|[b Hb]]; [now left|right; exists b; now right]|intros [E1|[b [Hb|Hb]]]; [now left|discriminate Hb|right; now exists b]].
    split; [intros _; right; exists b; now left|intros _; now left].
Qed.
Lemma make_config cs : Forall configuring cs -> exists ks cs', make_components (flat_map cdata_of cs) = (cs', inl ks) /\ Forall2 built (asked cs) ks /\ map cd_name cs' = map co_name ks.
Proof.
  intros H. induction H as [|c cs Hc H (ks & cs' & E & F & N)]; [exists [], []; repeat split; constructor|].
  destruct c as [n co e q ph|n co|n co ph|d|b|]; try contradiction; cbn [flat_map cdata_of app]; unfold asked; cbn [filter asks]; fold (asked cs);
    try (exists ks, cs'; repeat split; assumption).
  - destruct Hc as [[a d] Hc]. cbn [make_components construct]. rewrite Hc, E. eexists. eexists. split; [reflexivity|]. split; [|cbn [map cd_name co_name]; now rewrite N].
    constructor; [|exact F]. cbn [built co_name co_yield co_phase co_ems co_abs]. repeat split. exists d. split; [reflexivity|exact Hc].
  - destruct Hc as [a Hc]. cbn [make_components construct]. rewrite Hc, E. eexists. eexists. split; [reflexivity|]. split; [|cbn [map cd_name co_name]; now rewrite N].
    constructor; [|exact F]. cbn [built co_name co_yield co_ems co_abs]. repeat split. exact Hc.
Qed.
Lemma asked_nil cs : asked cs = [] <-> flat_map cdata_of cs = [].
Proof.
  induction cs as [|c cs IH]; [split; reflexivity|]. unfold asked. cbn [filter flat_map]. destruct c; cbn [asks cdata_of app]; try exact IH; split; discriminate.
Qed.

Lemma rodrigues_turn s c u v : is_unit u -> dot v u = 0 -> mvec (rodrigues s c u) v = vadd (vscale c v) (vscale s (cross u v)).
Proof.
  intros Hu Hv. destruct u as [a b g], v as [x y z]. unfold is_unit, dot in *. cbn [vx vy vz] in *. unfold rodrigues. rewrite mvec_eval. cbn [vx vy vz].
  unfold vadd, vscale, cross; cbn [vx vy vz]. apply vec_eq; cbn [vx vy vz];
    match goal with |- _ = ?r => first [transitivity (r + (1 - c) * a * (x * a + y * b + z * g)); [ring|rewrite Hv; ring] | transitivity (r + (1 - c) * b * (x * a + y * b + z * g)); [ring|rewrite Hv; ring] | transitivity (r + (1 - c) * g * (x * a + y * b + z * g)); [ring|rewrite Hv; ring]] end.
Qed.
Lemma light_placed d : placed d (make_light d).
Proof.
  unfold placed, make_light. cbn [ln_name ln_direction ln_wavelength ln_position ln_tf]. repeat (split; [reflexivity|]). destruct d as [nm [p i] rt dd dw dp]. cbn [ld_rotation ld_location fst snd].
  destruct rt as [[angle axis]|].
  - intros Hn. unfold rotate, rotation_matrix, set_location, tf_init. cbn [loc pose rot translation_matrix].
    assert (Hu : unit_vector axis = Some (vscale (/ norm axis) axis)).
    { unfold unit_vector. destruct (Reqb_spec (norm axis) 0); [contradiction|reflexivity]. }
    destruct (unit_vector_unit _ _ Hu) as [Un Sc]. rewrite Hu. eexists. split; [reflexivity|]. cbn [pose].
    set (u := vscale (/ norm axis) axis) in *. set (m := rodrigues (sin angle) (cos angle) u).
    assert (MM : forall v, mvec (mmul m mid) v = mvec m v) by (intros v; now rewrite mvec_mmul, mvec_id).
    split; [|split].
    + unfold to_point, rcomp. cbn [rot tra]. rewrite MM. unfold vadd, vsub in *.
      destruct p as [p1 p2 p3]. destruct m as [[a1 a2 a3] [b1 b2 b3] [c1 c2 c3]]. unfold to_point. cbn [rot tra]. unfold vzero, vadd. rewrite !mvec_eval. apply vec_eq; cbn [vx vy vz]; ring.
    + unfold to_vector, rcomp. cbn [rot]. rewrite MM. rewrite <- Sc at 1. rewrite mvec_scale. unfold m. rewrite rodrigues_axis by exact Un. exact Sc.
    + intros v Hv. unfold to_vector, rcomp. cbn [rot]. rewrite MM. unfold m. rewrite rodrigues_turn; [|exact Un|].
      * unfold u. destruct axis as [a b g], v as [x y z]. apply vec_eq; unfold vadd, vscale, cross; cbn [vx vy vz]; unfold Rdiv; ring.
      * unfold u. destruct axis as [a b g], v as [x y z]. unfold dot, vscale in *. cbn [vx vy vz] in *. replace (x * (/ norm (V a b g) * a) + y * (/ norm (V a b g) * b) + z * (/ norm (V a b g) * g)) with (/ norm (V a b g) * (x * a + y * b + z * g)) by ring. rewrite Hv. ring.
  - eexists. split; [reflexivity|]. cbn [set_location tf_init pose rot translation_matrix]. split; [|intros v; unfold to_vector; cbn [rot]; apply mvec_id].
    unfold to_point. cbn [rot tra]. rewrite mvec_id. destruct p as [p1 p2 p3]. unfold vadd, vzero. apply vec_eq; cbn [vx vy vz]; ring.
Qed.

Lemma script_app l0 l1 a b : script l0 a = (l1, None) -> script l0 (a ++ b) = script l1 b.
Proof.
  revert l0. induction a as [|c a IH]; intros l0 E; [injection E as <-; reflexivity|]. cbn [script app] in *. destruct (exec l0 c) as [l2 [e|]]; [discriminate E|]. now apply IH.
Qed.

(** ** The configured scene *)
Theorem C131_as_configured : forall size range n0 n1 cs, Forall configuring cs -> asked cs <> [] ->
  exists l l' sc, script (new_lsc size range n0 n1) cs = (l, None) /\ exec l Run = (l', None) /\ l_scene l' = Some sc /\
    Forall2 built (asked cs) (bn_components (sc_lsc sc)) /\
    (lights cs <> [] -> Forall2 placed (lights cs) (sc_lights sc)) /\
    (sc_mirror sc = None <-> ~ exists b, In (AddAirGapMirror b) cs) /\
    bn_index (sc_world sc) = n0 /\ bn_index (sc_lsc sc) = n1 /\ bn_size (sc_lsc sc) = size /\
    component_names l' = Some (map co_name (bn_components (sc_lsc sc))) /\ light_names l' = Some (map ln_name (sc_lights sc)).
Proof.
  intros size range n0 n1 cs H Ha. destruct (script_config cs H (new_lsc size range n0 n1) eq_refl) as (l & E & A1 & A2 & A3 & A4 & A5 & A6 & A7 & A8).
  destruct (make_config cs H) as (ks & cs' & Em & F & N). cbn [new_lsc l_size l_range l_n0 l_n1 l_components l_lights l_mirror app] in *.
  exists l. destruct size as [len w d]. unfold exec. rewrite A5. unfold make_scene. rewrite A1, A6.
  assert (Hn : flat_map cdata_of cs <> []) by (intros Z; apply Ha; now apply asked_nil).
  replace (match flat_map cdata_of cs with [] => default_components l | c0 => Some c0 end) with (Some (flat_map cdata_of cs)) by (destruct (flat_map cdata_of cs); [contradiction|reflexivity]).
  rewrite Em. eexists. eexists. split; [exact E|]. split; [reflexivity|]. cbn [l_scene]. split; [reflexivity|]. cbn [sc_lsc bn_components sc_lights sc_mirror sc_world bn_index bn_size l_n0 l_n1 l_lights l_mirror].
  split; [exact F|]. split.
  { intros Hl. rewrite A7. destruct (lights cs) as [|x r]; [contradiction|]. clear. induction (x :: r) as [|a q IH]; constructor; [apply light_placed|exact IH]. }
  split.
  { destruct (l_mirror l); [split; [discriminate|intros Z; exfalso; apply Z; destruct (proj1 A8 eq_refl) as [Z1|Z1]; [discriminate Z1|exact Z1]]|].
    split; [intros _ Z; discriminate (proj2 A8 (or_intror Z))|reflexivity]. }
  split; [exact A3|]. split; [exact A4|]. split; [reflexivity|].
  unfold component_names, light_names. cbn [l_scene l_components l_lights]. split; [now rewrite N|]. rewrite map_map. reflexivity.
Qed.
Print Assumptions C131_as_configured.

(** ** Where things are *)
(** the points of a box, in the frame of the world *)
Definition region (b : bnode) (p : vec) : Prop :=
  exists q, Rabs (vx q) <= vx (bn_size b) / 2 /\ Rabs (vy q) <= vy (bn_size b) / 2 /\ Rabs (vz q) <= vz (bn_size b) / 2 /\ p = to_point (pose (bn_tf b)) q.
Definition strictly_inside (b : bnode) (p : vec) : Prop :=
  exists q, Rabs (vx q) < vx (bn_size b) / 2 /\ Rabs (vy q) < vy (bn_size b) / 2 /\ Rabs (vz q) < vz (bn_size b) / 2 /\ p = to_point (pose (bn_tf b)) q.
Lemma init_point q : to_point (pose (tf_init None)) q = q.
Proof. unfold to_point. cbn [tf_init pose translation_matrix rot tra]. rewrite mvec_id. destruct q as [a b c]. unfold vadd, vzero. apply vec_eq; cbn [vx vy vz]; ring. Qed.
Lemma made_parts l l' sc : l_scene l = None -> exec l Run = (l', None) -> l_scene l' = Some sc ->
  sc_world sc = BNode "World" (V (vx (l_size l) * 100) (vy (l_size l) * 100) (vz (l_size l) * 100)) (l_n0 l) [] (tf_init None) /\
  bn_size (sc_lsc sc) = l_size l /\ bn_tf (sc_lsc sc) = tf_init None /\
  (forall m, sc_mirror sc = Some m -> bn_size m = V (vx (l_size l)) (vy (l_size l)) (1 / 4 * vz (l_size l)) /\ bn_index m = l_n0 l /\ bn_components m = [] /\
     translate (tf_init None) (V 0 0 (- (1 / 2 * vz (l_size l) + 1 / 4 * vz (l_size l)))) false = Some (bn_tf m)) /\
  sc_lights sc = map make_light (match l_lights l with [] => default_lights l | ls => ls end).
Proof.
  intros Hs E Hc. unfold exec in E. rewrite Hs in E. unfold make_scene in E. destruct l as [[len w d] rg n0 n1 mi la scn li co]. cbn [l_size l_components l_n0 l_n1 l_mirror l_lambertian l_scene l_lights l_range] in *.
  match type of E with match ?x with _ => _ end = _ => destruct x as [cs|] end; [|discriminate E]. destruct (make_components cs) as [cs' [ks|e]]; [|discriminate E].
  injection E as <-. cbn [l_scene] in Hc. injection Hc as <-. cbn [sc_world sc_lsc sc_mirror sc_lights bn_size bn_tf vx vy vz].
  split; [reflexivity|]. split; [reflexivity|]. split; [reflexivity|]. split.
  - intros m Hm. destruct mi; [|discriminate Hm]. unfold translate in *. cbn [tf_init loc_int andb] in *. injection Hm as <-. cbn [bn_size bn_index bn_components bn_tf]. repeat split.
  - destruct li; reflexivity.
Qed.

(** Everything lies in the world; the mirror is parallel to the bottom of the plate, below all of it,
    and the gap is an eighth of the thickness everywhere. *)
Theorem C131_layout : forall l l' sc, 0 < vx (l_size l) -> 0 < vy (l_size l) -> 0 < vz (l_size l) ->
  l_scene l = None -> exec l Run = (l', None) -> l_scene l' = Some sc ->
  (forall p, region (sc_lsc sc) p -> strictly_inside (sc_world sc) p) /\
  (forall m, sc_mirror sc = Some m ->
     (forall p, region m p -> strictly_inside (sc_world sc) p) /\
     (forall p q, region (sc_lsc sc) p -> region m q -> vz q + vz (l_size l) / 8 <= vz p) /\
     (forall p, region (sc_lsc sc) p -> region m (V (vx p) (vy p) (- (5 / 8) * vz (l_size l))))).
Proof.
  intros l l' sc Hx Hy Hz Hs E Hc. destruct (made_parts _ _ _ Hs E Hc) as (W & S & T & Mi & _).
  assert (PL : forall p, region (sc_lsc sc) p -> Rabs (vx p) <= vx (l_size l) / 2 /\ Rabs (vy p) <= vy (l_size l) / 2 /\ Rabs (vz p) <= vz (l_size l) / 2).
  { intros p (q & Q1 & Q2 & Q3 & ->). rewrite T, init_point. rewrite S in *. auto. }
  assert (WO : forall p, Rabs (vx p) < vx (l_size l) * 50 -> Rabs (vy p) < vy (l_size l) * 50 -> Rabs (vz p) < vz (l_size l) * 50 -> strictly_inside (sc_world sc) p).
  { intros p P1 P2 P3. exists p. rewrite W. cbn [bn_size bn_tf vx vy vz]. rewrite init_point. repeat split; lra. }
  split. { intros p Hp. destruct (PL p Hp) as (P1 & P2 & P3). apply WO; lra. }
  intros m Hm. destruct (Mi m Hm) as (Ms & _ & _ & Mt). unfold translate in Mt. cbn [tf_init loc_int andb] in Mt. injection Mt as Mt.
  assert (MP : forall q, to_point (pose (bn_tf m)) q = V (vx q) (vy q) (vz q - 3 / 4 * vz (l_size l))).
  { intros q. rewrite <- Mt. cbn [pose]. rewrite to_point_rcomp. change (translation_matrix vzero) with (pose (tf_init None)). rewrite init_point. unfold to_point, translation_matrix. cbn [rot tra]. rewrite mvec_id. destruct q as [a b c]. unfold vadd. apply vec_eq; cbn [vx vy vz]; field. }
  split; [|split].
  - intros p (q & Q1 & Q2 & Q3 & ->). rewrite Ms in *. cbn [vx vy vz] in *. rewrite MP. apply WO; cbn [vx vy vz]; [lra|lra|]. revert Q3. unfold Rabs. destruct (Rcase_abs (vz q)), (Rcase_abs (vz q - 3 / 4 * vz (l_size l))); lra.
  - intros p q Hp (r & Q1 & Q2 & Q3 & ->). destruct (PL p Hp) as (_ & _ & P3). rewrite Ms in *. cbn [vx vy vz] in *. rewrite MP. cbn [vz].
    pose proof (Rle_abs (vz r)). pose proof (Rle_abs (- vz p)) as A. rewrite Rabs_Ropp in A. lra.
  - intros p Hp. destruct (PL p Hp) as (P1 & P2 & P3). exists (V (vx p) (vy p) (1 / 8 * vz (l_size l))). rewrite Ms, MP. cbn [vx vy vz]. split; [exact P1|]. split; [exact P2|].
    split; [rewrite Rabs_pos_eq by lra; lra|]. apply vec_eq; cbn [vx vy vz]; field.
Qed.
Print Assumptions C131_layout.

(** ** Defaults *)
Lemma radians_180 : radians 180 = PI.
Proof. unfold radians. field. Qed.
(** Without lights of the user there is one, five thicknesses above the centre, shining down: each
    of its photons crosses the plane of the top face within 4.5 thicknesses times tan 20 degrees. *)
Theorem C131_default_light : forall l l' sc, 0 < vz (l_size l) -> l_lights l = [] ->
  l_scene l = None -> exec l Run = (l', None) -> l_scene l' = Some sc ->
  exists n t, sc_lights sc = [n] /\ ln_tf n = Some t /\ ln_name n = "Light"%string /\ ln_wavelength n = DNone /\ ln_position n = DNone /\ ln_direction n = DCone (radians 20) /\
    to_point (pose t) vzero = V 0 0 (5 * vz (l_size l)) /\
    forall p1 p2, 0 <= p1 < 1 -> exists u, cone (radians 20) p1 p2 = Some u /\
      exists s, 0 < s /\ let p := vadd (to_point (pose t) vzero) (vscale s (to_vector (pose t) u)) in
        vz p = vz (l_size l) / 2 /\ sqrt (vx p * vx p + vy p * vy p) <= 9 / 2 * vz (l_size l) * tan (radians 20).
Proof.
  intros l l' sc Hz Hl Hs E Hc. destruct (made_parts _ _ _ Hs E Hc) as (_ & _ & _ & _ & L). rewrite Hl in L. unfold default_lights in L. cbn [map] in L. rewrite L. clear L.
  assert (N1 : norm (V 1 0 0) = 1) by (apply norm_unit; unfold is_unit, dot; cbn [vx vy vz]; ring).
  pose proof (light_placed (LData "Light" (V 0 0 (vz (l_size l) * 5), false) (Some (radians 180, V 1 0 0)) (DCone (radians 20)) DNone DNone)) as P.
  destruct P as (_ & _ & _ & _ & P). cbn [ld_rotation ld_location fst] in P. destruct (P ltac:(rewrite N1; lra)) as (t & Et & Pz & Pa & Pt). clear P.
  eexists. exists t. split; [reflexivity|]. split; [exact Et|]. do 4 (split; [reflexivity|]). rewrite radians_180, cos_PI, sin_PI, N1 in Pt.
  split; [rewrite Pz; apply vec_eq; cbn [vx vy vz]; ring|]. intros p1 p2 Hp.
  pose proof PI_RGT_0 as PI0. pose proof PI2_3_2 as PI3. pose proof PI_4 as PI4.
  assert (R20 : radians 20 = PI / 9) by (unfold radians; field).
  destruct (C42_cone_accepts (radians 20) p1 p2) as (u & Eu). { rewrite R20. split; [|lra]. apply Rlt_trans with (/ 10); [apply Rinv_lt_contravar; lra|lra]. }
  exists u. split; [exact Eu|]. destruct (C42_cone (radians 20) _ _ _ ltac:(rewrite R20; lra) Hp Eu) as (Un & Cz & Z0 & Sq).
  assert (C0 : 0 < cos (radians 20)) by (rewrite R20; apply cos_gt_0; lra). assert (S0 : 0 < sin (radians 20)) by (rewrite R20; apply sin_gt_0; lra).
  assert (TV : to_vector (pose t) u = V (vx u) (- vy u) (- vz u)).
  { assert (TA : to_vector (pose t) u = vadd (vscale (vx u) (to_vector (pose t) (V 1 0 0))) (to_vector (pose t) (V 0 (vy u) (vz u)))).
    { unfold to_vector. rewrite <- mvec_scale, <- mvec_add. f_equal. destruct u as [a b c]. unfold vadd, vscale. apply vec_eq; cbn [vx vy vz]; ring. }
    rewrite TA, Pa, Pt by (unfold dot; cbn [vx vy vz]; ring). unfold vadd, vscale, cross. apply vec_eq; cbn [vx vy vz]; field. }
  set (d := vz (l_size l)) in *. assert (U0 : 0 < vz u) by lra. exists (9 / 2 * d / vz u). split; [apply Rdiv_lt_0_compat; lra|]. cbv zeta. rewrite Pz, TV. unfold vadd, vscale. cbn [vx vy vz].
  split; [field; lra|].
  set (s := 9 / 2 * d / vz u). assert (Hs0 : 0 < s) by (apply Rdiv_lt_0_compat; lra).
  replace ((0 + s * vx u) * (0 + s * vx u) + (0 + s * - vy u) * (0 + s * - vy u)) with (s * s * (1 - vz u * vz u)).
  2:{ unfold is_unit, dot in Un. replace (1 - vz u * vz u) with (vx u * vx u + vy u * vy u) by lra. ring. }
  assert (B : 9 / 2 * d * tan (radians 20) = s * (vz u * tan (radians 20))) by (unfold s; field; lra).
  rewrite B. apply Rsqr_incr_0_var.
  2:{ apply Rmult_le_pos; [lra|]. apply Rmult_le_pos; [lra|]. unfold tan. apply Rlt_le, Rdiv_lt_0_compat; assumption. }
  unfold Rsqr. rewrite sqrt_sqrt. 2:{ apply Rmult_le_pos; [nra|]. rewrite Sq. apply Rmult_le_pos; nra. }
  assert (K : 1 - vz u * vz u <= vz u * tan (radians 20) * (vz u * tan (radians 20))).
  { pose proof (sin2_cos2 (radians 20)) as SC. unfold Rsqr in SC. set (sn := sin (radians 20)) in *. set (cs := cos (radians 20)) in *. unfold tan. fold sn cs.
    replace (vz u * (sn / cs) * (vz u * (sn / cs))) with (vz u * vz u * ((1 - cs * cs) / (cs * cs))) by (replace (1 - cs * cs) with (sn * sn) by lra; field; lra).
    assert (cs * cs <= vz u * vz u) by nra. assert (0 < cs * cs) by nra. 
    apply Rmult_le_reg_r with (cs * cs); [assumption|]. replace (vz u * vz u * ((1 - cs * cs) / (cs * cs)) * (cs * cs)) with (vz u * vz u * (1 - cs * cs)) by (field; lra). nra. }
  nra.
Qed.
Print Assumptions C131_default_light.

(** Without components of the user (and of a wavelength range) the plate holds Lumogen F Red with a
    peak of 10 per unit length and a background of 0.1. *)
Lemma range_inc n : forall a, increasing (map (fun k => 400 + INR k) (seq a n)).
Proof.
  induction n as [|n IH]; intros a; [exact I|]. destruct n as [|n]; [exact I|].
  specialize (IH (S a)). cbn [seq map increasing] in *. split; [rewrite S_INR; lra|exact IH].
Qed.
Lemma default_range_inc : increasing default_range.
Proof. apply range_inc. Qed.
Lemma combine_fst {A B} (x : list A) (y : list B) : List.length x = List.length y -> map fst (combine x y) = x.
Proof. revert y. induction x as [|a x IH]; intros [|b y] H; try discriminate; [reflexivity|]. cbn. f_equal. apply IH. now injection H. Qed.
Lemma combine_snd {A B} (x : list A) (y : list B) : List.length x = List.length y -> map snd (combine x y) = y.
Proof. revert y. induction x as [|a x IH]; intros [|b y] H; try discriminate; [reflexivity|]. cbn. f_equal. apply IH. now injection H. Qed.
Theorem C131_default_components : forall size n0 n1 cs, Forall configuring cs -> asked cs = [] ->
  exists l l' sc a b ya, script (new_lsc size None n0 n1) cs = (l, None) /\ exec l Run = (l', None) /\ l_scene l' = Some sc /\
    bn_components (sc_lsc sc) = [a; b] /\ component_names l' = Some [co_name a; co_name b] /\
    co_name a = "Lumogen F Red 305"%string /\ co_yield a = 1 /\ co_name b = "Background"%string /\ co_yield b = 0 /\
    co_abs b = Some (DConst (1 / 10)) /\ co_ems b = None /\
    (exists ca, co_abs a = Some (DTable false default_range ya ca)) /\ Forall (fun y => 0 < y <= 10) ya /\ In 10 ya /\
    exists ye ce, co_ems a = Some (DTable false default_range ye ce) /\ increasing ce.
Proof.
  intros size n0 n1 cs H Ha. destruct (script_config cs H (new_lsc size None n0 n1) eq_refl) as (l & E & A1 & A2 & A3 & A4 & A5 & A6 & A7 & A8).
  cbn [new_lsc l_size l_range l_n0 l_n1 l_components l_lights l_mirror app] in *. rewrite (proj1 (asked_nil cs) Ha) in A6.
  set (x := default_range) in *. assert (Ix : increasing x) by exact default_range_inc.
  assert (Lx : List.length x = 400%nat) by (unfold x, default_range; now rewrite map_length, seq_length). clearbody x.
  set (y := map (fun y => y * 10) (lumogen_absorption x)).
  destruct (C97_absorption_peak_one x) as [[Pk1 Pk2] _]. { intros ->. discriminate Lx. }
  assert (Ly : List.length x = List.length y) by (unfold y, lumogen_absorption, normalised; now rewrite !map_length).
  assert (Py : Forall (fun y => 0 < y <= 10) y). { apply Forall_forall. intros v Hv. apply in_map_iff in Hv. destruct Hv as (u & <- & Hu). rewrite Forall_forall in Pk1. specialize (Pk1 u Hu). lra. }
  assert (Ty : In 10 y). { apply in_map_iff. exists 1. split; [ring|exact Pk2]. }
  assert (Dy : map (fun y => y * 10) (lumogen_absorption x) = y) by reflexivity. clearbody y.
  destruct (C31_positive_spectrum_has_increasing_cdf x y Ly ltac:(lia) Ix) as (ca & Ea & _). { eapply Forall_impl; [|exact Py]. cbn. intros; lra. }
  set (z := lumogen_emission x). assert (Lz : List.length x = List.length z) by (unfold z, lumogen_emission; now rewrite map_length).
  destruct (C31_positive_spectrum_has_increasing_cdf x z Lz ltac:(lia) Ix) as (ce & Ee & Ic).
  { apply Forall_forall. intros v Hv. apply in_map_iff in Hv. destruct Hv as (u & <- & _). rewrite Rmult_1_l. apply exp_pos. }
  exists l. unfold exec. rewrite A5. unfold make_scene. rewrite A1, A6. destruct size as [len w d]. unfold default_components. rewrite A2, Dy. fold z.
  assert (K : luminophore (CArray (combine x y)) (EArray (combine x z)) None false = Made (Some (DTable false x y ca), DTable false x z ce)).
  { unfold luminophore, abs_dist, ems_dist, distribution. rewrite (combine_fst x y Ly), (combine_snd x y Ly), (combine_fst x z Lz), (combine_snd x z Lz), Ea, Ee. reflexivity. }
  cbn [make_components construct abs_dist]. rewrite K.
  eexists. eexists. eexists. eexists. exists y. split; [exact E|]. split; [reflexivity|]. cbn [l_scene]. split; [reflexivity|]. cbn [sc_lsc bn_components]. split; [reflexivity|].
  split; [reflexivity|]. cbn [co_name co_yield co_abs co_ems]. do 6 (split; [reflexivity|]). split; [now exists ca|]. split; [exact Py|]. split; [exact Ty|]. exists z, ce. split; [reflexivity|exact Ic].
Qed.
Print Assumptions C131_default_components.

(** Names can be asked for only when there is a scene. *)
Theorem C131_no_names_without_scene : forall cs l l', Forall configuring cs -> l_scene l = None -> script l cs = (l', None) ->
  component_names l' = None /\ light_names l' = None.
Proof.
  intros cs l l' F H E. assert (Q : l_scene l' = None).
  { revert l H E. induction F as [|c cs Hc _ IH]; intros l H E; cbn [script] in E; [now injection E as <-|].
    destruct (exec l c) as [l1 [e|]] eqn:Ex; [discriminate|]. apply (IH l1); [|exact E].
    destruct c; cbn [exec] in Ex; try contradiction; try discriminate; injection Ex as <-; exact H. }
  unfold component_names, light_names. now rewrite Q.
Qed.
Print Assumptions C131_no_names_without_scene.

(** ** What goes wrong *)
(** The scene is built once: calls after the first run do not change it ... *)
Theorem C131_scene_built_once : forall cs l sc, l_scene l = Some sc -> l_scene (fst (script l cs)) = Some sc.
Proof.
  induction cs as [|c cs IH]; intros l sc H; [exact H|]. cbn [script].
  assert (K : l_scene (fst (exec l c)) = Some sc) by (destruct c; cbn [exec fst]; try exact H; rewrite H; exact H).
  destruct (exec l c) as [l1 [e|]]; [exact K|]. cbn [fst] in K. now apply IH.
Qed.
Print Assumptions C131_scene_built_once.
(** ... but are listed: a luminophore and a light that are not in the scene. *)
Theorem C131_later_additions_refuted : exists size n0 n1 cs l sc names lnames,
  script (new_lsc size None n0 n1) cs = (l, None) /\ l_scene l = Some sc /\ component_names l = Some names /\ light_names l = Some lnames /\
  In "dye"%string names /\ ~ In "dye"%string (map co_name (bn_components (sc_lsc sc))) /\
  In "lamp"%string lnames /\ ~ In "lamp"%string (map ln_name (sc_lights sc)).
Proof.
  exists (V 4 2 1), 1, (3 / 2), [AddAbsorber "PMMA" (CFloat (1 / 50)); Run; AddAbsorber "dye" (CFloat 5); AddLight (LData "lamp" (V 0 0 3, false) None DNone DNone DNone); Run].
  eexists. eexists. eexists. eexists. split; [reflexivity|]. split; [reflexivity|]. split; [reflexivity|]. split; [reflexivity|].
  cbn. repeat split; try (now auto); intros Z; repeat (destruct Z as [Z|Z]; try discriminate Z); contradiction.
Qed.
Print Assumptions C131_later_additions_refuted.

(** The argument wavelength_range is not stored: with it, the default components cannot be made. *)
Theorem C131_wavelength_range_refuted : exists x, increasing x /\ forall size n0 n1 cs, Forall configuring cs -> asked cs = [] ->
  exists l, script (new_lsc size (Some x) n0 n1) (cs ++ [Run]) = (l, Some ExAttribute).
Proof.
  exists default_range. split; [exact default_range_inc|]. set (x := default_range). clearbody x.
  intros size n0 n1 cs H Ha. destruct (script_config cs H (new_lsc size (Some x) n0 n1) eq_refl) as (l & E & A1 & A2 & _ & _ & A5 & A6 & _).
  exists l. rewrite (script_app _ _ _ [Run] E). cbn [script exec]. rewrite A5. unfold make_scene. cbn [new_lsc l_components app l_range] in A6, A2. rewrite A6, (proj1 (asked_nil cs) Ha). unfold default_components. rewrite A2.
  destruct (l_size l). reflexivity.
Qed.
Print Assumptions C131_wavelength_range_refuted.

(** add_scatterer cannot be used. *)
Theorem C131_scatterer_refuted : exists n co ph, (exists d, abs_dist co None false = Made (Some d)) /\ forall l, exec l (AddScatterer n co ph) = (l, Some ExName).
Proof. exists "beads"%string, (CFloat 1), None. split; [eexists; reflexivity|reflexivity]. Qed.
Print Assumptions C131_scatterer_refuted.

(** A run that failed because of a component fails again, whatever is added. *)
Theorem C131_failed_run_stays_failed : forall l l' e cs, exec l Run = (l', Some e) -> e <> ExAttribute -> Forall configuring cs ->
  exists l'', script l' cs = (l'', None) /\ snd (exec l'' Run) = Some ExKey.
Proof.
  intros l l' e cs E Ne H. unfold exec in E. destruct (l_scene l) eqn:Hs; [discriminate E|]. unfold make_scene in E. destruct l as [[len w d] rg n0 n1 mi la scn li co]. cbn [l_size l_components l_scene] in *.
  match type of E with match ?x with _ => _ end = _ => assert (Nn : x <> Some []) by (destruct co; [cbn; destruct rg; discriminate|discriminate]); destruct x as [c0|] end; [|injection E as _ <-; contradiction].
  assert (Hd : forall c cs' r, make_components c = (cs', r) -> c <> [] -> exists n rest, cs' = Popped n :: rest).
  { clear. intros [|[c n co|n] c0] cs' r E Ne; [contradiction| |]; cbn [make_components] in E.
    - destruct (construct c n co); [destruct (make_components c0) as [k1 r1]|]; injection E as <- _; eauto.
    - injection E as <- _. eauto. }
  destruct (make_components c0) as [k1 [ks|e1]] eqn:Em; [discriminate E|]. injection E as <- <-. destruct (Hd _ _ _ Em) as (n & rest & ->); [intros ->; now apply Nn|].
  match goal with |- exists _, script ?l1 cs = _ /\ _ => destruct (script_config cs H l1 Hs) as (l'' & E' & B1 & _ & _ & _ & B5 & B6 & _) end.
  exists l''. split; [exact E'|]. unfold exec. rewrite B5. unfold make_scene. rewrite B1, B6. reflexivity.
Qed.
Print Assumptions C131_failed_run_stays_failed.

(** ** Example: the second script of the module (703-760), with numbers for the dye *)
Example C131_example : exists l sc, let cs := [AddLuminophore "Fluro Red" (CArray [(400, 1); (500, 11); (600, 1)]) (EArray [(500, 1); (600, 2); (700, 1)]) (19 / 20) None;
    AddAbsorber "PMMA" (CFloat (1 / 50)); AddLight (LData "Lamp" (V 0 0 (27 / 200), false) (Some (radians 180, V 1 0 0)) DNone (DUser 1) (DUser 2)); AddAirGapMirror false] in
  Forall configuring cs /\ asked cs <> [] /\ lights cs <> [] /\ script (new_lsc (V (24 / 5) (9 / 5) (1 / 4)) (Some [400; 800]) 1 (3 / 2)) (cs ++ [Run]) = (l, None) /\ l_scene l = Some sc /\
  map co_name (bn_components (sc_lsc sc)) = ["Fluro Red"; "PMMA"]%string /\ map ln_name (sc_lights sc) = ["Lamp"]%string /\ exists m, sc_mirror sc = Some m.
Proof.
  set (lum := AddLuminophore _ _ _ _ _).
  assert (F : Forall configuring [lum; AddAbsorber "PMMA" (CFloat (1 / 50)); AddLight (LData "Lamp" (V 0 0 (27 / 200), false) (Some (radians 180, V 1 0 0)) DNone (DUser 1) (DUser 2)); AddAirGapMirror false]).
  { repeat constructor; [|now eexists]. cbn [configuring lum]. unfold luminophore, abs_dist, ems_dist, distribution. cbn [map fst snd].
    destruct (C31_positive_spectrum_has_increasing_cdf [400; 500; 600] [1; 11; 1]) as (c1 & E1 & _); [reflexivity|cbn; lia|cbn; lra|repeat constructor; lra|].
    destruct (C31_positive_spectrum_has_increasing_cdf [500; 600; 700] [1; 2; 1]) as (c2 & E2 & _); [reflexivity|cbn; lia|cbn; lra|repeat constructor; lra|].
    rewrite E1, E2. eexists. reflexivity. }
  destruct (C131_as_configured (V (24 / 5) (9 / 5) (1 / 4)) (Some [400; 800]) 1 (3 / 2) _ F ltac:(discriminate)) as (l & l' & sc & E & R & S & B & L & Mi & _).
  exists l', sc. split; [exact F|]. split; [discriminate|]. split; [discriminate|].
  split.
  { rewrite (script_app _ _ _ [Run] E). cbn [script]. rewrite R. reflexivity. }
  split; [exact S|]. split.
  { clear - B. inversion B as [|? k1 ? ks B1 B2 E1 E2]; subst. inversion B2 as [|? k2 ? ks2 B3 B4 E3 E4]; subst. inversion B4; subst. cbn [map]. destruct B1 as (-> & _), B3 as (-> & _). reflexivity. }
  split.
  { specialize (L ltac:(discriminate)). clear - L. inversion L as [|? n1 ? ns L1 L2]; subst. inversion L2; subst. destruct L1 as (E & _). cbn [map]. now rewrite E. }
  destruct (sc_mirror sc) as [m|]; [now exists m|]. exfalso. apply (proj1 Mi eq_refl). exists false. cbn. auto.
Qed.
