(** The luminescent solar concentrator device: C62, C63, C84 - C87. *)
From Coq Require Import Reals List Bool Arith Lra Lia.
From Verif Require Import Base Vec DistModel MaterialModel OpticsModel OpticsProps PhaseModel TransformModel GeomModel GeomProofs
  TracerModel TracerProofs TracerProps LscModel.
Import ListNotations.
Open Scope R_scope.

(** The outward normal of the face that carries each name in add_solar_cell
    (lsc.py 38-45). *)
Definition outward (f : facet) : vec :=
  match f with
  | Left => V (-1) 0 0 | Right => V 1 0 0 | Near => V 0 (-1) 0 | Far => V 0 1 0
  | Top => V 0 0 1 | Bottom => V 0 0 (-1)
  end.
Definition all_outward : list facet := [Left; Right; Near; Far; Bottom; Top].
Lemma box_NORMALS_outward : box_NORMALS = map outward all_outward.
Proof. reflexivity. Qed.

(** ** np.allclose tells the six normals apart *)
Lemma close_same a : np_close a a = true.
Proof.
  unfold np_close. apply Rleb_true. rewrite Rminus_diag_eq, Rabs_R0 by reflexivity.
  assert (0 < / 10 ^ 8) by (apply Rinv_0_lt_compat; lra). assert (0 < / 10 ^ 5) by (apply Rinv_0_lt_compat; lra).
  pose proof (Rabs_pos a). nra.
Qed.
Lemma close_far a b : 1 <= Rabs (a - b) -> Rabs b <= 1 -> np_close a b = false.
Proof.
  intros H1 H2. unfold np_close. apply Rleb_false.
  assert (/ 10 ^ 8 < / 4) by (apply Rinv_lt_contravar; lra).
  assert (0 < / 10 ^ 5 < / 4) by (split; [apply Rinv_0_lt_compat; lra|apply Rinv_lt_contravar; lra]).
  pose proof (Rabs_pos b). nra.
Qed.
Lemma allclose_outward f g : np_allclose (outward f) (outward g) = facet_eqb f g.
Proof.
  assert (R1 : Rabs 1 = 1) by apply Rabs_R1. assert (R0 : Rabs 0 = 0) by apply Rabs_R0.
  assert (Rm : Rabs (-1) = 1) by (rewrite Rabs_left; lra).
  assert (C01 : np_close 0 1 = false) by (apply close_far; [rewrite Rabs_left; lra|lra]).
  assert (C10 : np_close 1 0 = false) by (apply close_far; [rewrite Rabs_right; lra|lra]).
  assert (C0m : np_close 0 (-1) = false) by (apply close_far; [rewrite Rabs_right; lra|lra]).
  assert (Cm0 : np_close (-1) 0 = false) by (apply close_far; [rewrite Rabs_left; lra|lra]).
  assert (C1m : np_close 1 (-1) = false) by (apply close_far; [rewrite Rabs_right; lra|lra]).
  assert (Cm1 : np_close (-1) 1 = false) by (apply close_far; [rewrite Rabs_left; lra|lra]).
  unfold np_allclose. destruct f, g; cbn [outward vx vy vz facet_eqb];
    rewrite ?close_same, ?C01, ?C10, ?C0m, ?Cm0, ?C1m, ?Cm1; reflexivity.
Qed.

(** ** Labels *)
(** distance of a point from the plane of a face, and half the extent of the box there *)
Definition half (sz : vec) (f : facet) : R :=
  match f with Left | Right => vx sz / 2 | Near | Far => vy sz / 2 | _ => vz sz / 2 end.
Definition gap (sz : vec) (f : facet) (p : vec) : R := Rabs (dot (outward f) p - half sz f).
(** the tolerance of label_facets *)
Definition slack (sz : vec) (f : facet) : R := EPS_ZERO + / 10 ^ 5 * half sz f.

Lemma at_edge_gap sz f x e p : 0 < half sz f -> (x = vx p /\ outward f = V (-1) 0 0 /\ e = - half sz f \/ x = vx p /\ outward f = V 1 0 0 /\ e = half sz f \/
   x = vy p /\ outward f = V 0 (-1) 0 /\ e = - half sz f \/ x = vy p /\ outward f = V 0 1 0 /\ e = half sz f \/
   x = vz p /\ outward f = V 0 0 (-1) /\ e = - half sz f \/ x = vz p /\ outward f = V 0 0 1 /\ e = half sz f) ->
  at_edge x e = Rleb (gap sz f p) (slack sz f).
Proof.
  intros Hh H. unfold at_edge, gap, slack. destruct p as [a b c]; cbn [vx vy vz] in H.
  assert (Hp : Rabs (half sz f) = half sz f) by (apply Rabs_right; lra).
  assert (Hm : Rabs (- half sz f) = half sz f) by (rewrite Rabs_Ropp; exact Hp).
  destruct H as [(-> & -> & ->)|[(-> & -> & ->)|[(-> & -> & ->)|[(-> & -> & ->)|[(-> & -> & ->)|(-> & -> & ->)]]]]];
    rewrite ?Hp, ?Hm; f_equal; unfold dot; cbn [vx vy vz];
    first [f_equal; ring | rewrite <- Rabs_Ropp; f_equal; ring].
Qed.
Definition exchanged (f : facet) : facet := match f with Near => Far | Far => Near | f => f end.

Lemma label_exchanged sz p f : 0 < vx sz -> 0 < vy sz -> 0 < vz sz ->
  gap sz f p <= slack sz f -> (forall g, g <> f -> slack sz g < gap sz g p) ->
  label_facet sz p = Some (exchanged f).
Proof.
  intros X Y Z Hf Hg.
  assert (E : forall g x e, (x = vx p /\ outward g = V (-1) 0 0 /\ e = - half sz g \/ x = vx p /\ outward g = V 1 0 0 /\ e = half sz g \/
   x = vy p /\ outward g = V 0 (-1) 0 /\ e = - half sz g \/ x = vy p /\ outward g = V 0 1 0 /\ e = half sz g \/
   x = vz p /\ outward g = V 0 0 (-1) /\ e = - half sz g \/ x = vz p /\ outward g = V 0 0 1 /\ e = half sz g) ->
    at_edge x e = facet_eqb f g).
  { intros g x e H. rewrite (at_edge_gap sz g x e p); [|destruct g; simpl; lra|exact H].
    destruct (facet_eqb f g) eqn:Eq.
    - assert (f = g) as -> by (destruct f, g; try discriminate Eq; reflexivity). now apply Rleb_true.
    - apply Rleb_false, Hg. intros ->. destruct f; discriminate Eq. }
  unfold label_facet.
  rewrite (E Left (vx p) (- (1/2) * vx sz)) by (left; repeat split; simpl; lra).
  rewrite (E Right (vx p) (1/2 * vx sz)) by (right; left; repeat split; simpl; lra).
  rewrite (E Near (vy p) (- (1/2) * vy sz)) by (do 2 right; left; repeat split; simpl; lra).
  rewrite (E Far (vy p) (1/2 * vy sz)) by (do 3 right; left; repeat split; simpl; lra).
  rewrite (E Bottom (vz p) (- (1/2) * vz sz)) by (do 4 right; left; repeat split; simpl; lra).
  rewrite (E Top (vz p) (1/2 * vz sz)) by (do 5 right; repeat split; simpl; lra).
  destruct f; reflexivity.
Qed.

Lemma box_normal_gap sz p f : 0 < vx sz -> 0 < vy sz -> 0 < vz sz -> box_normal sz p = Some (outward f) -> gap sz f p <= slack sz f.
Proof.
  intros X Y Z H. pose proof EPS_pos.
  assert (Hs : EPS_ZERO <= slack sz f).
  { unfold slack. assert (0 < / 10 ^ 5) by (apply Rinv_0_lt_compat; lra). assert (0 < half sz f) by (destruct f; simpl; lra). nra. }
  apply Rle_trans with (2 := Hs). clear Hs.
  unfold box_normal in H. destruct (on_aabb_surface sz p (2 * EPS_ZERO)) as [|i [|]] eqn:E; try discriminate.
  assert (Hi : In i (on_aabb_surface sz p (2 * EPS_ZERO))) by (rewrite E; now left). clear E.
  unfold on_aabb_surface in Hi. apply in_map_iff in Hi. destruct Hi as ([j q] & Ej & Hq). simpl in Ej. subst j.
  apply filter_In in Hq. destruct Hq as [Hin Hd]. simpl snd in Hd. apply Rltb_true in Hd.
  replace (2 * EPS_ZERO / 2) with EPS_ZERO in Hd by field.
  assert (Hn : Rabs (distance_between p q) = norm (vsub p q)) by (apply Rabs_right, Rle_ge, norm_nonneg).
  rewrite Hn in Hd. clear Hn. assert (Hc : forall v, is_unit v -> Rabs (dot v (vsub p q)) <= norm (vsub p q)).
  { intros v Hv. pose proof (cauchy_schwarz_sq v (vsub p q)) as Hcs. rewrite Hv, Rmult_1_l, <- (norm_sq (vsub p q)) in Hcs.
    pose proof (norm_nonneg (vsub p q)). apply Rsqr_le_abs_0 in Hcs. rewrite (Rabs_right (norm _)) in Hcs; lra. }
  assert (Hu : is_unit (outward f)) by (destruct f; unfold is_unit, dot; simpl; ring).
  specialize (Hc _ Hu). unfold gap.
  replace (dot (outward f) p - half sz f) with (dot (outward f) (vsub p q)); [lra|].
  clear - Hin H. unfold face_points in Hin. simpl combine in Hin. destruct p as [a b c].
  do 6 (destruct Hin as [Hin|Hin]; [injection Hin as <- <-; simpl nth_error in H; destruct f; try (exfalso; injection H; intros; lra); unfold dot; simpl; field|]).
  destruct Hin.
Qed.

(** ** C62 Facet names *)
(** The face that add_solar_cell calls left, right (or the mirror bottom) is the one
    labelled so, away from the plate's edges. *)
Theorem C62_same_face_partial : forall sz p f, 0 < vx sz -> 0 < vy sz -> 0 < vz sz ->
  f <> Near -> f <> Far -> box_normal sz p = Some (outward f) ->
  (forall g, g <> f -> slack sz g < gap sz g p) -> label_facet sz p = Some f.
Proof.
  intros sz p f X Y Z Hn Hf Hb Hg. rewrite (label_exchanged sz p f) by (auto using box_normal_gap).
  destruct f; try contradiction; reflexivity.
Qed.
Print Assumptions C62_same_face_partial.

(** The other two are always exchanged. *)
Theorem C62_near_and_far_exchanged : forall sz p, 0 < vx sz -> 0 < vy sz -> 0 < vz sz ->
  (box_normal sz p = Some (outward Near) -> (forall g, g <> Near -> slack sz g < gap sz g p) -> label_facet sz p = Some Far) /\
  (box_normal sz p = Some (outward Far) -> (forall g, g <> Far -> slack sz g < gap sz g p) -> label_facet sz p = Some Near).
Proof. intros sz p X Y Z. split; intros Hb Hg; [apply (label_exchanged sz p Near)|apply (label_exchanged sz p Far)]; auto using box_normal_gap. Qed.
Print Assumptions C62_near_and_far_exchanged.

(** *** A concrete plate *)
Definition plate : vec := V 4 4 4.
Lemma plate_slack f : slack plate f < / 2.
Proof.
  pose proof eps_tiny. unfold slack. assert (half plate f = 2) as -> by (destruct f; simpl; lra).
  assert (/ 10 ^ 5 < / 1000) by (apply Rinv_lt_contravar; lra). lra.
Qed.
Lemma plate_label p f : gap plate f p = 0 -> (forall g, g <> f -> / 2 <= gap plate g p) -> label_facet plate p = Some (exchanged f).
Proof.
  intros Hf Hg. apply label_exchanged; try (simpl; lra).
  - rewrite Hf. pose proof EPS_pos. unfold slack. assert (half plate f = 2) as -> by (destruct f; simpl; lra).
    assert (0 < / 10 ^ 5) by (apply Rinv_0_lt_compat; lra). lra.
  - intros g Hn. pose proof (plate_slack g). specialize (Hg g Hn). lra.
Qed.
Lemma plate_unlabelled p : (forall g, / 2 <= gap plate g p) -> label_facet plate p = None.
Proof.
  intros Hg. unfold label_facet.
  assert (E : forall g x e, (x = vx p /\ outward g = V (-1) 0 0 /\ e = - half plate g \/ x = vx p /\ outward g = V 1 0 0 /\ e = half plate g \/
   x = vy p /\ outward g = V 0 (-1) 0 /\ e = - half plate g \/ x = vy p /\ outward g = V 0 1 0 /\ e = half plate g \/
   x = vz p /\ outward g = V 0 0 (-1) /\ e = - half plate g \/ x = vz p /\ outward g = V 0 0 1 /\ e = half plate g) ->
    at_edge x e = false).
  { intros g x e H. rewrite (at_edge_gap plate g x e p); [|destruct g; simpl; lra|exact H].
    apply Rleb_false. pose proof (plate_slack g). specialize (Hg g). lra. }
  rewrite (E Left (vx p) (- (1/2) * vx plate)) by (left; repeat split; simpl; lra).
  rewrite (E Right (vx p) (1/2 * vx plate)) by (right; left; repeat split; simpl; lra).
  rewrite (E Near (vy p) (- (1/2) * vy plate)) by (do 2 right; left; repeat split; simpl; lra).
  rewrite (E Far (vy p) (1/2 * vy plate)) by (do 3 right; left; repeat split; simpl; lra).
  rewrite (E Bottom (vz p) (- (1/2) * vz plate)) by (do 4 right; left; repeat split; simpl; lra).
  rewrite (E Top (vz p) (1/2 * vz plate)) by (do 5 right; repeat split; simpl; lra). reflexivity.
Qed.
Ltac gaps := intros; repeat match goal with g : facet |- _ => destruct g end; try congruence;
  unfold gap, dot; cbn [plate outward half vx vy vz];
  match goal with |- context [Rabs ?x] => destruct (Rcase_abs x); [rewrite (Rabs_left x) by assumption|rewrite (Rabs_right x) by assumption]; lra end.
Ltac labelled f := rewrite (plate_label _ f) by gaps; cbn [exchanged].

Definition at_point (p d : vec) (s : src) : ray := Ray p d 555 0 0 s.
Definition down : vec := V 0 0 (-1).
(** a photon from above is absorbed, emitted towards the face at y = -2, where
    add_solar_cell({"near"}) puts the cell, and leaves there *)
Definition collected_near : history :=
  [(at_point (V 0 0 9) down (Light 0), GENERATE);
   (at_point (V 0 0 2) down (Light 0), TRANSMIT);
   (at_point (V 0 0 0) down (Light 0), ABSORB);
   (at_point (V 0 0 0) (V 0 (-1) 0) (Emitter 1 0), EMIT);
   (at_point (V 0 (-2) 0) (V 0 (-1) 0) (Emitter 1 0), TRANSMIT);
   (at_point (V 0 (-9) 0) (V 0 (-1) 0) (Emitter 1 0), EXIT)].
Definition near_only : config := Config plate (3/2) (facet_eqb Near) false.
Definition near_df : list row :=
  [Row Entrance TRANSMIT (Light 0) 555 (Some Top); Row Exit TRANSMIT (Emitter 1 0) 555 (Some Far)].
Lemma near_run : simulate plate [collected_near] new_lsc = (LscState (Some (Store
   [(at_point (V 0 0 2) down (Light 0), TRANSMIT)] [(at_point (V 0 (-2) 0) (V 0 (-1) 0) (Emitter 1 0), TRANSMIT)])) (Some near_df), true).
Proof.
  unfold simulate, make_dataframe, near_df. simpl record_all. cbn [map app entrance_rays exit_rays].
  unfold make_row. cbn [fst snd at_point position source wavelength]. labelled Top. labelled Near. reflexivity.
Qed.

Lemma plate_near_normal : box_normal plate (V 0 (-2) 0) = Some (outward Near).
Proof.
  pose proof eps_tiny. pose proof EPS_pos.
  unfold box_normal, on_aabb_surface, face_points. cbn [plate vx vy vz]. simpl combine.
  replace (2 * EPS_ZERO / 2) with EPS_ZERO by field.
  assert (N : forall q x, vsub (V 0 (-2) 0) q = V x 0 0 \/ vsub (V 0 (-2) 0) q = V 0 x 0 \/ vsub (V 0 (-2) 0) q = V 0 0 x -> Rabs (distance_between (V 0 (-2) 0) q) = Rabs x).
  { intros q x Hq. unfold distance_between, norm. destruct Hq as [ -> | [ -> | -> ]]; unfold dot; simpl;
      [replace (x * x + 0 * 0 + 0 * 0) with (x²)|replace (0 * 0 + x * x + 0 * 0) with (x²)|replace (0 * 0 + 0 * 0 + x * x) with (x²)];
      try (unfold Rsqr; ring); rewrite sqrt_Rsqr_abs; apply Rabs_Rabsolu. }
  cbn [filter snd].
  rewrite (N (V (- (1/2) * 4) (-2) 0) 2) by (left; unfold vsub; simpl; f_equal; lra).
  rewrite (N (V (1/2 * 4) (-2) 0) (-2)) by (left; unfold vsub; simpl; f_equal; lra).
  rewrite (N (V 0 (- (1/2) * 4) 0) 0) by (left; unfold vsub; simpl; f_equal; lra).
  rewrite (N (V 0 (1/2 * 4) 0) (-4)) by (right; left; unfold vsub; simpl; f_equal; lra).
  rewrite (N (V 0 (-2) (- (1/2) * 4)) 2) by (right; right; unfold vsub; simpl; f_equal; lra).
  rewrite (N (V 0 (-2) (1/2 * 4)) (-2)) by (right; right; unfold vsub; simpl; f_equal; lra).
  rewrite (Rabs_right 2), (Rabs_left (-2)), (Rabs_left (-4)), Rabs_R0 by lra.
  rewrite (proj2 (Rltb_false 2 EPS_ZERO)), (proj2 (Rltb_false (- -2) EPS_ZERO)), (proj2 (Rltb_false (- -4) EPS_ZERO)), (proj2 (Rltb_true 0 EPS_ZERO)) by lra. reflexivity.
Qed.

(** The photon leaves through the cell, yet the summary counts it as escaped. *)
Theorem C62_same_face_refuted : exists c hs st df p d e,
  (* one cell, on the face with the normal of "near" *)
  add_solar_cell [Near] (Config (size c) (n1_of c) (fun _ => false) false) = Some c /\
  simulate (size c) hs new_lsc = (st, true) /\ st_df st = Some df /\
  (* the only photon leaves through that face, at a point where the cell takes it *)
  (exists s, st_store st = Some s /\ exit_rays s = [(at_point p d e, TRANSMIT)]) /\
  box_normal (size c) p = Some (outward Near) /\ cell_at c (outward Near) = true /\ all_components e = true /\
  lum_collected c df = 0%nat /\ lum_escaped c df = 1%nat /\ lum_out df Near = 0%nat /\ lum_out df Far = 1%nat.
Proof.
  exists (Config plate (3/2) (fun f => existsb (facet_eqb f) [Near] || false) false), [collected_near].
  do 2 eexists. exists (V 0 (-2) 0), (V 0 (-1) 0), (Emitter 1 0).
  split; [reflexivity|]. split; [exact near_run|]. split; [reflexivity|]. split; [eexists; split; reflexivity|].
  split; [exact plate_near_normal|].
  split; [|repeat split].
  unfold cell_at. change (V 0 (-1) 0) with (outward Near). rewrite allclose_outward. simpl. rewrite !orb_true_r. reflexivity.
Qed.
Print Assumptions C62_same_face_refuted.
(** A point of the left face, where name and label agree. *)
Example C62_example : label_facet plate (V (-2) 1 (-1)) = Some Left /\ (forall g, g <> Left -> slack plate g < gap plate g (V (-2) 1 (-1))).
Proof.
  split; [labelled Left; reflexivity|]. intros g Hg. apply Rlt_le_trans with (/ 2); [apply plate_slack|]. revert Hg. gaps.
Qed.

Lemma filter_length {A} (P : A -> bool) l : (length (filter P l) <= length l)%nat.
Proof. induction l as [|x l IH]; simpl; [lia|]. destruct (P x); simpl; lia. Qed.

(** ** C63 Photon accounting *)
(** What the tracer can return for a photon of a light. *)
Definition traced (h : history) : Prop :=
  exists fuel S maxsteps maxpath m us r, follow fuel S maxsteps maxpath m us r = Some h.
Definition last_kind (h : history) : kind := last (map snd h) GENERATE.
(** the photon left the scene or was stopped by the step budget *)
Definition left_or_killed (h : history) : bool :=
  match last_kind h with EXIT | KILL => true | _ => false end.

Lemma absorb_followed groups fin : Forall interaction groups -> ending fin ->
  forall pre rest, concat groups ++ fin = pre ++ ABSORB :: rest ->
  exists k rest', rest = k :: rest' /\ In k [EMIT; SCATTER; NONRADIATIVE; REACT].
Proof.
  intros Hg Hf. induction Hg as [|x g Hx Hg IH]; intros pre rest H; simpl in H.
  - destruct Hf; destruct pre as [|a [|b [|c pre]]]; try discriminate H; simpl in H; injection H as H;
      try discriminate; subst; eexists _, _; (split; [reflexivity|simpl; auto 10]).
  - assert (T : forall l l' (k : kind), ABSORB :: k :: l = ABSORB :: l' -> In k [EMIT; SCATTER; NONRADIATIVE; REACT] ->
      exists k rest', l' = k :: rest' /\ In k [EMIT; SCATTER; NONRADIATIVE; REACT]) by (intros l l' k E Hk; injection E as <-; eauto).
    assert (N : forall a b (l l' : list kind), a :: l = b :: l' -> l = l') by congruence.
    destruct Hx; simpl in H; destruct pre as [|a pre]; simpl in H; try discriminate.
    + eapply IH, N, H.
    + eapply IH, N, H.
    + apply (T _ _ _ H). simpl; auto.
    + apply N in H. destruct pre as [|b pre]; simpl in H; [discriminate|]. eapply IH, N, H.
    + apply (T _ _ _ H). simpl; auto.
    + apply N in H. destruct pre as [|b pre]; simpl in H; [discriminate|]. eapply IH, N, H.
Qed.
Lemma traced_absorb h : traced h -> forall pre rest, map snd h = pre ++ ABSORB :: rest ->
  exists k rest', rest = k :: rest' /\ In k [EMIT; SCATTER; NONRADIATIVE; REACT].
Proof.
  intros (fuel & S & ms & mp & m & us & r & H) pre rest E.
  destruct (C01_history_grammar _ _ _ _ _ _ _ _ H) as (g & f & Ek & Hg & Hf & _). rewrite Ek in E.
  destruct pre as [|a pre]; [discriminate|]. simpl in E. injection E as _ E. exact (absorb_followed g f Hg Hf pre rest E).
Qed.

Lemma nth_rev_0 {A} (h : list A) : nth_error (rev h) 0 = match rev h with [] => None | a :: _ => Some a end.
Proof. now destruct (rev h). Qed.
Lemma last_split {A} (h : list A) x : nth_error (rev h) 0 = Some x -> exists pre, h = pre ++ [x].
Proof.
  destruct (rev h) as [|a l] eqn:E; [discriminate|]. simpl. injection 1 as ->. exists (rev l).
  rewrite <- (rev_involutive h), E. reflexivity.
Qed.
Lemma last2_split {A} (h : list A) x y : nth_error (rev h) 0 = Some x -> nth_error (rev h) 1 = Some y -> exists pre, h = pre ++ [y; x].
Proof.
  destruct (rev h) as [|a [|b l]] eqn:E; try discriminate. simpl. injection 1 as ->. injection 1 as ->. exists (rev l).
  rewrite <- (rev_involutive h), E. simpl. now rewrite <- app_assoc.
Qed.
Lemma last_kind_app pre (x : ray * kind) : last_kind (pre ++ [x]) = snd x.
Proof. unfold last_kind. rewrite map_app. simpl. apply last_last. Qed.

(** The entries one history adds. *)
Definition entrance_entry (h : history) : list (ray * kind) := firstn 1 (skipn 1 h).
Lemma record_spec h s s' : record_history h s = Some s' ->
  (2 <= length h)%nat /\ entrance_rays s' = entrance_rays s ++ entrance_entry h /\
  exists x, exit_rays s' = exit_rays s ++ x /\
    match last_kind h with
    | EXIT => exists pre e l, h = pre ++ [e; l] /\ x = [e]
    | KILL | ABSORB => exists pre e, h = pre ++ [e] /\ x = [e]
    | _ => x = []
    end.
Proof.
  unfold record_history. destruct h as [|g [|f h]]; try discriminate. change (nth_error (g :: f :: h) 1) with (Some f). cbv iota beta zeta.
  destruct (nth_error (rev (g :: f :: h)) 0) as [l|] eqn:El; [|discriminate].
  destruct (last_split _ _ El) as (pre & Ep). cbn [exit_rays entrance_rays].
  intros H. split; [simpl; lia|].
  assert (Hk : last_kind (g :: f :: h) = snd l) by (rewrite Ep; apply last_kind_app). rewrite Hk.
  destruct (kind_eqb (snd l) ABSORB || kind_eqb (snd l) KILL) eqn:E1.
  - injection H as <-. split; [reflexivity|]. exists [l]. split; [reflexivity|].
    destruct (snd l); try discriminate E1; exists pre, l; auto.
  - destruct (kind_eqb (snd l) EXIT) eqn:E2.
    + destruct (nth_error (rev (g :: f :: h)) 1) as [b|] eqn:Eb; [|discriminate]. injection H as <-.
      split; [reflexivity|]. exists [b]. split; [reflexivity|]. destruct (snd l) eqn:Es; try discriminate E2.
      destruct (last2_split _ _ _ El Eb) as (pre' & Ep'). exists pre', b, l. auto.
    + injection H as <-. split; [reflexivity|]. exists []. split; [now rewrite app_nil_r|].
      destruct (snd l); try discriminate E1; try discriminate E2; reflexivity.
Qed.
Lemma record_defined h s : (2 <= length h)%nat -> exists s', record_history h s = Some s'.
Proof.
  intros Hl. unfold record_history. destruct h as [|g [|f h]]; try (simpl in Hl; lia). change (nth_error (g :: f :: h) 1) with (Some f). cbv iota beta zeta.
  destruct (nth_error (rev (g :: f :: h)) 0) as [l|] eqn:El; [|exfalso; apply nth_error_None in El; rewrite rev_length in El; simpl in El; lia].
  destruct (_ || _); [eauto|]. destruct (kind_eqb _ _); [|eauto].
  destruct (nth_error (rev (g :: f :: h)) 1) as [b|] eqn:Eb; [eauto|exfalso; apply nth_error_None in Eb; rewrite rev_length in Eb; simpl in Eb; lia].
Qed.

Lemma record_all_spec hs : Forall traced hs -> forall s s', record_all hs s = Some s' ->
  entrance_rays s' = entrance_rays s ++ flat_map entrance_entry hs /\ Forall (fun h => (2 <= length h)%nat) hs /\
  exists x, exit_rays s' = exit_rays s ++ x /\ length x = length (filter left_or_killed hs) /\
    Forall (fun e => snd e <> ABSORB) x.
Proof.
  induction 1 as [|h hs Hh Ht IH]; intros s s' H; simpl in H.
  - injection H as <-. split; [now rewrite app_nil_r|]. split; [constructor|]. exists []. split; [now rewrite app_nil_r|]. split; [reflexivity|constructor].
  - destruct (record_history h s) as [s1|] eqn:E1; [|discriminate].
    destruct (record_spec h s s1 E1) as (Hl & Ee & y & Ey & Hy). destruct (IH s1 s' H) as (Fe & Fl & x & Ex & Lx & Ax).
    split; [rewrite Fe, Ee; simpl; now rewrite app_assoc|]. split; [constructor; assumption|].
    exists (y ++ x). split; [rewrite Ex, Ey; now rewrite app_assoc|].
    assert (Hyy : length y = (if left_or_killed h then 1 else 0)%nat /\ Forall (fun e => snd e <> ABSORB) y).
    { unfold left_or_killed. destruct (last_kind h) eqn:El; try (subst y; split; [reflexivity|constructor]).
      - exfalso. destruct Hy as (pre & e & -> & ->). rewrite last_kind_app in El.
        destruct (traced_absorb _ Hh (map snd pre) []) as (k & r & Hk & _); [rewrite map_app; simpl; now rewrite El|discriminate].
      - destruct Hy as (pre & e & l & -> & ->). split; [reflexivity|]. constructor; [|constructor]. intros Hc.
        replace (pre ++ [e; l]) with ((pre ++ [e]) ++ [l]) in El by (rewrite <- app_assoc; reflexivity). rewrite last_kind_app in El.
        destruct (traced_absorb _ Hh (map snd pre) [EXIT]) as (k & r & Hk & Hin); [rewrite map_app; simpl; now rewrite Hc, El|].
        injection Hk as <- _. simpl in Hin. intuition discriminate.
      - destruct Hy as (pre & e & -> & ->). rewrite last_kind_app in El. split; [reflexivity|]. constructor; [|constructor]. rewrite El. discriminate. }
    destruct Hyy as [Hy1 Hy2]. split; [|apply Forall_app; auto]. rewrite app_length, Hy1, Lx. simpl. destruct (left_or_killed h); reflexivity.
Qed.
Lemma record_all_defined hs : Forall (fun h => (2 <= length h)%nat) hs -> forall s, exists s', record_all hs s = Some s'.
Proof.
  induction 1 as [|h hs Hh Ht IH]; intros s; simpl; [eauto|]. destruct (record_defined h s Hh) as (s1 & ->). apply IH.
Qed.
Lemma entrance_length hs : Forall (fun h => (2 <= length h)%nat) hs -> length (flat_map entrance_entry hs) = length hs.
Proof.
  induction 1 as [|h hs Hh Ht IH]; simpl; [reflexivity|]. rewrite app_length, IH.
  destruct h as [|g [|f h]]; simpl in *; try lia.
Qed.
Lemma length_filter_map {A B} (f : A -> B) P l : length (filter P (map f l)) = length (filter (fun x => P (f x)) l).
Proof. induction l as [|a l IH]; simpl; [reflexivity|]. destruct (P (f a)); simpl; now rewrite IH. Qed.
Lemma simulate_ok sz hs st : simulate sz hs new_lsc = (st, true) ->
  exists s, record_all hs (Store [] []) = Some s /\ st_store st = Some s /\ st_df st = Some (make_dataframe sz s).
Proof.
  unfold simulate. simpl. destruct (record_all hs (Store [] [])) as [s|]; [|discriminate]. exists s. split; [reflexivity|].
  destruct (make_dataframe sz s) eqn:E; [discriminate|]. injection H as <-. rewrite <- E. auto.
Qed.
Lemma spectrum_length df fs k src es : length (spectrum df fs k src es) = length (filter (want fs k src es) df).
Proof. apply map_length. Qed.

(** Each simulated photon gives one entrance entry; it gives one exit entry exactly
    when it left the scene or ran out of budget. *)
Theorem C63_one_entry_each_partial : forall sz hs st df, Forall traced hs ->
  simulate sz hs new_lsc = (st, true) -> st_df st = Some df ->
  length (spectrum df [] (Some Entrance) all_sources None) = length hs /\
  length (spectrum df [] (Some Exit) all_sources None) = length (filter left_or_killed hs).
Proof.
  intros sz hs st df Ht Hs Hd. destruct (simulate_ok _ _ _ Hs) as (s & Hr & _ & Hdf). rewrite Hdf in Hd. injection Hd as <-.
  destruct (record_all_spec hs Ht _ _ Hr) as (He & Hl & x & Hx & Lx & _). simpl in He, Hx.
  rewrite !spectrum_length. unfold make_dataframe. rewrite !filter_app, !app_length, !length_filter_map. unfold want, make_row, all_sources. cbn [row_kind_of row_kind_eqb row_source andb].
  assert (T : forall l : history, length (filter (fun _ => true) l) = length l) by (induction l; simpl; auto).
  assert (F : forall l : history, length (filter (fun _ => false) l) = 0%nat) by (induction l; simpl; auto).
  rewrite !T, !F, He, Hx, entrance_length, Lx by exact Hl. split; [apply Nat.add_0_r|reflexivity].
Qed.
Print Assumptions C63_one_entry_each_partial.

(** A run always finishes when every photon hits something. *)
Theorem C63_run_finishes : forall sz hs, hs <> [] -> Forall (fun h => (2 <= length h)%nat) hs ->
  exists st, simulate sz hs new_lsc = (st, true).
Proof.
  intros sz hs Hn Hl. unfold simulate. simpl. destruct (record_all_defined hs Hl (Store [] [])) as (s & E). rewrite E.
  destruct hs as [|h hs]; [contradiction|]. inversion Hl as [|? ? Hh Hl']; subst. simpl in E.
  destruct (record_history h (Store [] [])) as [s1|] eqn:E1; [|discriminate].
  assert (Hlen : (0 < length (entrance_rays s))%nat).
  { destruct (record_spec _ _ _ E1) as (_ & Ee & _).
    assert (G : forall hs s s', record_all hs s = Some s' -> (length (entrance_rays s) <= length (entrance_rays s'))%nat).
    { clear. induction hs as [|h hs IH]; simpl; intros s s' H; [injection H as <-; lia|].
      destruct (record_history h s) as [s1|] eqn:E; [|discriminate]. apply IH in H. destruct (record_spec _ _ _ E) as (_ & Ee & _).
      rewrite Ee, app_length in H. lia. }
    apply G in E. rewrite Ee in E. simpl in E. destruct h as [|g [|f h]]; simpl in *; lia. }
  unfold make_dataframe. destruct (entrance_rays s); [simpl in Hlen; lia|]. simpl. eauto.
Qed.
Print Assumptions C63_run_finishes.

(** The reported loss is zero in every run. *)
Theorem C63_loss_always_zero : forall sz hs st df, Forall traced hs ->
  simulate sz hs new_lsc = (st, true) -> st_df st = Some df ->
  lost df = 0%nat /\ (incident df <> 0%nat -> loss_fraction df = Some 0).
Proof.
  intros sz hs st df Ht Hs Hd. destruct (simulate_ok _ _ _ Hs) as (s & Hr & _ & Hdf). rewrite Hdf in Hd. injection Hd as <-.
  destruct (record_all_spec hs Ht _ _ Hr) as (_ & _ & x & Hx & _ & Ax). simpl in Hx.
  assert (L : lost (make_dataframe sz s) = 0%nat).
  { unfold lost. rewrite spectrum_length. unfold make_dataframe. rewrite !filter_app, !app_length, !length_filter_map.
    unfold want, make_row, all_sources. cbn [row_kind_of row_kind_eqb row_source row_event andb existsb]. rewrite Hx. clear - Ax.
    replace (length (filter (fun _ => false) (entrance_rays s))) with 0%nat by (induction (entrance_rays s); simpl; auto).
    induction Ax as [|e x He Hx IH]; simpl; [reflexivity|]. destruct (snd e); simpl; try exact IH. contradiction He; reflexivity. }
  split; [exact L|]. intros Hi. unfold loss_fraction, ratio. rewrite L. apply Nat.eqb_neq in Hi. rewrite Hi. simpl. f_equal. unfold Rdiv. ring.
Qed.
Print Assumptions C63_loss_always_zero.

(** A photon that the tracer absorbs without re-emission: one entrance entry, no exit
    entry, and no loss in the figures. *)
Theorem C63_complete_refuted : exists h sz st df,
  traced h /\ last_kind h = NONRADIATIVE /\
  simulate sz [h] new_lsc = (st, true) /\ st_df st = Some df /\
  length (spectrum df [] (Some Entrance) all_sources None) = 1%nat /\
  spectrum df [] (Some Exit) all_sources None = [] /\ lost df = 0%nat.
Proof.
  destruct C77_example as (_ & _ & Hk).
  destruct (step_forward 5 cloudy 7 None KT (fun _ => mid_draws) start) as [evs st0] eqn:E. simpl in Hk.
  set (h := map (fun e => (e_ray e, e_kind e)) evs).
  assert (Hd : st0 = Done).
  { destruct st0; [reflexivity| |]; exfalso; destruct (C01_interrupted_history _ _ _ _ _ _ _ _ _ E) as (g & f & Eq & Hg & Hf);
      rewrite Hk in Eq; injection Eq as Eq; clear - Eq Hg Hf; (destruct Hg as [|x g Hx Hg]; simpl in Eq;
      [try (destruct Hf as [-> | ->]; discriminate); subst f; discriminate|destruct Hx; discriminate]). }
  subst st0.
  assert (Ht : traced h) by (exists 5%nat, cloudy, 7%nat, None, KT, (fun _ => mid_draws), start; unfold follow; now rewrite E).
  assert (Hs : map snd h = [GENERATE; ABSORB; NONRADIATIVE]) by (unfold h; rewrite map_map; exact Hk).
  assert (Hl : (2 <= length h)%nat) by (rewrite <- (map_length snd h), Hs; simpl; lia).
  destruct (C63_run_finishes plate [h]) as (st & Hsim); [discriminate|auto|].
  destruct (simulate_ok _ _ _ Hsim) as (s & _ & _ & Hdf).
  exists h, plate, st, (make_dataframe plate s).
  assert (Htr : Forall traced [h]) by auto.
  destruct (C63_one_entry_each_partial _ _ _ _ Htr Hsim Hdf) as [H1' H2'].
  split; [exact Ht|]. split; [unfold last_kind; now rewrite Hs|]. split; [exact Hsim|]. split; [exact Hdf|]. split; [exact H1'|]. split.
  - apply length_zero_iff_nil. rewrite H2'. simpl. unfold left_or_killed, last_kind. rewrite Hs. reflexivity.
  - exact (proj1 (C63_loss_always_zero _ _ _ _ Htr Hsim Hdf)).
Qed.
Print Assumptions C63_complete_refuted.

(** ** C84 What enters comes from a light *)
Lemma pass_first_source S ms mp m u count r :
  match pass S ms mp m u count r with Stop (e :: _) | Raise (e :: _) | Continue (e :: _) _ => source (e_ray e) = source r | _ => True end.
Proof.
  unfold pass. destruct (next_hit S r) as [| |h c a D]; [exact I|exact I|]. destruct (_ || _); [reflexivity|].
  destruct (Nat.eqb h (root S)); [reflexivity|]. destruct (total_attenuation _ _) as [al|]; [|exact I].
  assert (A : forall x, match absorb_step S m u c x r with Stop (e :: _) | Raise (e :: _) | Continue (e :: _) _ => source (e_ray e) = source r | _ => True end).
  { intros x. unfold absorb_step. cbv zeta. destruct (coefficients _ _); [|exact I]. destruct (select_component _ _); [|exact I].
    destruct (nth_error _ _); [|exact I]. destruct (is_radiative _ _ _); [destruct (emit _ _ _ _ _ _)|]; reflexivity. }
  assert (B : match surface_step S u h c a D r with Stop (e :: _) | Raise (e :: _) | Continue (e :: _) _ => source (e_ray e) = source r | _ => True end).
  { unfold surface_step. cbv zeta. destruct (normal_of _ _ _); [|exact I]. destruct (s_reflectivity _ _ _ _ _ _); [|exact I].
    destruct (is_reflected _ _); [destruct (s_reflected _ _ _ _ _ _); [reflexivity|exact I]|].
    destruct (s_transmitted _ _ _ _ _ _); [|exact I]. destruct a; [reflexivity|exact I]. }
  destruct (penetration_depth _ _); [|exact B]. destruct (Rltb _ _); [apply A|exact B].
Qed.
Lemma second_source fuel S ms mp m us r h e : follow fuel S ms mp m us r = Some h -> nth_error h 1 = Some e -> source (fst e) = source r.
Proof.
  unfold follow, step_forward. destruct fuel as [|fuel]; [discriminate|]. simpl.
  pose proof (pass_first_source S ms mp m (us 1%nat) 1 r) as Hp. pose proof (pass_shape S ms mp m (us 1%nat) 1 r) as Hs.
  destruct (pass S ms mp m (us 1%nat) 1 r) as [l|l|l r']; [|discriminate|].
  - intros H. injection H as <-. destruct l as [|x l]; [discriminate|]. simpl. intros H. injection H as <-. exact Hp.
  - destruct (loop fuel S ms mp m us 1 r') as [rest st]. destruct l as [|x l]; [inversion Hs|].
    destruct st; try discriminate. intros H. injection H as <-. simpl. intros H. injection H as <-. exact Hp.
Qed.

(** What simulate traces: rays emitted by lights. *)
Definition from_light (h : history) : Prop :=
  exists fuel S maxsteps maxpath m us r l, follow fuel S maxsteps maxpath m us r = Some h /\ source r = Light l.
Lemma from_light_traced h : from_light h -> traced h.
Proof. intros (f & S & ms & mp & m & us & r & l & H & _). exists f, S, ms, mp, m, us, r. exact H. Qed.
Lemma from_light_entrance hs : Forall from_light hs -> Forall (fun e => all_lights (source (fst e)) = true) (flat_map entrance_entry hs).
Proof.
  induction 1 as [|h hs Hh Ht IH]; simpl; [constructor|]. apply Forall_app. split; [|exact IH].
  unfold entrance_entry. destruct h as [|g [|f h]]; simpl; try constructor; [|constructor].
  destruct Hh as (fu & S & ms & mp & m & us & r & l & H & Hs). rewrite (second_source _ _ _ _ _ _ _ _ f H eq_refl), Hs. reflexivity.
Qed.

(** "Luminescent In" is zero on every face, and "Solar In" counts exactly the photons
    whose first event is on that face. *)
Theorem C84_only_solar_photons_enter : forall sz hs st df f, Forall from_light hs ->
  simulate sz hs new_lsc = (st, true) -> st_df st = Some df ->
  lum_in df f = 0%nat /\
  solar_in df f = length (filter (fun h => match nth_error h 1 with
    | Some e => match label_facet sz (position (fst e)) with Some g => facet_eqb g f | None => false end
    | None => false end) hs).
Proof.
  intros sz hs st df f Hf Hs Hd. destruct (simulate_ok _ _ _ Hs) as (s & Hr & _ & Hdf). rewrite Hdf in Hd. injection Hd as <-.
  assert (Ht : Forall traced hs) by (eapply Forall_impl; [apply from_light_traced|exact Hf]).
  destruct (record_all_spec hs Ht _ _ Hr) as (He & Hl & x & Hx & _). simpl in He, Hx.
  pose proof (from_light_entrance hs Hf) as Hlight. rewrite <- He in Hlight.
  assert (F : forall l : history, length (filter (fun _ => false) l) = 0%nat) by (induction l; simpl; auto).
  unfold lum_in, solar_in. rewrite !spectrum_length. unfold make_dataframe. rewrite !filter_app, !app_length, !length_filter_map.
  unfold want, make_row. cbn [row_kind_of row_kind_eqb row_source row_facet andb existsb]. rewrite !F, !Nat.add_0_r. split.
  - clear - Hlight. induction Hlight as [|e l He _ IH]; simpl; [reflexivity|]. destruct (source (fst e)); [exact IH|discriminate].
  - rewrite He in *. clear - Hlight Hl. induction Hl as [|h hs Hh Hl IH]; simpl; [reflexivity|].
    destruct h as [|g [|e h]]; simpl in Hh; try lia. simpl in *. inversion Hlight as [|? ? H1' H2']; subst. specialize (IH H2').
    rewrite H1'. simpl. rewrite andb_true_r. destruct (label_facet sz (position (fst e))) as [k|]; [|exact IH].
    rewrite orb_false_r. destruct (facet_eqb k f); simpl; rewrite IH; reflexivity.
Qed.
Print Assumptions C84_only_solar_photons_enter.
Example C84_example : lum_in near_df Top = 0%nat /\ solar_in near_df Top = 1%nat /\ solar_in near_df Left = 0%nat.
Proof. repeat split. Qed.

(** ** C85 Solar cells and back mirror *)
Definition has_cell (c : config) (f : facet) : bool := allowed_cell f && cells c f.
Lemma cell_at_outward c f : cell_at c (outward f) = has_cell c f.
Proof.
  unfold cell_at, has_cell. change (V (-1) 0 0) with (outward Left). change (V 1 0 0) with (outward Right).
  change (V 0 (-1) 0) with (outward Near). change (V 0 1 0) with (outward Far). rewrite !allclose_outward.
  destruct f; simpl; try reflexivity; rewrite ?orb_false_r; reflexivity.
Qed.
(** On a face with a cell a photon is never reflected and goes straight on; on a
    mirrored bottom it is always reflected, specularly; elsewhere the plate's surface
    is the plain Fresnel one. *)
Theorem C85_cells_and_mirror : forall n_of normal_of c u r hit container adjacent f,
  normal_of hit (position r) = Some (outward f) -> 0 <= u_surf u < 1 ->
  let s := lsc_surface n_of normal_of c in let plain := fresnel_surface n_of normal_of in
  (has_cell c f = true ->
     (exists x, s_reflectivity s u r hit container adjacent = Some x /\ is_reflected x (u_surf u) = false) /\
     s_transmitted s u r hit container adjacent = Some (direction r)) /\
  (f = Bottom -> back_mirror c = true ->
     (exists x, s_reflectivity s u r hit container adjacent = Some x /\ is_reflected x (u_surf u) = true) /\
     s_reflected s u r hit container adjacent = Some (specular_reflection (direction r) (outward f))) /\
  (has_cell c f = false -> f = Bottom /\ back_mirror c = true \/
     s_reflectivity s u r hit container adjacent = s_reflectivity plain u r hit container adjacent /\
     s_reflected s u r hit container adjacent = s_reflected plain u r hit container adjacent /\
     s_transmitted s u r hit container adjacent = s_transmitted plain u r hit container adjacent).
Proof.
  intros n_of normal_of c u r hit container adjacent f Hn Hu s plain.
  assert (Hr : s_reflectivity s u r hit container adjacent =
     if facet_eqb Bottom f && back_mirror c then Some 1 else if has_cell c f then Some 0 else s_reflectivity plain u r hit container adjacent).
  { unfold s, lsc_surface. cbn [s_reflectivity]. rewrite Hn. change (V 0 0 (-1)) with (outward Bottom). change (V (-1) 0 0) with (outward Left). change (V 1 0 0) with (outward Right).
    change (V 0 (-1) 0) with (outward Near). change (V 0 1 0) with (outward Far). rewrite !allclose_outward. unfold has_cell.
    destruct f; cbn [facet_eqb andb allowed_cell]; try reflexivity; destruct (back_mirror c); reflexivity. }
  assert (Ht : s_transmitted s u r hit container adjacent = if has_cell c f then Some (direction r) else s_transmitted plain u r hit container adjacent).
  { unfold s, lsc_surface. cbn [s_transmitted]. rewrite Hn, cell_at_outward. reflexivity. }
  split; [|split].
  - intros Hc. split; [|now rewrite Ht, Hc]. exists 0. split; [|apply C41_zero_never_reflects || (unfold is_reflected; destruct (Reqb_spec 0 0); [reflexivity|contradiction]) ].
    rewrite Hr, Hc. destruct f; try reflexivity. discriminate Hc.
  - intros -> Hb. split.
    + exists 1. split; [rewrite Hr, Hb; reflexivity|]. apply C41_reflects_below_reflectivity; lra.
    + unfold s, lsc_surface, fresnel_surface. cbn [s_reflected]. now rewrite Hn.
  - intros Hc. rewrite Hr, Ht, Hc. destruct (facet_eqb Bottom f && back_mirror c) eqn:Em.
    + left. apply andb_prop in Em. destruct f; try (discriminate (proj1 Em)). tauto.
    + right. auto.
Qed.
Print Assumptions C85_cells_and_mirror.

(** Behind a cell a photon stays outside the plate and the mirror sheet, which both
    lie within the same sides. *)
Theorem C85_collected_for_good : forall sz f p d t q,
  allowed_cell f = true -> dot (outward f) p = half sz f -> 0 < dot (outward f) d -> 0 < t ->
  (* q is any point of the plate or of the sheet below it *)
  Rabs (vx q) <= vx sz / 2 -> Rabs (vy q) <= vy sz / 2 ->
  vadd p (vscale t d) <> q.
Proof.
  intros sz f p d t q Ha Hp Hd Ht Hx Hy <-. destruct p as [a b c], d as [i j k]. unfold dot in Hp, Hd.
  assert (T : forall v w, Rabs v <= w -> - w <= v <= w) by (intros v w Hv; unfold Rabs in Hv; destruct (Rcase_abs v); lra).
  apply T in Hx. apply T in Hy.
  destruct f; try discriminate Ha; cbn [outward half vx vy vz vadd vscale] in *; nra.
Qed.
Print Assumptions C85_collected_for_good.
(** Which faces have a cell: those named in some call of add_solar_cell (or there before).  A call
    with another face is refused. *)
Fixpoint add_all (calls : list (list facet)) (c : config) : option config :=
  match calls with [] => Some c | fs :: rest => match add_solar_cell fs c with Some c' => add_all rest c' | None => None end end.
Theorem C85_cells_added : forall calls c,
  (add_all calls c = None <-> exists fs, In fs calls /\ (In Top fs \/ In Bottom fs)) /\
  forall c', add_all calls c = Some c' -> size c' = size c /\ n1_of c' = n1_of c /\ back_mirror c' = back_mirror c /\
    forall f, f <> Top -> f <> Bottom -> (has_cell c' f = true <-> has_cell c f = true \/ exists fs, In fs calls /\ In f fs).
Proof.
  assert (Al : forall fs, forallb allowed_cell fs = false <-> In Top fs \/ In Bottom fs).
  { induction fs as [|g fs IH]; [simpl; split; [discriminate|tauto]|]. cbn [forallb]. rewrite andb_false_iff, IH. simpl.
    destruct g; cbn [allowed_cell]; split; intros H; repeat destruct H as [H|H]; try discriminate; tauto. }
  assert (Mem : forall f fs, existsb (facet_eqb f) fs = true <-> In f fs).
  { intros f fs. rewrite existsb_exists. split; [intros (g & Hg & E); replace f with g; [exact Hg|destruct f, g; try discriminate; reflexivity]|]. intros H. exists f. split; [exact H|now destruct f]. }
  assert (Hc : forall c f, f <> Top -> f <> Bottom -> has_cell c f = cells c f) by (intros c [] H1 H2; try contradiction; reflexivity).
  induction calls as [|fs calls IH]; intros c.
  - split; [split; [discriminate|intros (fs & [] & _)]|]. intros c' H. injection H as <-. do 3 (split; [reflexivity|]). intros f _ _. split; [tauto|]. intros [H|(fs & [] & _)]. exact H.
  - cbn [add_all]. unfold add_solar_cell. destruct (forallb allowed_cell fs) eqn:E.
    + set (c1 := Config _ _ _ _). destruct (IH c1) as [IH1 IH2]. split.
      * rewrite IH1. split; [intros (gs & Hg & H); exists gs; split; [now right|exact H]|]. intros (gs & [ <- | Hg ] & H); [|exists gs; tauto]. apply Al in H. congruence.
      * intros c' H. destruct (IH2 c' H) as (S1 & S2 & S3 & S4). do 3 (split; [assumption|]). intros f Ht Hb. rewrite (S4 f Ht Hb).
        rewrite !Hc by assumption. cbn [c1 cells]. rewrite orb_true_iff, Mem. split.
        -- intros [[H1|H1]|(gs & Hg & H1)]; [right; exists fs; simpl; tauto|tauto|right; exists gs; simpl; tauto].
        -- intros [H1|(gs & [ <- | Hg ] & H1)]; [tauto|tauto|right; exists gs; tauto].
    + split; [|discriminate]. split; [|reflexivity]. intros _. exists fs. split; [now left|now apply Al].
Qed.
Print Assumptions C85_cells_added.
Example C85_cells_example : exists c, add_all [[Near]; [Left; Near]] (Config plate (3/2) (fun _ => false) true) = Some c /\
  has_cell c Left = true /\ has_cell c Near = true /\ has_cell c Far = false /\ add_all [[Near]; [Left; Top]] c = None.
Proof. eexists. repeat split; reflexivity. Qed.
Example C85_example : has_cell near_only Near = true /\ has_cell near_only Far = false /\
  box_normal plate (V 0 (-2) 0) = Some (outward Near).
Proof. split; [reflexivity|]. split; [reflexivity|exact plate_near_normal]. Qed.

(** ** C86 Further calls of simulate *)
(** The comment in simulate promises that a further call appends; it always raises. *)
Theorem C86_append_refuted : exists sz hs hs' st, simulate sz hs new_lsc = (st, true) /\ hs' <> [] /\
  Forall (fun h => (2 <= length h)%nat) hs' /\ snd (simulate sz hs' st) = false.
Proof.
  exists plate, [collected_near], [collected_near]. eexists. split; [exact near_run|]. split; [discriminate|].
  split; [repeat constructor|reflexivity].
Qed.
Print Assumptions C86_append_refuted.
(** It raises whatever is asked, and leaves the results of the first call in place. *)
Theorem C86_append_partial : forall sz hs hs' st, simulate sz hs new_lsc = (st, true) ->
  simulate sz hs' st = (st, false).
Proof.
  intros sz hs hs' st H. destruct (simulate_ok _ _ _ H) as (s & _ & Es & _). unfold simulate. now rewrite Es.
Qed.
Print Assumptions C86_append_partial.
Example C86_example : snd (simulate plate [collected_near] new_lsc) = true /\
  snd (simulate plate [collected_near] (fst (simulate plate [collected_near] new_lsc))) = false.
Proof. rewrite near_run. split; reflexivity. Qed.

(** ** C87 Efficiencies *)
Definition on_facet (f : facet) (x : row) : bool := match row_facet x with Some g => facet_eqb g f | None => false end.
Definition picked (k : row_kind) (s : src -> bool) (x : row) : bool := row_kind_eqb (row_kind_of x) k && s (row_source x).
Lemma want_picked f k s x : want [f] (Some k) s None x = picked k s x && on_facet f x.
Proof. unfold want, picked, on_facet. simpl. rewrite andb_true_r. destruct (row_facet x); [now rewrite orb_false_r|reflexivity]. Qed.
Lemma total_picked df k s : total (fun f => length (spectrum df [f] (Some k) s None)) all_facets =
  length (filter (fun x => picked k s x && match row_facet x with Some _ => true | None => false end) df).
Proof.
  assert (G : forall f, length (spectrum df [f] (Some k) s None) = length (filter (fun x => picked k s x && on_facet f x) df)).
  { intros f. rewrite spectrum_length. f_equal. apply filter_ext. intros x. apply want_picked. }
  unfold total. cbn [map all_facets fold_right]. rewrite !G. clear G. induction df as [|x df IH]; [reflexivity|].
  cbn [filter]. unfold on_facet in *. destruct (picked k s x); cbn [andb]; [|exact IH].
  destruct (row_facet x) as [[]|]; cbn [facet_eqb length]; cbv beta in IH; try exact IH; rewrite <- IH; lia.
Qed.
Lemma collected_escaped c df : (lum_collected c df + lum_escaped c df)%nat = total (lum_out df) all_facets.
Proof.
  unfold lum_collected, lum_escaped, total, all_facets. simpl.
  destruct (cells c Left), (cells c Right), (cells c Near), (cells c Far), (cells c Top), (cells c Bottom); simpl; lia.
Qed.
Lemma ratio_range a b x : ratio a b = Some x -> (a <= b)%nat -> 0 <= x <= 1.
Proof.
  unfold ratio. destruct (Nat.eqb_spec b 0) as [|Hb]; [discriminate|]. intros H Hab. injection H as <-.
  assert (0 < INR b) by (apply lt_0_INR; lia). pose proof (pos_INR a). pose proof (le_INR a b Hab). split.
  - apply Rmult_le_pos; [assumption|]. left. now apply Rinv_0_lt_compat.
  - apply Rmult_le_reg_r with (INR b); [assumption|]. unfold Rdiv. rewrite Rmult_assoc, Rinv_l by lra. lra.
Qed.

(** The waveguide efficiency is a fraction for any run, and so is the predicted one. *)
Theorem C87_waveguide_efficiency : forall c df,
  (forall x, waveguide_efficiency c df = Some x -> 0 <= x <= 1) /\
  (0 < vx (size c) -> 0 < vy (size c) -> 0 < vz (size c) -> 0 < n1_of c -> 0 < thermodynamic_prediction c < 1).
Proof.
  intros c df. split; [intros x H; apply (ratio_range _ _ _ H); lia|].
  intros X Y Z N. unfold thermodynamic_prediction, geometric_concentration.
  set (g := vy (size c) * vx (size c) / (2 * vx (size c) * vz (size c) + 2 * vy (size c) * vz (size c))).
  assert (Hg : 0 < g) by (apply Rdiv_lt_0_compat; nra). clearbody g. assert (0 < n1_of c ^ 2) by (apply pow_lt; exact N).
  split; [apply Rdiv_lt_0_compat; lra|]. apply Rmult_lt_reg_r with (g + n1_of c ^ 2); [lra|]. unfold Rdiv. rewrite Rmult_assoc, Rinv_l by lra. lra.
Qed.
Print Assumptions C87_waveguide_efficiency.

(** When every photon's first event is on a face of the plate, no more photons are
    collected or escape than were incident: the optical efficiency is a fraction. *)
Theorem C87_optical_efficiency_partial : forall c hs st df, Forall from_light hs ->
  simulate (size c) hs new_lsc = (st, true) -> st_df st = Some df ->
  (forall h e, In h hs -> nth_error h 1 = Some e -> label_facet (size c) (position (fst e)) <> None) ->
  incident df = length hs /\ (lum_collected c df + lum_escaped c df <= incident df)%nat /\
  forall x, optical_efficiency c df = Some x -> 0 <= x <= 1.
Proof.
  intros c hs st df Hf Hs Hd Hlab. destruct (simulate_ok _ _ _ Hs) as (s & Hr & _ & Hdf). rewrite Hdf in Hd. injection Hd as <-.
  assert (Ht : Forall traced hs) by (eapply Forall_impl; [apply from_light_traced|exact Hf]).
  destruct (record_all_spec hs Ht _ _ Hr) as (He & Hl & x & Hx & Lx & _). simpl in He, Hx.
  assert (Hi : incident (make_dataframe (size c) s) = length hs).
  { unfold incident. change (solar_in (make_dataframe (size c) s)) with (fun f => length (spectrum (make_dataframe (size c) s) [f] (Some Entrance) all_lights None)).
    rewrite total_picked. unfold make_dataframe. rewrite filter_app, app_length, !length_filter_map. unfold picked, make_row. cbn [row_kind_of row_kind_eqb row_source row_facet andb].
    replace (length (filter (fun _ => false) (exit_rays s))) with 0%nat by (clear; induction (exit_rays s); simpl; auto). rewrite Nat.add_0_r, He.
    pose proof (from_light_entrance hs Hf) as Hlight. clear - Hlight Hl Hlab. induction Hl as [|h hs Hh Hl IH]; [reflexivity|].
    destruct h as [|g [|e h]]; simpl in Hh; try lia. simpl in *. inversion Hlight as [|? ? H1' H2']; subst. rewrite H1'. simpl.
    destruct (label_facet (size c) (position (fst e))) eqn:El; [|exfalso; exact (Hlab _ e (or_introl eq_refl) eq_refl El)].
    simpl. f_equal. apply IH; [intros h' e' Hin; apply Hlab; now right|exact H2']. }
  assert (Ho : (lum_collected c (make_dataframe (size c) s) + lum_escaped c (make_dataframe (size c) s) <= length hs)%nat).
  { rewrite collected_escaped. change (lum_out (make_dataframe (size c) s)) with (fun f => length (spectrum (make_dataframe (size c) s) [f] (Some Exit) all_components None)).
    rewrite total_picked. unfold make_dataframe. rewrite filter_app, app_length, !length_filter_map. unfold picked, make_row. cbn [row_kind_of row_kind_eqb row_source row_facet andb].
    replace (length (filter (fun _ => false) (entrance_rays s))) with 0%nat by (clear; induction (entrance_rays s); simpl; auto). rewrite Hx. simpl.
    eapply Nat.le_trans; [apply filter_length|]. rewrite Lx. apply filter_length. }
  split; [exact Hi|]. split; [now rewrite Hi|]. intros y Hy. apply (ratio_range _ _ _ Hy). rewrite Hi. lia.
Qed.
Print Assumptions C87_optical_efficiency_partial.

(** A light inside the plate: its photons are not incident but are collected. *)
Definition inside : history :=
  [(at_point (V 0 0 1) down (Light 0), GENERATE);
   (at_point (V 0 0 0) down (Light 0), ABSORB);
   (at_point (V 0 0 0) (V (-1) 0 0) (Emitter 1 0), EMIT);
   (at_point (V (-2) 0 0) (V (-1) 0 0) (Emitter 1 0), TRANSMIT);
   (at_point (V (-9) 0 0) (V (-1) 0 0) (Emitter 1 0), EXIT)].
(** a photon from above that goes straight through *)
Definition straight : history :=
  [(at_point (V 0 0 9) down (Light 0), GENERATE);
   (at_point (V 0 0 2) down (Light 0), TRANSMIT);
   (at_point (V 0 0 (-2)) down (Light 0), TRANSMIT);
   (at_point (V 0 0 (-9)) down (Light 0), EXIT)].
Definition left_only : config := Config plate (3/2) (facet_eqb Left) false.
Definition inside_df : list row :=
  [Row Entrance ABSORB (Light 0) 555 None; Row Entrance ABSORB (Light 0) 555 None; Row Entrance TRANSMIT (Light 0) 555 (Some Top);
   Row Exit TRANSMIT (Emitter 1 0) 555 (Some Left); Row Exit TRANSMIT (Emitter 1 0) 555 (Some Left); Row Exit TRANSMIT (Light 0) 555 (Some Bottom)].
Theorem C87_optical_efficiency_refuted : exists c hs st df,
  simulate (size c) hs new_lsc = (st, true) /\ st_df st = Some df /\
  (* every history has the shape the tracer produces *)
  Forall (fun h => exists groups fin, map snd h = GENERATE :: concat groups ++ fin /\ Forall interaction groups /\ ending fin) hs /\
  optical_efficiency c df = Some 2.
Proof.
  exists left_only, [inside; inside; straight]. eexists (LscState _ (Some inside_df)). exists inside_df. split; [|split; [reflexivity|split]].
  - unfold simulate. cbn [st_store new_lsc]. unfold make_dataframe. simpl record_all. cbn [map app entrance_rays exit_rays LscModel.size left_only].
    unfold make_row. cbn [fst snd at_point position source wavelength]. 
    rewrite (plate_unlabelled (V 0 0 0)) by gaps. rewrite (plate_label (V 0 0 2) Top) by gaps.
    rewrite (plate_label (V (-2) 0 0) Left) by gaps. rewrite (plate_label (V 0 0 (-2)) Bottom) by gaps. reflexivity.
  - assert (Hi : exists groups fin, map snd inside = GENERATE :: concat groups ++ fin /\ Forall interaction groups /\ ending fin).
    { exists [[ABSORB; EMIT]; [TRANSMIT]], [EXIT]. split; [reflexivity|]. split; [repeat constructor|constructor]. }
    constructor; [exact Hi|]. constructor; [exact Hi|]. constructor; [|constructor].
    exists [[TRANSMIT]; [TRANSMIT]], [EXIT]. split; [reflexivity|]. split; [repeat constructor|constructor].
  - unfold optical_efficiency. change (lum_collected left_only inside_df) with 2%nat. change (incident inside_df) with 1%nat.
    unfold ratio. simpl. f_equal. lra.
Qed.
Print Assumptions C87_optical_efficiency_refuted.
Example C87_example : waveguide_efficiency left_only inside_df = Some 1 /\ optical_efficiency near_only near_df = Some 0.
Proof.
  split; unfold waveguide_efficiency, optical_efficiency, ratio.
  - change (lum_collected left_only inside_df) with 2%nat. change (lum_escaped left_only inside_df) with 0%nat. simpl. f_equal. lra.
  - change (lum_collected near_only near_df) with 0%nat. change (incident near_df) with 1%nat. simpl. f_equal. lra.
Qed.
