(** C105: face recorders. *)
From Coq Require Import Reals Lra Lia ZArith List Bool Arith String.
From Verif Require Import Base Vec DistModel MaterialModel OpticsModel PhaseModel TransformModel TransformProofs GeomModel GeomProofs TracerModel TracerProps KernelModel KernelProofs LogProps TallyModel.
From Verif Require SpecModel.
Import ListNotations.
Open Scope R_scope.

(** The recorder object of a face: [record: true] and add-face-recorders leave the tolerance at 1e-6. *)
Definition vec_of (l : list R) : vec := match l with [x; y; z] => V x y z | _ => vzero end.
Definition is_face_recorder (node : nat) (facet : list R) (k : krec) : Prop :=
  kr_node k = node /\ rec_event (kr_rec k) = Escaping /\ rec_facet (kr_rec k) = Some (vec_of facet) /\ rec_atol (kr_rec k) = / 10 ^ 6.

(** How far the point [p] of the node's frame is from the plane of the face with outward normal n *)
Definition off_plane (size n p : vec) : R := Rabs (dot n p - 1 / 2 * dot (V (Rabs (vx n)) (Rabs (vy n)) (Rabs (vz n))) size).

Lemma normals_differ : forall n n', In n box_NORMALS -> In n' box_NORMALS -> facet_off n n' (/ 10 ^ 6) = false -> n = n'.
Proof.
  intros n n' H H'. assert (E : / 10 ^ 6 < 1) by lra. set (a := / 10 ^ 6) in *. clearbody a. unfold facet_off.
  cbn [In box_NORMALS] in H, H'.
  repeat match goal with H : _ \/ _ |- _ => destruct H as [H|H] end; try contradiction; subst n n'; cbn [vx vy vz]; intros F; try reflexivity; exfalso;
  repeat rewrite orb_false_iff in F; destruct F as [[F1 F2] F3]; apply Rltb_false in F1, F2, F3; revert F1 F2 F3; unfold Rabs;
  repeat match goal with |- context [Rcase_abs ?x] => destruct (Rcase_abs x) end; lra.
Qed.
Lemma facet_self n : facet_off n n (/ 10 ^ 6) = false.
Proof.
  unfold facet_off. rewrite !Rminus_diag_eq, !Rabs_R0 by reflexivity. assert (H : Rltb (/ 10 ^ 6) 0 = false) by (apply Rltb_false; lra). rewrite H. reflexivity.
Qed.
Lemma fold_best (l : list (R * vec)) b : let best := fold_left (fun best q => if Rltb (fst q) (fst best) then q else best) l b in
  In best (b :: l) /\ forall q, In q (b :: l) -> fst best <= fst q.
Proof.
  cbv zeta. revert b. induction l as [|a l IH]; intros b; cbn [fold_left].
  - split; [left; reflexivity|]. intros q [->|[]]. lra.
  - destruct (IH (if Rltb (fst a) (fst b) then a else b)) as [I1 I2]. destruct (Rltb (fst a) (fst b)) eqn:E.
    + apply Rltb_true in E. split; [right; exact I1|]. intros q [<-|Hq]; [|apply I2; exact Hq]. specialize (I2 a (or_introl eq_refl)). lra.
    + apply Rltb_false in E. split; [destruct I1 as [I1|I1]; [left; exact I1|right; right; exact I1]|].
      intros q [<-|[<-|Hq]]; [apply I2; left; reflexivity| |apply I2; right; exact Hq]. specialize (I2 b (or_introl eq_refl)). lra.
Qed.
Lemma k_box_normal_nearest size p : let n := k_box_normal size p in
  In n box_NORMALS /\ forall n', In n' box_NORMALS -> off_plane size n p <= off_plane size n' p.
Proof.
  cbv zeta. unfold k_box_normal. cbn [tl hd].
  match goal with |- context [fold_left ?f ?l ?b] => pose proof (fold_best l b) as FB; cbv zeta in FB; set (best := fold_left f l b) in * end. destruct FB as [B1 B2].
  assert (O : forall q, In q [(Rabs (vx p - -1 * (1/2) * vx size), V (-1) 0 0); (Rabs (vx p - 1 * (1/2) * vx size), V 1 0 0);
               (Rabs (vy p - -1 * (1/2) * vy size), V 0 (-1) 0); (Rabs (vy p - 1 * (1/2) * vy size), V 0 1 0);
               (Rabs (vz p - -1 * (1/2) * vz size), V 0 0 (-1)); (Rabs (vz p - 1 * (1/2) * vz size), V 0 0 1)] -> In (snd q) box_NORMALS /\ fst q = off_plane size (snd q) p).
  { assert (A1 : Rabs (-1) = 1) by (rewrite Rabs_left; lra). intros q Hq. cbn [In] in Hq.
    repeat match goal with H : _ \/ _ |- _ => destruct H as [H|H] end; try contradiction; subst q; cbn [fst snd]; (split; [cbn; tauto|]);
    unfold off_plane, dot; cbn [vx vy vz]; rewrite ?A1, ?Rabs_R0, ?Rabs_R1;
    first [ f_equal; ring | rewrite <- Rabs_Ropp; f_equal; ring ]. }
  split; [apply O; exact B1|]. intros n' Hn'. destruct (O _ B1) as [_ <-].
  match type of B2 with forall q, In q ?l -> _ => change box_NORMALS with (map snd l) in Hn' end. apply in_map_iff in Hn'. destruct Hn' as [q [<- Hq]].
  destruct (O _ Hq) as [_ <-]. apply B2. exact Hq.
Qed.
Lemma faces_normals facet label : In (label, facet) SpecModel.faces -> In (vec_of facet) box_NORMALS.
Proof.
  intros H. cbn [In SpecModel.faces] in H. repeat match goal with H : _ \/ _ |- _ => destruct H as [H|H] end; try contradiction; injection H as _ <-; cbn; tauto.
Qed.
Lemma normals_faces n : In n box_NORMALS -> exists label facet, In (label, facet) SpecModel.faces /\ vec_of facet = n.
Proof.
  intros H. assert (M : In n (map (fun lf => vec_of (snd lf)) SpecModel.faces)) by (cbn in *; tauto).
  apply in_map_iff in M. destruct M as [[label facet] [E M]]. exists label, facet. split; [exact M|exact E].
Qed.

(** Surface calls carry the normal at the point they report. *)
Definition calls_of (o : koutcome) : list tally_call := match o with KStop _ ts | KContinue _ ts _ => ts | KNan => [] end.
Lemma surface_call K ms m u count r c : In c (calls_of (k_pass K ms m u count r)) -> tc_sel c = Escaping ->
  tc_normal c = Some (to_vector (k_l2w K (tc_node c)) (local_normal (k_shape K (tc_node c)) (tc_lpos c))).
Proof.
  assert (SF : forall hit ct adj t0, In c (calls_of (k_surface K u hit ct adj t0 r)) -> tc_sel c = Escaping ->
    tc_normal c = Some (to_vector (k_l2w K (tc_node c)) (local_normal (k_shape K (tc_node c)) (tc_lpos c)))).
  { intros hit ct adj t0. unfold k_surface. cbv zeta. destruct adj as [a|]; [|intros []].
    destruct (if k_fresnel K hit then _ else _) as [refl|]; [|intros []]. destruct (k_is_reflected refl (u_surf u)).
    - destruct (Nat.eqb ct hit); [intros []|]. intros [<-|[]]; intros E; discriminate.
    - destruct (if k_fresnel K hit then _ else _) as [d|]; [|intros []]. intros [<-|[]] _. reflexivity. }
  unfold k_pass. destruct (k_next_hit K (position r) (direction r)) as [[[[hit ct] adj] t0]|]; [|intros []].
  destruct (Nat.ltb ms count); [intros [<-|[]]; discriminate|]. destruct (Nat.eqb hit (k_root K)); [intros [<-|[]]; discriminate|].
  destruct (k_depth _ _) as [x|]; [|apply SF]. destruct (Rltb x t0); [|apply SF].
  unfold k_absorb. destruct (nth_error _ _) as [[cm ph]|]; [|intros []]. destruct (k_is_radiative _ _ _).
  - destruct (c_kind cm); try (intros []). destruct (c_ems cm); intros [].
  - destruct (c_kind cm); intros [<-|[]]; discriminate.
Qed.

(** On boxes that are not rotated, every ray that escapes is counted by the recorder of exactly one
    face, and the point where it crossed is nowhere closer to the plane of another face. *)
Theorem C105_faces_partial : forall K ms m u count r c size, In c (calls_of (k_pass K ms m u count r)) -> tc_sel c = Escaping ->
  k_shape K (tc_node c) = Box size -> rot (k_l2w K (tc_node c)) = mid ->
  exists label facet, In (label, facet) SpecModel.faces /\
    (forall label' facet' k, In (label', facet') SpecModel.faces -> is_face_recorder (tc_node c) facet' k ->
       (call_matches k c = true <-> facet' = facet)) /\
    (forall label' facet', In (label', facet') SpecModel.faces -> off_plane size (vec_of facet) (tc_lpos c) <= off_plane size (vec_of facet') (tc_lpos c)).
Proof.
  intros K ms m u count r c size Hc Hs Hb Hr. pose proof (surface_call _ _ _ _ _ _ _ Hc Hs) as Hn. rewrite Hb in Hn. cbn [local_normal] in Hn.
  unfold to_vector in Hn. rewrite Hr in Hn. replace (mvec mid (k_box_normal size (tc_lpos c))) with (k_box_normal size (tc_lpos c)) in Hn
    by (destruct (k_box_normal size (tc_lpos c)); unfold mid, mvec, dot; cbn; f_equal; ring).
  pose proof (k_box_normal_nearest size (tc_lpos c)) as [N1 N2]. cbv zeta in N1, N2. destruct (normals_faces _ N1) as [label [facet [F1 F2]]].
  exists label, facet. split; [exact F1|]. split.
  - intros label' facet' k F' [K1 [K2 [K3 K4]]]. unfold call_matches, facet_ok. rewrite K1, K2, K3, K4, Hs, Hn, Nat.eqb_refl. cbn [selector_eqb andb]. rewrite <- F2. split.
    + intros E. apply negb_true_iff in E. apply normals_differ in E; [|exact (faces_normals _ _ F')|exact (faces_normals _ _ F1)].
      assert (L : forall l f, In (l, f) SpecModel.faces -> f = [vx (vec_of f); vy (vec_of f); vz (vec_of f)]).
      { intros l f H. cbn [In SpecModel.faces] in H. repeat match goal with H : _ \/ _ |- _ => destruct H as [H|H] end; try contradiction; injection H as _ <-; reflexivity. }
      rewrite (L _ _ F'), (L _ _ F1), E. reflexivity.
    + intros ->. rewrite facet_self. reflexivity.
  - intros label' facet' F'. rewrite F2. apply N2. exact (faces_normals _ _ F').
Qed.
Print Assumptions C105_faces_partial.

(** ** A box of size 2 in a world of radius 10, and a ray along x from its centre *)
Definition k_boxed (g : rigid) : kscene :=
  KScene 2 0 (fun n => match n with O => rid | _ => g end) (fun n => match n with O => rid | _ => rinv g end)
    (fun n => match n with O => Sphere 10 | _ => Box (V 2 2 2) end) (fun _ => 1) (fun _ => false) (fun _ => []).
(** Turned by 90 degrees about the y axis *)
Definition turned : rigid := Rigid (M (V 0 0 1) (V 0 1 0) (V (-1) 0 0)) vzero.
Lemma slab_flat s st : 0 < s -> slab s 0 0 st = Some st.
Proof.
  intros H. unfold slab. rewrite Rabs_R0. pose proof tiny_pos. rewrite (proj2 (Rltb_true 0 tiny)) by lra.
  rewrite (proj2 (Rltb_false 0 _)) by lra. rewrite (proj2 (Rltb_false _ 0)) by lra. reflexivity.
Qed.
Lemma tiny_small : tiny < 1.
Proof.
  unfold tiny. assert (H : 1 < 10 ^ 300) by (apply Rlt_pow_R1; [lra|lia]). set (x := 10 ^ 300) in *. clearbody x.
  apply (Rmult_lt_reg_r x); [lra|]. rewrite Rinv_l by lra. lra.
Qed.
Lemma slab_through s : 0 < s -> slab s 0 1 (None, None) = Some (Some (- (1 / 2) * s), Some (1 / 2 * s)).
Proof.
  intros H. unfold slab. rewrite Rabs_R1. pose proof tiny_small.
  rewrite (proj2 (Rltb_false 1 tiny)) by lra. cbv zeta. rewrite (proj2 (Rltb_false _ _)) by lra. cbn [fst snd]. do 2 f_equal; f_equal; field.
Qed.
Lemma box_2 o d : (o, d) = (V 0 0 0, V 1 0 0) \/ (o, d) = (V 0 0 0, V 0 0 1) -> k_intersect_box (V 2 2 2) o d = [1].
Proof.
  intros H. unfold k_intersect_box, box_interval. destruct H as [H|H]; injection H as -> ->; cbn [vx vy vz]; rewrite ?slab_flat, ?slab_through by lra; cbn [fst snd]; rewrite ?slab_flat, ?slab_through by lra; rewrite ?slab_flat by lra;
  pose proof EPS_pos; pose proof eps_tiny; rewrite (proj2 (Rltb_false _ _)) by lra; rewrite (proj2 (Rltb_false EPS_ZERO _)) by lra; rewrite (proj2 (Rltb_true EPS_ZERO _)) by lra; cbn [app]; f_equal; lra.
Qed.
Definition from_centre : ray := Ray (V 0 0 0) (V 1 0 0) 500 0 0 (Light 0).
Lemma boxed_hit g : tra g = vzero -> to_vector (rinv g) (V 1 0 0) = V 1 0 0 \/ to_vector (rinv g) (V 1 0 0) = V 0 0 1 ->
  k_next_hit (k_boxed g) (V 0 0 0) (V 1 0 0) = Some (1%nat, 1%nat, Some 0%nat, 1).
Proof.
  intros Ht Hd.
  assert (H0 : node_ts (k_boxed g) (V 0 0 0) (V 1 0 0) 0 = [10]).
  { unfold node_ts. cbn [k_shape k_boxed k_w2l]. rewrite to_point_rid, to_vector_rid. cbn [intersect_node]. apply k_axis_sphere. lra. }
  assert (H1 : node_ts (k_boxed g) (V 0 0 0) (V 1 0 0) 1 = [1]).
  { unfold node_ts. cbn [k_shape k_boxed k_w2l intersect_node]. apply box_2.
    assert (E : to_point (rinv g) (V 0 0 0) = V 0 0 0). { unfold to_point, rinv. cbn [rot tra]. rewrite Ht. unfold vadd, vneg, vzero, mvec, dot. cbn [vx vy vz]. f_equal; ring. }
    rewrite E. destruct Hd as [-> | ->]; auto. }
  unfold k_next_hit, hit_table, all_hits, k_container. cbn [k_nodes k_boxed seq flat_map fold_left]. rewrite H0, H1.
  cbn [map app firstn MAX_HITS]. unfold k_first, k_second, t_of, n_at, lt_best, node_min. cbn [List.length Nat.sub seq fold_left nth snd fst Nat.eqb andb].
  rewrite (proj2 (Rltb_true 1 10)) by lra. cbn [fst Nat.eqb nth snd]. reflexivity.
Qed.
Lemma boxed_call g u : tra g = vzero -> to_vector (rinv g) (V 1 0 0) = V 1 0 0 \/ to_vector (rinv g) (V 1 0 0) = V 0 0 1 ->
  exists c, In c (calls_of (k_pass (k_boxed g) 100 Full u 1 from_centre)) /\ tc_sel c = Escaping /\ tc_node c = 1%nat /\
    tc_lpos c = to_point (rinv g) (V 1 0 0) /\ tc_normal c = Some (to_vector g (k_box_normal (V 2 2 2) (tc_lpos c))).
Proof.
  intros Ht Hd. unfold k_pass. change (position from_centre) with (V 0 0 0). change (direction from_centre) with (V 1 0 0). rewrite (boxed_hit g Ht Hd).
  cbn [Nat.ltb Nat.leb Nat.eqb k_root k_boxed k_comps map].
  assert (D : k_depth (k_total [] (wavelength from_centre)) (u_depth u) = Infinite). { unfold k_depth, k_total. cbn [fold_left map]. rewrite (proj2 (Rltb_false _ _)) by (unfold alpha_tol; cbn; lra). reflexivity. }
  rewrite D. unfold k_surface. cbv zeta. cbn [k_fresnel k_boxed]. assert (NR : k_is_reflected 0 (u_surf u) = false). { unfold k_is_reflected. rewrite (proj2 (Rltb_false 0 0)) by lra. rewrite (proj2 (Rltb_false 1 0)) by lra. reflexivity. }
  rewrite NR. cbn [calls_of Nat.eqb]. eexists. split; [left; reflexivity|]. split; [reflexivity|]. split; [reflexivity|]. split.
  - cbn [tc_lpos tally_of k_w2l k_boxed with_direction position k_propagate from_centre direction]. f_equal. unfold vadd, vscale. cbn. f_equal; ring.
  - reflexivity.
Qed.

(** Turn the box by 90 degrees about y: the ray leaves through the middle of the top face, but it
    is counted by the recorder of the east face, not by that of the top, and the position heatmap
    of that recorder misses it. *)
Theorem C105_faces_refuted : exists K ms m u count r c size,
  In c (calls_of (k_pass K ms m u count r)) /\ tc_sel c = Escaping /\ k_shape K (tc_node c) = Box size /\
  (forall n, wf_rigid (k_l2w K n) /\ k_w2l K n = rinv (k_l2w K n)) /\
  tc_lpos c = V 0 0 (vz size / 2) /\ In ("top", [0; 0; 1])%string SpecModel.faces /\ In ("east", [1; 0; 0])%string SpecModel.faces /\
  (forall k, is_face_recorder (tc_node c) [0; 0; 1] k -> call_matches k c = false) /\
  (forall k, is_face_recorder (tc_node c) [1; 0; 0] k -> call_matches k c = true) /\
  exists h a b, SpecModel.face_position [vx size; vy size; vz size] [1; 0; 0] = Some h /\ SpecModel.mk_hist h = Some (H2 a b) /\ cell (call_values c) (H2 a b) = None.
Proof.
  assert (TV : to_vector (rinv turned) (V 1 0 0) = V 0 0 1). { unfold to_vector, rinv, turned, mtrans, mvec, dot. cbn. f_equal; ring. }
  assert (TP : to_point (rinv turned) (V 1 0 0) = V 0 0 1). { unfold to_point, rinv, turned, mtrans, mvec, dot, vadd, vneg, vzero. cbn. f_equal; ring. }
  destruct (boxed_call turned mid_draws eq_refl (or_intror TV)) as [c [C1 [C2 [C3 [C4 C5]]]]]. rewrite TP in C4. rewrite C4 in C5.
  assert (N : k_box_normal (V 2 2 2) (V 0 0 1) = V 0 0 1).
  { unfold k_box_normal. cbn [vx vy vz tl hd fold_left].
    assert (A1 : forall x, x = 1 \/ x = -1 -> Rabs x = 1) by (intros x [ -> | -> ]; [apply Rabs_R1|rewrite Rabs_left; lra]).
    rewrite (A1 (0 - -1 * (1 / 2) * 2)) by lra. rewrite (A1 (0 - 1 * (1 / 2) * 2)) by lra. replace (1 - 1 * (1 / 2) * 2) with 0 by lra. replace (1 - -1 * (1 / 2) * 2) with 2 by lra.
    rewrite Rabs_R0. rewrite (Rabs_right 2) by lra. cbn [fst]. repeat (rewrite (proj2 (Rltb_false 1 1)) by lra; cbn [fst]).
    rewrite (proj2 (Rltb_false 2 1)) by lra. cbn [fst]. rewrite (proj2 (Rltb_true 0 1)) by lra. reflexivity. }
  rewrite N in C5. assert (G : to_vector turned (V 0 0 1) = V 1 0 0). { unfold to_vector, turned, mvec, dot. cbn. f_equal; ring. } rewrite G in C5.
  exists (k_boxed turned), 100%nat, Full, mid_draws, 1%nat, from_centre, c, (V 2 2 2). split; [exact C1|]. split; [exact C2|]. split; [rewrite C3; reflexivity|].
  split. { intros [|n]; cbn [k_l2w k_w2l k_boxed]; split.
    - exact orthogonal_id.
    - unfold rid, rinv. cbn [rot tra]. unfold mid, mtrans, mvec, vneg, vzero, dot. cbn. f_equal; f_equal; f_equal; ring.
    - unfold wf_rigid, orthogonal, turned, mmul, mtrans, mid, mvec, dot. cbn. split; f_equal; f_equal; ring.
    - reflexivity. }
  split; [rewrite C4; cbn; f_equal; lra|]. split; [cbn; tauto|]. split; [cbn; tauto|].
  assert (S6 : / 10 ^ 6 < 1) by lra. assert (P6 : 0 < / 10 ^ 6) by lra.
  split. { intros k [K1 [K2 [K3 K4]]]. unfold call_matches, facet_ok. rewrite K1, K2, K3, K4, C5. cbn [vec_of]. unfold facet_off. cbn [vx vy vz].
    replace (0 - 1) with (-1) by lra. rewrite (Rabs_left (-1)) by lra. rewrite (proj2 (Rltb_true (/ 10 ^ 6) _)) by lra. cbn. apply andb_false_r. }
  split. { intros k [K1 [K2 [K3 K4]]]. unfold call_matches, facet_ok. rewrite K1, K2, K3, K4, C2, C5, Nat.eqb_refl. cbn [vec_of]. rewrite facet_self. reflexivity. }
  assert (Q0 : Reqb 0 0 = true) by (apply Reqb_true; reflexivity). assert (Q1 : Reqb 1 0 = false) by (apply Reqb_false; lra).
  assert (HB : forall s, (10 <= SpecModel.auto_bins s)%Z) by (intros s; unfold SpecModel.auto_bins; lia). pose proof (HB 2) as HB2.
  cbn [vx vy vz]. unfold SpecModel.face_position, SpecModel.face_axis. rewrite Q1. cbn [SpecModel.other_axes nth_error].
  assert (MK : forall p, SpecModel.prop_of_name (SpecModel.prop_name p) = Some p ->
     SpecModel.mk_histogram (SpecModel.prop_name p) (- (2 / 2), 2 / 2, SpecModel.auto_bins 2) = Some (Histogram p (- (2 / 2)) (2 / 2) (Z.to_nat (SpecModel.auto_bins 2)))).
  { intros q E. unfold SpecModel.mk_histogram. rewrite E. rewrite (proj2 (Rltb_true (- (2 / 2)) (2 / 2))) by lra. replace (SpecModel.auto_bins 2 <? 1)%Z with false by lia. reflexivity. }
  eexists. exists (Histogram PY (- (2 / 2)) (2 / 2) (Z.to_nat (SpecModel.auto_bins 2))), (Histogram PZ (- (2 / 2)) (2 / 2) (Z.to_nat (SpecModel.auto_bins 2))). split; [reflexivity|]. split.
  { unfold SpecModel.mk_hist. change (SpecModel.axis_name 1) with (SpecModel.prop_name PY). change (SpecModel.axis_name 2) with (SpecModel.prop_name PZ). rewrite !MK by reflexivity. reflexivity. }
  unfold cell, call_values. cbn [prop_value h_prop v_local]. rewrite C4. cbn [vy vz].
  assert (B : bin_index 1 (Histogram PZ (- (2 / 2)) (2 / 2) (Z.to_nat (SpecModel.auto_bins 2))) = None).
  { unfold bin_index. cbn [h_start h_stop h_bins]. cbv zeta. replace ((1 - - (2 / 2)) / (2 / 2 - - (2 / 2)) * INR (Z.to_nat (SpecModel.auto_bins 2))) with (IZR (SpecModel.auto_bins 2)).
    - assert (T : trunc (IZR (SpecModel.auto_bins 2)) = SpecModel.auto_bins 2).
      { unfold trunc. rewrite (proj2 (Rleb_true 0 _)) by (apply IZR_le; lia). pose proof (archimed (IZR (SpecModel.auto_bins 2))) as [A1 A2].
        assert (SpecModel.auto_bins 2 < up (IZR (SpecModel.auto_bins 2)))%Z by (apply lt_IZR; lra). assert (up (IZR (SpecModel.auto_bins 2)) <= SpecModel.auto_bins 2 + 1)%Z by (apply le_IZR; rewrite plus_IZR; lra). lia. }
      rewrite T. rewrite Z2Nat.id by lia. rewrite Z.ltb_irrefl, andb_false_r. reflexivity.
    - rewrite INR_IZR_INZ, Z2Nat.id by lia. field. }
  rewrite B. destruct (bin_index 0 _); reflexivity.
Qed.
Print Assumptions C105_faces_refuted.
(** Unturned, the same ray is counted on the east face only. *)
Example C105_example : exists c, In c (calls_of (k_pass (k_boxed rid) 100 Full mid_draws 1 from_centre)) /\ tc_sel c = Escaping /\
  k_shape (k_boxed rid) (tc_node c) = Box (V 2 2 2) /\ rot (k_l2w (k_boxed rid) (tc_node c)) = mid /\ tc_lpos c = V 1 0 0.
Proof.
  assert (TV : to_vector (rinv rid) (V 1 0 0) = V 1 0 0). { unfold to_vector, rinv, rid, mid, mtrans, mvec, dot. cbn. f_equal; ring. }
  assert (TP : to_point (rinv rid) (V 1 0 0) = V 1 0 0). { unfold to_point, rinv, rid, mid, mtrans, mvec, dot, vadd, vneg, vzero. cbn. f_equal; ring. }
  destruct (boxed_call rid mid_draws eq_refl (or_introl TV)) as [c [C1 [C2 [C3 [C4 C5]]]]]. exists c. split; [exact C1|]. split; [exact C2|]. rewrite C3, C4, TP. repeat split.
Qed.
