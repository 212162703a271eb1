(** Lemmas about the scene tables. *)
From Coq Require Import Reals Lra Lia List Bool Arith String.
From Verif Require Import Base Vec Interp DistModel DistProofs MaterialModel OpticsModel PhaseModel TransformModel TransformProofs
  TracerModel KernelModel CompilerModel.
Import ListNotations.
Open Scope R_scope.

(** ** Slices and prefixes *)
Definition pre {A} (l l' : list A) : Prop := exists t, l' = l ++ t.
Lemma pre_refl {A} (l : list A) : pre l l.
Proof. exists []. symmetry. apply app_nil_r. Qed.
Lemma pre_app {A} (l t : list A) : pre l (l ++ t).
Proof. exists t. reflexivity. Qed.
Lemma pre_trans {A} (a b c : list A) : pre a b -> pre b c -> pre a c.
Proof. intros [s ->] [t ->]. exists (s ++ t). symmetry. apply app_assoc. Qed.
Lemma pre_nth {A} (l l' : list A) i x : pre l l' -> nth_error l i = Some x -> nth_error l' i = Some x.
Proof.
  intros [t ->] H. rewrite nth_error_app1; [exact H|]. apply nth_error_Some. congruence.
Qed.
Lemma pre_length {A} (l l' : list A) : pre l l' -> (List.length l <= List.length l')%nat.
Proof. intros [t ->]. rewrite app_length. lia. Qed.
Lemma pre_slice {A} (l l' : list A) s n : pre l l' -> (s + n <= List.length l)%nat -> slice l' s n = slice l s n.
Proof.
  intros [t ->] H. unfold slice. rewrite skipn_app, firstn_app.
  replace (n - List.length (skipn s l))%nat with 0%nat by (rewrite skipn_length; lia).
  rewrite firstn_O. apply app_nil_r.
Qed.
Lemma slice_end {A} (l x : list A) : slice (l ++ x) (List.length l) (List.length x) = x.
Proof.
  unfold slice. rewrite skipn_app, skipn_all, Nat.sub_diag. cbn [skipn app]. apply firstn_all.
Qed.

(** ** Tables that only grow *)
Record grows (T T' : tables) : Prop := Grows {
  gr_names : pre (t_names T) (t_names T'); gr_gt : pre (t_geom_type T) (t_geom_type T');
  gr_gp : pre (t_geom_params T) (t_geom_params T'); gr_l2w : pre (t_l2w T) (t_l2w T');
  gr_w2l : pre (t_w2l T) (t_w2l T'); gr_idx : pre (t_index T) (t_index T'); gr_surf : pre (t_surf T) (t_surf T');
  gr_cs : pre (t_comp_start T) (t_comp_start T'); gr_cc : pre (t_comp_count T) (t_comp_count T');
  gr_rows : pre (t_rows T) (t_rows T'); gr_cn : pre (t_comp_names T) (t_comp_names T');
  gr_ax : pre (t_abs_x T) (t_abs_x T'); gr_ay : pre (t_abs_y T) (t_abs_y T');
  gr_ex : pre (t_ems_x T) (t_ems_x T'); gr_ec : pre (t_ems_cdf T) (t_ems_cdf T') }.
Lemma grows_refl T : grows T T.
Proof. constructor; apply pre_refl. Qed.
Lemma grows_trans A B C : grows A B -> grows B C -> grows A C.
Proof. intros [] []. constructor; eapply pre_trans; eassumption. Qed.

(** columns that belong together have the same length *)
Record aligned (T : tables) : Prop := Aligned {
  al_abs : List.length (t_abs_y T) = List.length (t_abs_x T);
  al_ems : List.length (t_ems_cdf T) = List.length (t_ems_x T);
  al_names : List.length (t_comp_names T) = List.length (t_rows T) }.
(** the node columns have [n] entries *)
Record wide (n : nat) (T : tables) : Prop := Wide {
  wi_names : List.length (t_names T) = n; wi_gt : List.length (t_geom_type T) = n;
  wi_gp : List.length (t_geom_params T) = n; wi_l2w : List.length (t_l2w T) = n;
  wi_w2l : List.length (t_w2l T) = n; wi_idx : List.length (t_index T) = n; wi_surf : List.length (t_surf T) = n;
  wi_cs : List.length (t_comp_start T) = n; wi_cc : List.length (t_comp_count T) = n }.

(** ** Spectra *)
Definition columns_ok (d : dist) : Prop :=
  match d with
  | DConst _ => True
  | DTable _ xs ys cdf => List.length ys = List.length xs /\ List.length cdf = List.length xs
  end.
Lemma midpoints_length ys : List.length (midpoints ys) = (List.length ys - 1)%nat.
Proof.
  induction ys as [|a [|b r] IH]; [reflexivity..|].
  change (midpoints (a :: b :: r)) with ((a + b) * (1 / 2) :: midpoints (b :: r)).
  cbn [List.length] in *. rewrite IH. lia.
Qed.
Lemma mk_dist_columns xs ys h d : List.length xs = List.length ys -> mk_dist xs ys h = MkOk d -> columns_ok d.
Proof.
  intros L. unfold mk_dist. destruct (negb (ascending xs)); [discriminate|].
  destruct ys as [|y0 yr] eqn:Ey; [discriminate|]. rewrite <- Ey in *.
  destruct (existsb _ ys); [discriminate|]. destruct h.
  - cbv zeta. destruct (Nat.ltb (List.length xs) 2); [discriminate|]. destruct (Reqb _ 0); [discriminate|].
    intros H. injection H as <-. cbn [columns_ok]. unfold cumsum. rewrite map_length, cumsum_from_length. lia.
  - destruct (cumsum (midpoints ys)) as [|c0 cr] eqn:Ec; [discriminate|]. cbv zeta.
    destruct (Reqb _ 0); [discriminate|]. intros H. injection H as <-. cbn [columns_ok].
    assert (Hl : List.length (c0 :: cr) = (List.length ys - 1)%nat)
      by (rewrite <- Ec; unfold cumsum; rewrite cumsum_from_length; apply midpoints_length).
    split; [lia|]. cbn [List.length]. rewrite map_length. cbn [List.length] in Hl. rewrite Hl, L, Ey. cbn [List.length]. lia.
Qed.

(** ** One component *)
(** row [r] of [T] describes component [c] *)
Record row_ok (T : tables) (c : scomp) (r : crow) : Prop := RowOk {
  ro_type : class_tag (sc_class c) = Some (r_type r);
  ro_qy : r_qy r = sc_qy c;
  ro_rad : r_tau_rad r = tau_or_zero (sc_tau_rad c);
  ro_nr : r_tau_nr r = tau_or_zero (sc_tau_nr c);
  ro_phase : phase_tag (sc_phase c) = Some (r_phase_type r, r_phase_param r);
  ro_abs_in : (r_abs_start r + r_abs_n r <= List.length (t_abs_x T))%nat /\ (r_abs_start r + r_abs_n r <= List.length (t_abs_y T))%nat;
  ro_abs : distribution_columns (sc_abs c)
           = Some (slice (t_abs_x T) (r_abs_start r) (r_abs_n r), slice (t_abs_y T) (r_abs_start r) (r_abs_n r));
  ro_ems_in : (r_ems_start r + r_ems_n r <= List.length (t_ems_x T))%nat /\ (r_ems_start r + r_ems_n r <= List.length (t_ems_cdf T))%nat;
  ro_ems : emission_columns (r_type r) (sc_ems c)
           = Some (slice (t_ems_x T) (r_ems_start r) (r_ems_n r), slice (t_ems_cdf T) (r_ems_start r) (r_ems_n r)) }.
Lemma row_ok_grows T T' c r : grows T T' -> row_ok T c r -> row_ok T' c r.
Proof.
  intros G [h1 h2 h3 h4 h5 [h6 h6'] h7 [h8 h8'] h9]. destruct G. constructor; try assumption.
  - apply pre_length in gr_ax0, gr_ay0. lia.
  - rewrite (pre_slice _ _ _ _ gr_ax0 h6), (pre_slice _ _ _ _ gr_ay0 h6'). exact h7.
  - apply pre_length in gr_ex0, gr_ec0. lia.
  - rewrite (pre_slice _ _ _ _ gr_ex0 h8), (pre_slice _ _ _ _ gr_ec0 h8'). exact h9.
Qed.

Definition comp_built (c : scomp) : Prop := columns_ok (sc_abs c) /\ columns_ok (sc_ems c).
Lemma distribution_columns_len d xs ys : columns_ok d -> distribution_columns d = Some (xs, ys) -> List.length ys = List.length xs.
Proof.
  destruct d as [y|[] a b e]; cbn; intros H E; [|discriminate|]; injection E as <- <-; [reflexivity|]. apply H.
Qed.
Lemma emission_columns_len t d xs ys : columns_ok d -> emission_columns t d = Some (xs, ys) -> List.length ys = List.length xs.
Proof.
  unfold emission_columns. destruct (Nat.eqb t COMP_LUMINOPHORE).
  - destruct d as [y|[] a b e]; cbn; intros H E; try discriminate. injection E as <- <-. apply H.
  - intros _ E. injection E as <- <-. reflexivity.
Qed.

Lemma compile_component_ok T c T' : aligned T -> comp_built c -> compile_component T c = Some T' ->
  exists r, grows T T' /\ aligned T' /\ t_rows T' = t_rows T ++ [r] /\ t_comp_names T' = t_comp_names T ++ [sc_name c] /\
    row_ok T' c r /\ (forall n, wide n T -> wide n T').
Proof.
  intros [A1 A2 A3] [B1 B2]. unfold compile_component.
  destruct (class_tag (sc_class c)) as [tag|] eqn:Et; [|discriminate].
  destruct (phase_tag (sc_phase c)) as [[pt pp]|] eqn:Ep; [|discriminate].
  destruct (distribution_columns (sc_abs c)) as [[xs ys]|] eqn:Ed; [|discriminate].
  destruct (emission_columns tag (sc_ems c)) as [[ex ec]|] eqn:Ee; [|discriminate].
  pose proof (distribution_columns_len _ _ _ B1 Ed) as L1.
  pose proof (emission_columns_len _ _ _ _ B2 Ee) as L2.
  cbv zeta. intros H. injection H as <-. eexists. split; [|split; [|split; [|split; [|split]]]]; cycle 2.
  - cbn [t_rows]. reflexivity.
  - reflexivity.
  - constructor; cbn [r_type r_qy r_tau_rad r_tau_nr r_phase_type r_phase_param r_abs_start r_abs_n r_ems_start r_ems_n
                       t_abs_x t_abs_y t_ems_x t_ems_cdf]; try assumption; try reflexivity.
    + rewrite !app_length. lia.
    + rewrite slice_end. rewrite <- A1, <- L1, slice_end. exact Ed.
    + rewrite !app_length. destruct (Nat.eqb tag COMP_LUMINOPHORE); lia.
    + destruct (Nat.eqb tag COMP_LUMINOPHORE) eqn:El.
      * rewrite slice_end. rewrite <- A2, <- L2, slice_end. exact Ee.
      * rewrite Ee. unfold emission_columns in Ee. rewrite El in Ee. injection Ee as <- <-. reflexivity.
  - intros n []. constructor; assumption.
  - constructor; cbn; try apply pre_refl; apply pre_app.
  - constructor; cbn; rewrite !app_length; try lia. cbn. lia.
Qed.

Lemma compile_components_ok cs : forall T T', aligned T -> Forall comp_built cs -> compile_components T cs = Some T' ->
  grows T T' /\ aligned T' /\ (forall n, wide n T -> wide n T') /\
  List.length (t_rows T') = (List.length (t_rows T) + List.length cs)%nat /\
  forall k c, nth_error cs k = Some c ->
    nth_error (t_comp_names T') (List.length (t_rows T) + k) = Some (sc_name c) /\
    exists r, nth_error (t_rows T') (List.length (t_rows T) + k) = Some r /\ row_ok T' c r.
Proof.
  induction cs as [|c cs IH]; intros T T' A B H.
  - cbn in H. injection H as <-. split; [apply grows_refl|]. split; [exact A|]. split; [auto|]. split; [cbn; lia|].
    intros [|k] c E; discriminate.
  - cbn [compile_components] in H. destruct (compile_component T c) as [T1|] eqn:E1; [|discriminate].
    apply Forall_cons_iff in B. destruct B as [B1 B2].
    destruct (compile_component_ok _ _ _ A B1 E1) as (r & G1 & A1 & R1 & N1 & O1 & W1).
    destruct (IH _ _ A1 B2 H) as (G2 & A2 & W2 & L2 & K2).
    split; [eapply grows_trans; eassumption|]. split; [exact A2|]. split; [intros n Hn; apply W2, W1, Hn|].
    split; [rewrite L2, R1, app_length; cbn; lia|].
    intros [|k] c' Ek.
    + cbn in Ek. injection Ek as <-. rewrite Nat.add_0_r. split.
      * eapply pre_nth; [apply (gr_cn _ _ G2)|]. rewrite N1, nth_error_app2 by (rewrite (al_names _ A); lia).
        rewrite (al_names _ A), Nat.sub_diag. reflexivity.
      * exists r. split; [|eapply row_ok_grows; eassumption].
        eapply pre_nth; [apply (gr_rows _ _ G2)|]. rewrite R1, nth_error_app2 by lia. rewrite Nat.sub_diag. reflexivity.
    + cbn in Ek. specialize (K2 k c' Ek). rewrite R1, app_length in K2. cbn [List.length] in K2.
      replace (List.length (t_rows T) + S k)%nat with (List.length (t_rows T) + 1 + k)%nat by lia. exact K2.
Qed.

(** ** One node *)
Definition node_built (n : placed) : Prop :=
  match p_material n with Some m => Forall comp_built (sm_comps m) | None => True end.
(** entry [i] of the node columns describes [n] *)
Definition node_ok (T : tables) (i : nat) (n : placed) : Prop :=
  exists m gt gp l2w w2l st s,
    p_material n = Some m /\ compile_geometry (p_geometry n) = Some (gt, gp) /\
    compile_transform (p_to_root n) = Some (l2w, w2l) /\ surface_tag (sm_delegate m) = Some st /\
    nth_error (t_names T) i = Some (p_name n) /\ nth_error (t_geom_type T) i = Some gt /\ nth_error (t_geom_params T) i = Some gp /\
    nth_error (t_l2w T) i = Some l2w /\ nth_error (t_w2l T) i = Some w2l /\ nth_error (t_index T) i = Some (sm_index m) /\
    nth_error (t_surf T) i = Some st /\ nth_error (t_comp_start T) i = Some s /\
    nth_error (t_comp_count T) i = Some (List.length (sm_comps m)) /\
    forall k c, nth_error (sm_comps m) k = Some c ->
      nth_error (t_comp_names T) (s + k) = Some (sc_name c) /\
      exists r, nth_error (t_rows T) (s + k) = Some r /\ row_ok T c r.
Lemma node_ok_grows T T' i n : grows T T' -> node_ok T i n -> node_ok T' i n.
Proof.
  intros G (m & gt & gp & l2w & w2l & st & s & h1 & h2 & h3 & h4 & h5 & h6 & h7 & h8 & h9 & h10 & h11 & h12 & h13 & h14).
  exists m, gt, gp, l2w, w2l, st, s. pose proof G as G0. destruct G.
  do 4 (split; [assumption|]). do 9 (split; [eapply pre_nth; eassumption|]).
  intros k c E. destruct (h14 k c E) as [a [r [b d]]].
  split; [eapply pre_nth; eassumption|]. exists r. split; [eapply pre_nth; eassumption|].
  eapply row_ok_grows; eassumption.
Qed.
Lemma nth_snoc {A} (l : list A) x n : List.length l = n -> nth_error (l ++ [x]) n = Some x.
Proof. intros <-. rewrite nth_error_app2 by lia. rewrite Nat.sub_diag. reflexivity. Qed.

Lemma compile_node_ok T n T' i : aligned T -> wide i T -> node_built n -> compile_node T n = Some T' ->
  grows T T' /\ aligned T' /\ wide (S i) T' /\ node_ok T' i n.
Proof.
  intros A W B. unfold compile_node.
  destruct (compile_geometry (p_geometry n)) as [[gt gp]|] eqn:Eg; [|discriminate].
  destruct (compile_transform (p_to_root n)) as [[l2w w2l]|] eqn:Et; [|discriminate].
  destruct (p_material n) as [m|] eqn:Em; [|discriminate].
  destruct (surface_tag (sm_delegate m)) as [st|] eqn:Es; [|discriminate].
  set (T0 := Tables _ _ _ _ _ _ _ _ _ _ _ _ _ _ _). intros H.
  assert (A0 : aligned T0) by (destruct A; constructor; assumption).
  assert (G0 : grows T T0) by (constructor; cbn; try apply pre_refl; apply pre_app).
  assert (W0 : wide (S i) T0).
  { destruct W; constructor; cbn; rewrite app_length; cbn [List.length]; lia. }
  unfold node_built in B. rewrite Em in B.
  destruct (compile_components_ok _ _ _ A0 B H) as (G1 & A1 & W1 & L1 & K1).
  split; [eapply grows_trans; eassumption|]. split; [exact A1|]. split; [apply W1, W0|].
  exists m, gt, gp, l2w, w2l, st, (List.length (t_rows T)).
  do 4 (split; [assumption|]). pose proof G1 as G1'. destruct G1, W.
  do 9 (split; [eapply pre_nth; [eassumption|]; cbn; apply nth_snoc; assumption|]).
  exact K1.
Qed.

Lemma compile_nodes_ok ns : forall T T' i, aligned T -> wide i T -> Forall node_built ns -> compile_nodes T ns = Some T' ->
  grows T T' /\ aligned T' /\ wide (i + List.length ns) T' /\
  forall k n, nth_error ns k = Some n -> node_ok T' (i + k) n.
Proof.
  induction ns as [|n ns IH]; intros T T' i A W B H.
  - cbn in H. injection H as <-. split; [apply grows_refl|]. split; [exact A|]. rewrite Nat.add_0_r. split; [exact W|].
    intros [|k] c E; discriminate.
  - cbn [compile_nodes] in H. destruct (compile_node T n) as [T1|] eqn:E1; [|discriminate].
    apply Forall_cons_iff in B. destruct B as [B1 B2].
    destruct (compile_node_ok _ _ _ _ A W B1 E1) as (G1 & A1 & W1 & O1).
    destruct (IH _ _ _ A1 W1 B2 H) as (G2 & A2 & W2 & K2).
    split; [eapply grows_trans; eassumption|]. split; [exact A2|].
    split; [cbn [List.length]; replace (i + S (List.length ns))%nat with (S i + List.length ns)%nat by lia; exact W2|].
    intros [|k] c' Ek.
    + cbn in Ek. injection Ek as <-. rewrite Nat.add_0_r. eapply node_ok_grows; eassumption.
    + cbn in Ek. replace (i + S k)%nat with (S i + k)%nat by lia. apply K2. exact Ek.
Qed.
Lemma aligned0 : aligned tables0.
Proof. constructor; reflexivity. Qed.
Lemma wide0 : wide 0 tables0.
Proof. constructor; reflexivity. Qed.

(** the root is the first node *)
Lemma compile_scene_inv id name pose g cs T root_id :
  compile_scene (SNode id name pose g cs) = Some (T, root_id) ->
  (exists gm, g = Some gm) /\ root_id = 0%nat /\ compile_nodes tables0 (geometry_nodes (SNode id name pose g cs)) = Some T.
Proof.
  unfold compile_scene, geometry_nodes. cbn [preorder]. destruct g as [[gg gm]|].
  - cbn [app index_of p_id]. rewrite Nat.eqb_refl.
    match goal with |- context [compile_nodes tables0 ?l] => destruct (compile_nodes tables0 l) as [T1|]; [|discriminate] end.
    intros H. injection H as <- <-. split; [eexists; reflexivity|]. split; reflexivity.
  - cbn [app]. destruct (flat_map _ cs); discriminate.
Qed.

(** ** The same tables give the same trace *)
(** two components that trace_one cannot tell apart *)
Definition ems_columns (d : dist) : option (list R * list R) :=
  match d with DConst _ => None | DTable _ xs _ cdf => Some (xs, cdf) end.
Record same_comp (a b : component * phase) : Prop := SameComp {
  se_kind : c_kind (fst a) = c_kind (fst b);
  se_qy : c_qy (fst a) = c_qy (fst b);
  se_rad : c_tau_rad (fst a) = c_tau_rad (fst b);
  se_nr : c_tau_nr (fst a) = c_tau_nr (fst b);
  se_coef : forall nm, k_coefficient (c_dist (fst a)) nm = k_coefficient (c_dist (fst b)) nm;
  se_ems : c_kind (fst a) = Luminophore -> ems_columns (c_ems (fst a)) = ems_columns (c_ems (fst b));
  se_phase : snd a = snd b }.
Record same_scene (A B : kscene) : Prop := SameScene {
  ss_nodes : k_nodes A = k_nodes B; ss_root : k_root A = k_root B;
  ss_l2w : forall n, k_l2w A n = k_l2w B n; ss_w2l : forall n, k_w2l A n = k_w2l B n;
  ss_shape : forall n, k_shape A n = k_shape B n; ss_idx : forall n, k_idx A n = k_idx B n;
  ss_fresnel : forall n, k_fresnel A n = k_fresnel B n;
  ss_comps : forall n, Forall2 same_comp (k_comps A n) (k_comps B n) }.

Section Same.
Variables A B : kscene.
Hypothesis S : same_scene A B.
Lemma same_ts p d n : node_ts A p d n = node_ts B p d n.
Proof. unfold node_ts. rewrite (ss_shape _ _ S), (ss_w2l _ _ S). reflexivity. Qed.
Lemma same_hits p d : hit_table A p d = hit_table B p d.
Proof.
  unfold hit_table, all_hits. rewrite (ss_nodes _ _ S). f_equal. apply flat_map_ext. intros n. rewrite same_ts. reflexivity.
Qed.
Lemma fold_left_ext {X Y} (f g : X -> Y -> X) l : (forall x y, f x y = g x y) -> forall x, fold_left f l x = fold_left g l x.
Proof. intros H. induction l as [|y l IH]; intros x; [reflexivity|]. cbn. rewrite H. apply IH. Qed.
Lemma same_container p d : k_container A p d = k_container B p d.
Proof.
  unfold k_container. rewrite (ss_nodes _ _ S). f_equal. apply fold_left_ext. intros x n. rewrite same_ts. reflexivity.
Qed.
Lemma same_next p d : k_next_hit A p d = k_next_hit B p d.
Proof. unfold k_next_hit. rewrite same_hits, same_container. reflexivity. Qed.
Lemma same_tally s n nrm a r : tally_of A s n nrm a r = tally_of B s n nrm a r.
Proof. unfold tally_of. rewrite (ss_w2l _ _ S). reflexivity. Qed.
Lemma same_coefs la lb nm : Forall2 same_comp la lb ->
  map (fun c => k_coefficient (c_dist (fst c)) nm) la = map (fun c => k_coefficient (c_dist (fst c)) nm) lb.
Proof. induction 1 as [|a b la lb H _ IH]; [reflexivity|]. cbn. rewrite (se_coef _ _ H), IH. reflexivity. Qed.
Lemma same_total la lb nm : Forall2 same_comp la lb -> k_total (map fst la) nm = k_total (map fst lb) nm.
Proof.
  unfold k_total. intros H. generalize 0. induction H as [|a b la lb H _ IH]; intros x; [reflexivity|].
  cbn. rewrite (se_coef _ _ H). apply IH.
Qed.
Lemma same_nth la lb k : Forall2 same_comp la lb ->
  match nth_error la k, nth_error lb k with
  | Some a, Some b => same_comp a b
  | None, None => True
  | _, _ => False
  end.
Proof. intros H. revert k. induction H as [|a b la lb H _ IH]; intros [|k]; cbn; auto. apply IH. Qed.
Lemma same_absorb m u c x r : k_absorb A m u c x r = k_absorb B m u c x r.
Proof.
  unfold k_absorb. cbv zeta. rewrite (ss_idx _ _ S). rewrite (same_coefs _ _ _ (ss_comps _ _ S c)).
  set (k := k_select _ _). pose proof (same_nth _ _ k (ss_comps _ _ S c)) as H.
  destruct (nth_error (k_comps A c) k) as [[ca pa]|], (nth_error (k_comps B c) k) as [[cb pb]|]; try contradiction; [|reflexivity].
  destruct H as [h1 h2 h3 h4 h5 h6 h7]. cbn [fst snd] in *. subst pb. rewrite h2, h1, h4.
  destruct (k_is_radiative (c_kind cb) (c_qy cb) (u_rad u)).
  - destruct (c_kind cb) eqn:Ek; try reflexivity. specialize (h6 h1). rewrite h3.
    destruct (c_ems ca) as [|ha xa ya fa], (c_ems cb) as [|hb xb yb fb]; cbn in h6; try discriminate; [reflexivity|].
    injection h6 as <- <-. reflexivity.
  - destruct (c_kind cb); rewrite same_tally; reflexivity.
Qed.
Lemma same_surface u h c a t r : k_surface A u h c a t r = k_surface B u h c a t r.
Proof.
  unfold k_surface. cbv zeta. rewrite !(ss_idx _ _ S). destruct a as [a|]; [|reflexivity].
  rewrite !(ss_l2w _ _ S), !(ss_shape _ _ S), !(ss_w2l _ _ S), !(ss_idx _ _ S), !(ss_fresnel _ _ S).
  destruct (if k_fresnel B h then _ else _) as [refl|]; [|reflexivity].
  destruct (k_is_reflected refl (u_surf u)); [rewrite same_tally; reflexivity|].
  destruct (if k_fresnel B h then _ else _) as [d|]; [|reflexivity]. rewrite same_tally. reflexivity.
Qed.
Lemma same_pass ms m u count r : k_pass A ms m u count r = k_pass B ms m u count r.
Proof.
  unfold k_pass. rewrite same_next. destruct (k_next_hit B (position r) (direction r)) as [[[[hit c] a] t0]|]; [|reflexivity].
  rewrite same_tally, (ss_root _ _ S), !(ss_idx _ _ S), !(ss_l2w _ _ S), !(ss_shape _ _ S), !(ss_w2l _ _ S).
  rewrite (same_total _ _ _ (ss_comps _ _ S c)). destruct (Nat.ltb ms count); [reflexivity|].
  destruct (Nat.eqb hit (k_root B)); [cbv zeta; rewrite same_tally; reflexivity|].
  destruct (k_depth _ _) as [x|]; [|apply same_surface]. destruct (Rltb x t0); [apply same_absorb|apply same_surface].
Qed.
Lemma same_loop fuel budget ms m us : forall count log r,
  k_loop fuel A budget ms m us count log r = k_loop fuel B budget ms m us count log r.
Proof.
  induction fuel as [|fuel IH]; intros count log r; [reflexivity|]. cbn [k_loop]. rewrite same_pass.
  destruct (budget_spent budget log); [reflexivity|]. destruct (k_pass B ms m _ _ r) as [e t|e t r'|]; try reflexivity.
  rewrite IH. reflexivity.
Qed.
Lemma same_trace fuel budget ms m us r : trace_one fuel A budget ms m us r = trace_one fuel B budget ms m us r.
Proof. apply same_loop. Qed.
End Same.

(** ** Positions of nodes *)
(** [chain t poses n]: the node [n] is reached from [t] through children with these poses *)
Inductive chain : stree -> list rigid -> placed -> Prop :=
| chain_here id name p g m cs tr : chain (SNode id name p (Some (g, m)) cs) [] (Placed id name tr g m)
| chain_child id name p g cs c n cid cname cp cg ccs poses :
    In c cs -> c = SNode cid cname cp cg ccs -> chain c poses n ->
    chain (SNode id name p g cs) (cp :: poses) n.
Fixpoint stree_size (t : stree) : nat :=
  match t with SNode _ _ _ _ cs => S (list_sum (map stree_size cs)) end.
Lemma stree_size_in c cs : In c cs -> (stree_size c <= list_sum (map stree_size cs))%nat.
Proof.
  induction cs as [|x cs IH]; [contradiction|].
  change (list_sum (map stree_size (x :: cs))) with (stree_size x + list_sum (map stree_size cs))%nat.
  intros [ -> |H]; [lia|]. specialize (IH H). lia.
Qed.
Lemma stree_ind_in (P : stree -> Prop) :
  (forall id name p g cs, (forall c, In c cs -> P c) -> P (SNode id name p g cs)) -> forall t, P t.
Proof.
  intros H. assert (K : forall k t, (stree_size t <= k)%nat -> P t).
  { induction k as [|k IH]; intros [id name p g cs] L; cbn [stree_size] in L; [lia|]. apply H. intros c Hc. apply IH.
    apply stree_size_in in Hc. lia. }
  intros t. apply (K (stree_size t)). lia.
Qed.
Definition same_place (n : placed) (g : rigid) : placed := Placed (p_id n) (p_name n) g (p_geometry n) (p_material n).
Lemma preorder_in t : forall g n, In n (preorder t g) ->
  exists poses, chain t poses n /\ p_to_root n = fold_left rcomp poses g.
Proof.
  induction t as [id name p gm cs IH] using stree_ind_in. intros g n H. cbn [preorder] in H.
  apply in_app_iff in H. destruct H as [H|H].
  - destruct gm as [[gg m]|]; [|contradiction]. destruct H as [<-|[]]. exists []. split; [constructor|reflexivity].
  - apply in_flat_map in H. destruct H as (c & Hc & H). destruct c as [cid cname cp cg ccs] eqn:Ec. rewrite <- Ec in *.
    destruct (IH c Hc (rcomp g cp) n H) as (poses & h1 & h2).
    exists (cp :: poses). split; [eapply chain_child; eassumption|exact h2].
Qed.
Lemma chain_preorder t poses n : chain t poses n -> forall g, In (same_place n (fold_left rcomp poses g)) (preorder t g).
Proof.
  induction 1 as [id name p g m cs tr|id name p g cs c n cid cname cp cg ccs poses Hc Ec H IH]; intros g0; cbn [preorder].
  - apply in_app_iff. left. left. reflexivity.
  - apply in_app_iff. right. apply in_flat_map. exists c. split; [exact Hc|]. subst c. apply IH.
Qed.
Lemma to_point_chain poses g x : to_point (fold_left rcomp poses g) x = to_point g (fold_right to_point x poses).
Proof.
  revert g. induction poses as [|p poses IH]; intros g; [reflexivity|]. cbn. rewrite IH. apply to_point_rcomp.
Qed.

(** ** The rigidity test *)
Lemma allclose_true a b : np_allclose1 a b = true -> Rabs (a - b) <= / 10 ^ 9 + / 10 ^ 5 * Rabs b.
Proof. unfold np_allclose1. apply Rleb_true. Qed.
Lemma allclose3_true a b : np_allclose3 a b = true ->
  Rabs (vx a - vx b) <= / 10 ^ 9 + / 10 ^ 5 * Rabs (vx b) /\ Rabs (vy a - vy b) <= / 10 ^ 9 + / 10 ^ 5 * Rabs (vy b) /\
  Rabs (vz a - vz b) <= / 10 ^ 9 + / 10 ^ 5 * Rabs (vz b).
Proof.
  unfold np_allclose3. intros H. apply andb_true_iff in H. destruct H as [H h3]. apply andb_true_iff in H. destruct H as [h1 h2].
  repeat split; apply allclose_true; assumption.
Qed.
Definition dtol : R := / 10 ^ 9 + / 10 ^ 5.
Definition otol : R := / 10 ^ 9.
Lemma rigid_check_true m : rigid_check m = true ->
  Rabs (dot (r1 m) (r1 m) - 1) <= dtol /\ Rabs (dot (r2 m) (r2 m) - 1) <= dtol /\ Rabs (dot (r3 m) (r3 m) - 1) <= dtol /\
  Rabs (dot (r1 m) (r2 m)) <= otol /\ Rabs (dot (r1 m) (r3 m)) <= otol /\ Rabs (dot (r2 m) (r3 m)) <= otol.
Proof.
  unfold rigid_check. cbv zeta. intros H. apply andb_true_iff in H. destruct H as [H h3].
  apply andb_true_iff in H. destruct H as [h1 h2].
  apply allclose3_true in h1, h2, h3. unfold mmul, mtrans, mid, dot, dtol, otol in *. cbn [r1 r2 r3 vx vy vz] in *.
  rewrite ?Rabs_R1, ?Rabs_R0, ?Rmult_0_r, ?Rmult_1_r, ?Rplus_0_r, ?Rminus_0_r in *. tauto.
Qed.
