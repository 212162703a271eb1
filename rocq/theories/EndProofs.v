(** Lemmas for EndProps.v. *)
From Coq Require Import Reals Lra Lia Psatz List Bool Arith String Permutation.
From Verif Require Import Base Vec Interp DistModel DistProofs DistProps MaterialModel MaterialSpec MaterialProofs MaterialProps
  OpticsModel OpticsProofs OpticsProps PhaseModel PhaseProofs PhaseProps TransformModel TransformProofs GeomModel GeomProofs GeomProps
  TracerModel TracerProofs TracerProps KernelModel KernelProofs KernelSim KernelProps BundleModel BundleProofs
  CompilerModel CompilerProofs CompilerProps EndModel.
Import ListNotations.
Open Scope R_scope.

(** ** Only the nodes that exist matter to the kernel *)
Record same_within (A B : kscene) : Prop := SameWithin {
  sw_nodes : k_nodes A = k_nodes B; sw_root : k_root A = k_root B;
  sw_l2w : forall n, (n < k_nodes A)%nat -> k_l2w A n = k_l2w B n; sw_w2l : forall n, (n < k_nodes A)%nat -> k_w2l A n = k_w2l B n;
  sw_shape : forall n, (n < k_nodes A)%nat -> k_shape A n = k_shape B n; sw_idx : forall n, (n < k_nodes A)%nat -> k_idx A n = k_idx B n;
  sw_fresnel : forall n, (n < k_nodes A)%nat -> k_fresnel A n = k_fresnel B n;
  sw_comps : forall n, (n < k_nodes A)%nat -> Forall2 same_comp (k_comps A n) (k_comps B n) }.

Section Within.
Variables A B : kscene.
Hypothesis W : same_within A B.
Lemma within_ts p d n : (n < k_nodes A)%nat -> node_ts A p d n = node_ts B p d n.
Proof. intros H. unfold node_ts. now rewrite (sw_shape _ _ W), (sw_w2l _ _ W). Qed.
Lemma within_hits p d : hit_table A p d = hit_table B p d.
Proof.
  unfold hit_table, all_hits. rewrite <- (sw_nodes _ _ W). f_equal. apply KernelProofs.flat_map_ext_in. intros n Hn.
  apply in_seq in Hn. rewrite within_ts by lia. reflexivity.
Qed.
Lemma fold_left_ext_in {X Y} (f g : X -> Y -> X) l : (forall x y, In y l -> f x y = g x y) -> forall x, fold_left f l x = fold_left g l x.
Proof.
  intros H. induction l as [|y l IH]; intros x; [reflexivity|]. cbn. rewrite H by now left. apply IH. intros; apply H; now right.
Qed.
Lemma within_container p d : k_container A p d = k_container B p d.
Proof.
  unfold k_container. rewrite <- (sw_nodes _ _ W). f_equal. apply fold_left_ext_in. intros x n Hn. apply in_seq in Hn.
  rewrite within_ts by lia. reflexivity.
Qed.
Lemma within_next p d : k_next_hit A p d = k_next_hit B p d.
Proof. unfold k_next_hit. rewrite within_hits, within_container. reflexivity. Qed.
Lemma within_tally s n nrm a r : (n < k_nodes A)%nat -> tally_of A s n nrm a r = tally_of B s n nrm a r.
Proof. intros H. unfold tally_of. now rewrite (sw_w2l _ _ W). Qed.
Lemma within_absorb m u c x r : (c < k_nodes A)%nat -> k_absorb A m u c x r = k_absorb B m u c x r.
Proof.
  intros Hc. unfold k_absorb. cbv zeta. rewrite (sw_idx _ _ W) by exact Hc. rewrite (same_coefs _ _ _ (sw_comps _ _ W c Hc)).
  set (k := k_select _ _). pose proof (same_nth _ _ k (sw_comps _ _ W c Hc)) as H.
  destruct (nth_error (k_comps A c) k) as [[ca pa]|], (nth_error (k_comps B c) k) as [[cb pb]|]; try contradiction; [|reflexivity].
  destruct H as [h1 h2 h3 h4 h5 h6 h7]. cbn [fst snd] in *. subst pb. rewrite h2, h1, h4.
  destruct (k_is_radiative (c_kind cb) (c_qy cb) (u_rad u)).
  - destruct (c_kind cb) eqn:Ek; try reflexivity. specialize (h6 h1). rewrite h3.
    destruct (c_ems ca) as [|ha xa ya fa], (c_ems cb) as [|hb xb yb fb]; cbn in h6; try discriminate; [reflexivity|].
    injection h6 as <- <-. reflexivity.
  - destruct (c_kind cb); rewrite within_tally by exact Hc; reflexivity.
Qed.
Lemma within_surface u h c a t r : (h < k_nodes A)%nat -> (c < k_nodes A)%nat -> ok_node A a ->
  k_surface A u h c a t r = k_surface B u h c a t r.
Proof.
  intros Hh Hc Ha. unfold k_surface. cbv zeta. rewrite (sw_idx _ _ W c) by exact Hc. destruct a as [a|]; [|reflexivity].
  simpl in Ha. rewrite !(sw_l2w _ _ W h), !(sw_shape _ _ W h), !(sw_w2l _ _ W h), !(sw_idx _ _ W a), !(sw_fresnel _ _ W h) by assumption.
  destruct (if k_fresnel B h then _ else _) as [refl|]; [|reflexivity].
  destruct (k_is_reflected refl (u_surf u)); [rewrite within_tally by assumption; reflexivity|].
  destruct (if k_fresnel B h then _ else _) as [d|]; [|reflexivity]. rewrite within_tally by assumption. reflexivity.
Qed.
Lemma within_pass ms m u count r : k_pass A ms m u count r = k_pass B ms m u count r.
Proof.
  unfold k_pass. rewrite <- within_next. destruct (k_next_hit A (position r) (direction r)) as [[[[hit c] a] t0]|] eqn:E; [|reflexivity].
  destruct (next_hit_nodes _ _ _ _ _ _ _ E) as (Hh & Hc & Ha).
  rewrite (within_tally Killed c), (sw_root _ _ W), !(sw_idx _ _ W c), !(sw_l2w _ _ W hit), !(sw_shape _ _ W hit), !(sw_w2l _ _ W hit) by assumption.
  rewrite (same_total _ _ _ (sw_comps _ _ W c Hc)). destruct (Nat.ltb ms count); [reflexivity|].
  destruct (Nat.eqb hit (k_root B)); [cbv zeta; rewrite within_tally by assumption; reflexivity|].
  destruct (k_depth _ _) as [x|]; [|now apply within_surface]. destruct (Rltb x t0); [now apply within_absorb|now apply within_surface].
Qed.
Lemma within_loop fuel budget ms m us : forall count log r,
  k_loop fuel A budget ms m us count log r = k_loop fuel B budget ms m us count log r.
Proof.
  induction fuel as [|fuel IH]; intros count log r; [reflexivity|]. cbn [k_loop]. rewrite within_pass.
  destruct (budget_spent budget log); [reflexivity|]. destruct (k_pass B ms m _ _ r) as [e t|e t r'|]; try reflexivity.
  rewrite IH. reflexivity.
Qed.
Lemma within_trace fuel budget ms m us r : trace_one fuel A budget ms m us r = trace_one fuel B budget ms m us r.
Proof. apply within_loop. Qed.
End Within.

(** ** The geometries of the tree in pre-order *)
Definition at_place (g : rigid) (n : placed) : placed := same_place n (rcomp g (p_to_root n)).
Lemma flat_map_map_out {X Y Z} (h : Y -> Z) (f : X -> list Y) l : map h (flat_map f l) = flat_map (fun x => map h (f x)) l.
Proof. induction l as [|x l IH]; [reflexivity|]. cbn. rewrite map_app, IH. reflexivity. Qed.
Lemma flat_map_same {X Y} (f g : X -> list Y) l : (forall x, In x l -> f x = g x) -> flat_map f l = flat_map g l.
Proof.
  induction l as [|x l IH]; intros H; [reflexivity|]. cbn. rewrite H by now left. f_equal. apply IH. intros; apply H; now right.
Qed.
Lemma flat_map_of_map {X Y Z} (f : Y -> list Z) (g : X -> Y) l : flat_map f (map g l) = flat_map (fun x => f (g x)) l.
Proof. induction l as [|x l IH]; [reflexivity|]. cbn. now rewrite IH. Qed.

Lemma preorder_moved t : forall g h, preorder t (rcomp g h) = map (at_place g) (preorder t h).
Proof.
  induction t as [id name p gm cs IH] using stree_ind_in. intros g h. cbn [preorder]. rewrite map_app. f_equal.
  - destruct gm as [[gg m]|]; reflexivity.
  - rewrite flat_map_map_out. apply flat_map_same. intros [cid cname cp cg ccs] Hc. rewrite <- rcomp_assoc. apply IH, Hc.
Qed.
Lemma placements_tree mesh t :
  placements (py_tree mesh t) = map (fun n => (p_to_root n, p_id n, py_geometry mesh (p_geometry n))) (geometry_nodes t).
Proof.
  unfold geometry_nodes. induction t as [id name p gm cs IH] using stree_ind_in. cbn [py_tree placements preorder].
  rewrite map_app. f_equal.
  - destruct gm as [[gg m]|]; reflexivity.
  - rewrite flat_map_map_out, flat_map_of_map. apply flat_map_same. intros c Hc.
    specialize (IH c Hc). destruct c as [cid cname cp cg ccs] eqn:Ec. rewrite <- Ec in *.
    rewrite rcomp_id_l. pose proof (preorder_moved c cp rid) as M. rewrite rcomp_id_r in M. rewrite M, map_map.
    transitivity (map (fun q : rigid * nat * (vec -> vec -> list vec) => (rcomp cp (fst (fst q)), snd (fst q), snd q)) (placements (py_tree mesh c))).
    + rewrite Ec. reflexivity.
    + rewrite IH, map_map. reflexivity.
Qed.

(** poses below the root *)
Inductive poses_below (P : rigid -> Prop) : stree -> Prop :=
| poses_below_node id name p g cs :
    (forall c, In c cs -> poses_below P c /\ match c with SNode _ _ cp _ _ => P cp end) -> poses_below P (SNode id name p g cs).
Lemma below_tree mesh t : poses_below wf_rigid t -> below wf_rigid (py_tree mesh t).
Proof.
  induction t as [id name p gm cs IH] using stree_ind_in. intros H. inversion H as [? ? ? ? ? Hc]; subst. cbn [py_tree].
  constructor. intros c Hin. apply in_map_iff in Hin. destruct Hin as (c0 & <- & Hin). destruct (Hc c0 Hin) as [h1 h2].
  split; [apply IH; assumption|]. destruct c0. exact h2.
Qed.
Lemma poses_chain t : poses_below wf_rigid t -> poses_rigid t.
Proof.
  intros H poses n C. revert H. induction C as [|id name p g cs c n cid cname cp cg ccs poses Hin Ec _ IH]; intros H; [constructor|].
  inversion H as [? ? ? ? ? Hc]; subst. destruct (Hc _ Hin) as [h1 h2]. constructor; [exact h2|]. apply IH, h1.
Qed.
