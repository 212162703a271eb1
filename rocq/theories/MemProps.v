(** C110: the kernel uses only cells that exist.  C111: threads do not disturb each other. *)
From Coq Require Import Reals ZArith List Bool Lia String.
From Verif Require Import Base Vec DistModel DistProofs TransformModel TransformProofs TracerModel KernelModel TallyModel TallyProofs CompilerModel
  CompilerProofs CompilerProps MemModel MemLayoutModel MemProofs.
From Verif Require TallyProps.
Import ListNotations.
Open Scope Z_scope.

(** the accesses that ray [i] makes on thread [tid] *)
Definition accesses (mem : memory) (s : setting) (fuel : nat) (tid i : Z) (o : oracle) : list access :=
  fst (snd (trace_ray fuel mem s tid i o ([], 0%nat))).

(** ** Tables from a scene *)
Lemma len_nonneg {A} (l : list A) : 0 <= len l.
Proof. unfold len. lia. Qed.
Lemma ints_nth {A} (f : A -> Z) l i x : 0 <= i -> nth_error l (Z.to_nat i) = Some x -> ints f l i = f x.
Proof. intros H E. unfold ints. apply nth_error_nth. now apply map_nth_error. Qed.
Lemma nth_len {A} (l : list A) i : 0 <= i < len l -> exists x, nth_error l (Z.to_nat i) = Some x.
Proof.
  intros H. destruct (nth_error l (Z.to_nat i)) as [x|] eqn:E; [eauto|]. apply nth_error_None in E. unfold len in H. lia.
Qed.

(** each row of the component table *)
Definition row_fits (T : tables) (r : crow) : Prop :=
  (1 <= r_abs_n r /\ r_abs_start r + r_abs_n r <= List.length (t_abs_x T) /\
   (r_type r = COMP_LUMINOPHORE -> 1 <= r_ems_n r /\ r_ems_start r + r_ems_n r <= List.length (t_ems_x T)))%nat.
Definition fits (T : tables) : Prop :=
  Forall (row_fits T) (t_rows T) /\ Forall (fun p => List.length p = 4%nat) (t_geom_params T) /\
  Forall (fun st => (st <= List.length (t_rows T))%nat) (t_comp_start T).
Definition filled (d : dist) : Prop := match d with DConst _ => True | DTable _ xs _ _ => xs <> [] end.
Lemma component_fits T c T' : fits T -> filled (sc_abs c) -> filled (sc_ems c) -> compile_component T c = Some T' -> fits T'.
Proof.
  intros (F & P & S) A E. unfold compile_component.
  destruct (class_tag (sc_class c)) as [tag|]; [|discriminate]. destruct (phase_tag (sc_phase c)) as [[pt pp]|]; [|discriminate].
  destruct (distribution_columns (sc_abs c)) as [[xs ys]|] eqn:Ed; [|discriminate].
  destruct (emission_columns tag (sc_ems c)) as [[ex ec]|] eqn:Ee; [|discriminate]. cbv zeta.
  assert (Hx : (1 <= List.length xs)%nat).
  { destruct (sc_abs c) as [y|[] a b e]; cbn in Ed; try discriminate; injection Ed as <- <-; [cbn; lia|]. destruct a; [now destruct A|cbn; lia]. }
  assert (Hex : tag = COMP_LUMINOPHORE -> (1 <= List.length ex)%nat).
  { intros ->. cbn in Ee. destruct (sc_ems c) as [y|[] a b e]; try discriminate. injection Ee as <- <-. destruct a; [now destruct E|cbn; lia]. }
  intros H. injection H as <-. split; [|split; [exact P|cbn [t_rows t_comp_start]; eapply Forall_impl; [|exact S]; cbv beta; intros st Hst; rewrite app_length; lia]].
  cbn [t_rows]. apply Forall_app. split.
  - eapply Forall_impl; [|exact F]. intros r (B1 & B2 & B3). split; [exact B1|]. cbn [t_abs_x t_ems_x]. rewrite !app_length.
    split; [lia|]. intros Et. destruct (B3 Et). lia.
  - constructor; [|constructor]. unfold row_fits. cbn [r_abs_n r_abs_start r_type r_ems_n r_ems_start t_abs_x t_ems_x]. rewrite !app_length.
    split; [exact Hx|]. split; [lia|]. intros Et. specialize (Hex Et). split; [exact Hex|]. destruct (Nat.eqb tag COMP_LUMINOPHORE); lia.
Qed.
Lemma components_fit cs : forall T T', fits T -> Forall (fun c => filled (sc_abs c) /\ filled (sc_ems c)) cs -> compile_components T cs = Some T' -> fits T'.
Proof.
  induction cs as [|c cs IH]; intros T T' F B H; cbn [compile_components] in H; [now injection H as <-|].
  destruct (compile_component T c) as [T1|] eqn:E; [|discriminate]. apply Forall_cons_iff in B as [[B1 B2] B3].
  eapply IH; [|exact B3|exact H]. eapply component_fits; eassumption.
Qed.
Lemma nodes_fit ns : forall T T', fits T ->
  Forall (fun n => forall m, p_material n = Some m -> Forall (fun c => filled (sc_abs c) /\ filled (sc_ems c)) (sm_comps m)) ns ->
  compile_nodes T ns = Some T' -> fits T'.
Proof.
  induction ns as [|n ns IH]; intros T T' F B H; cbn [compile_nodes] in H; [now injection H as <-|].
  destruct (compile_node T n) as [T1|] eqn:E; [|discriminate]. apply Forall_cons_iff in B as [B1 B2].
  eapply IH; [|exact B2|exact H]. clear IH H. unfold compile_node in E.
  destruct (compile_geometry (p_geometry n)) as [[gt gp]|] eqn:Eg; [|discriminate].
  destruct (compile_transform (p_to_root n)) as [[a b]|]; [|discriminate].
  destruct (p_material n) as [m|] eqn:Em; [|discriminate]. destruct (surface_tag (sm_delegate m)) as [st|]; [|discriminate].
  eapply components_fit; [|exact (B1 m eq_refl)|exact E]. destruct F as (F & P & S). split; [exact F|]. cbn [t_geom_params t_comp_start t_rows].
  split; [|apply Forall_app; split; [exact S|]; constructor; [lia|constructor]].
  apply Forall_app. split; [exact P|]. constructor; [|constructor]. destruct (p_geometry n); cbn in Eg; try discriminate; injection Eg as <- <-; reflexivity.
Qed.
Lemma built_filled d : built d -> filled d.
Proof.
  intros [[y ->]|(xs & ys & h & L & E)]; [exact I|]. unfold mk_dist in E. destruct (negb (ascending xs)); [discriminate|].
  destruct ys as [|y0 yr] eqn:Ey; [discriminate|]. destruct xs as [|x0 xr]; [discriminate L|].
  destruct (existsb _ _); [discriminate|]. destruct h.
  - cbv zeta in E. destruct (Nat.ltb _ 2); [discriminate|]. destruct (Reqb _ 0); [discriminate|]. injection E as <-. discriminate.
  - destruct (cumsum _); [discriminate|]. cbv zeta in E. destruct (Reqb _ 0); [discriminate|]. injection E as <-. discriminate.
Qed.
Lemma compiled_fits root T id : spectra_built root -> compile_scene root = Some (T, id) -> fits T /\ aligned T.
Proof.
  intros B H. destruct root as [i name pose g cs]. destruct (compile_scene_inv _ _ _ _ _ _ _ H) as (_ & -> & HT). split.
  - eapply nodes_fit; [|idtac|exact HT]; [split; [constructor|split; constructor]|]. apply Forall_forall. intros n Hn m Hm. apply Forall_forall. intros c Hc.
    destruct (B n m c Hn Hm Hc). split; now apply built_filled.
  - now destruct (compile_nodes_ok _ _ _ 0%nat aligned0 wide0 (spectra_built_nodes _ B) HT) as (_ & A & _).
Qed.
Lemma concat_length (l : list (list R)) : Forall (fun p => List.length p = 4%nat) l -> List.length (List.concat l) = (4 * List.length l)%nat.
Proof. induction 1 as [|p l Hp _ IH]; [reflexivity|]. cbn [List.concat List.length]. rewrite app_length, IH, Hp. lia. Qed.

(** ** The arrays are well formed *)
Lemma rows_bounds rs ks rows total : kernel_tables rs = (ks, rows, total) -> forall i row, nth_error rows i = Some row ->
  (hr_offset row + hr_na row * hr_nb row <= total)%nat /\ (hr_b row = None -> hr_nb row = 1%nat).
Proof.
  intros E i row Hr. destruct (tables_ok _ _ _ _ E) as (-> & -> & _). destruct (TallyProps.rows_nth _ _ _ _ Hr) as (h & Hh & ->).
  pose proof (off_bound (specs rs) 0 i h Hh) as K. destruct h as [h|a b]; cbn [hist_row fst hr_offset hr_na hr_nb hr_a hr_b] in *; unfold hr_na; cbn [hr_a bins_size] in *.
  - split; [lia|reflexivity].
  - split; [lia|discriminate].
Qed.
Lemma property_id_nonneg p : 0 <= property_id p.
Proof. destruct p; cbn; lia. Qed.

Lemma trace_bundle_inv scene rs c mem s : trace_bundle scene rs c = Some (mem, s) ->
  exists T id ks rows total, compile_scene scene = Some (T, id) /\ kernel_tables rs = (ks, rows, total) /\ len rs <= MAX_RECORDERS /\
    len (t_geom_type T) <= MAX_NODES /\ 0 <= n_recorded c * b_max_events c /\ mem = layout T ks rows total c /\ s = scalars T id ks total c.
Proof.
  unfold trace_bundle, kernel_tables. destruct (compile_scene scene) as [[T id]|] eqn:ET; [|discriminate].
  destruct (MAX_RECORDERS <? len rs) eqn:E1; [discriminate|]. destruct (compile_recorders rs 0 0) as [[ks rows] total] eqn:ER.
  destruct (MAX_NODES <? len (t_geom_type T)) eqn:E2; [discriminate|]. destruct (n_recorded c * b_max_events c <? 0) eqn:E3; [discriminate|].
  intros H. injection H as <- <-. apply Z.ltb_ge in E1, E2, E3. exists T, id, ks, rows, total. auto 8.
Qed.

Lemma bundle_well_formed scene rs c mem s : spectra_built scene -> trace_bundle scene rs c = Some (mem, s) ->
  well_formed mem s (nthr c) (b_rays c).
Proof.
  intros B H. destruct (trace_bundle_inv _ _ _ _ _ H) as (T & id & ks & rows & total & ET & ER & L1 & L2 & L3 & -> & ->). clear H.
  destruct (compiled_fits _ _ _ B ET) as [(F & P & St) [Al1 Al2 _]]. destruct (compiled_nodes _ _ _ B ET) as (-> & Wd & NK).
  set (ns := geometry_nodes scene) in *. destruct Wd as [_ W1 W2 W3 W4 W5 W6 W7 W8].
  destruct (tables_ok _ _ _ _ ER) as (ERows & ETot & ELen & EK & EB & _). pose proof (rows_bounds _ _ _ _ ER) as RB.
  assert (Hn : 1 <= nthr c) by (unfold nthr; lia).
  assert (Lks : len ks = len rs) by (unfold len; now rewrite ELen).
  assert (Lrows : List.length rows = List.length (specs rs)) by (rewrite ERows; apply hist_rows_spec).
  pose proof (len_nonneg ks) as K0.
  assert (Row : forall h, 0 <= h < len rows -> exists row, nth_error rows (Z.to_nat h) = Some row) by (intros; now apply nth_len).
  constructor; cbn [m_len m_int layout layout_len layout_int scalars n_nodes n_recorders total_bins max_events record_every].
  - split; [apply len_nonneg|exact L2].
  - repeat split.
  - unfold len in *. rewrite (concat_length _ P). rewrite W1, W2, W3, W4, W5, W6, W7, W8. repeat split; lia.
  - cbv zeta. repeat split.
  - unfold len. now rewrite Al1, Al2.
  - intros node Hnode. unfold len in Hnode. rewrite W1 in Hnode.
    destruct (nth_len ns node ltac:(unfold len; lia)) as [n En]. destruct (NK _ _ En) as
      (m & gt & gp & a & b & st & st0 & h1 & h2 & h3 & h4 & h5 & h6 & h7 & h8 & h9 & h10 & h11 & h12 & h13 & h14).
    rewrite (ints_nth _ _ _ _ (proj1 Hnode) h12), (ints_nth _ _ _ _ (proj1 Hnode) h13). split; [lia|].
    destruct (sm_comps m) as [|c0 cs].
    + cbn [List.length]. rewrite Forall_forall in St. specialize (St st0 (nth_error_In _ _ h12)). unfold len. lia.
    + destruct (nth_error (c0 :: cs) (List.length cs)) as [cl|] eqn:El; [|apply nth_error_None in El; cbn [List.length] in El; lia].
      destruct (h14 _ _ El) as (_ & r & Hr & _).
      assert (st0 + List.length cs < List.length (t_rows T))%nat by (apply nth_error_Some; congruence). unfold len. cbn [List.length]. lia.
  - intros k Hk. destruct (nth_len _ _ Hk) as [r Er]. rewrite !(ints_nth _ _ _ _ (proj1 Hk) Er).
    rewrite Forall_forall in F. destruct (F r (nth_error_In _ _ Er)) as (R1 & R2 & _). unfold len. lia.
  - intros k Hk. destruct (nth_len _ _ Hk) as [r Er]. rewrite !(ints_nth _ _ _ _ (proj1 Hk) Er). intros Et.
    rewrite Forall_forall in F. destruct (F r (nth_error_In _ _ Er)) as (_ & _ & R3). destruct R3; [unfold COMP_LUMINOPHORE; lia|]. unfold len. lia.
  - lia.
  - unfold len in *. repeat split; lia.
  - cbv zeta. repeat split.
  - intros r Hr. destruct (nth_len _ _ Hr) as [k Ek]. rewrite !(ints_nth _ _ _ _ (proj1 Hr) Ek). specialize (EB k (nth_error_In _ _ Ek)). unfold len. lia.
  - intros h Hh. destruct (Row h Hh) as [row Er]. rewrite !(ints_nth _ _ _ _ (proj1 Hh) Er). destruct (RB _ _ Er) as [R1 R2].
    split; [lia|]. destruct (hr_b row) as [b|]; [pose proof (property_id_nonneg (h_prop b)); split; intros; lia|]. rewrite (R2 eq_refl) in R1. split; intros; lia.
  - lia.
  - repeat split; nia.
  - exact L3.
  - cbv zeta. unfold n_recorded in *. repeat split; lia.
  - repeat split.
Qed.

(** The threads that may run: trace_bundle asks OpenMP for num_threads threads (1075).  A request
    that is not positive does not conform to OpenMP, and the runtime chooses the number itself
    (libgomp takes one thread per core for 0). *)
Definition may_run (c : call) (tid : Z) : Prop := 0 <= tid /\ (1 <= b_threads c -> tid < b_threads c).

(** ** C110 *)
Theorem C110_accesses_inside_partial : forall scene rs c mem s,
  spectra_built scene -> trace_bundle scene rs c = Some (mem, s) -> 1 <= b_threads c ->
  forall o fuel tid i, may_run c tid -> 0 <= i < b_rays c ->
  forall x, In x (accesses mem s fuel tid i o) -> 0 <= x_index x < m_len mem (x_array x).
Proof.
  intros scene rs c mem s B H Hc o fuel tid i [Ht1 Ht2] Hi x Hx. pose proof (bundle_well_formed _ _ _ _ _ B H) as W.
  specialize (Ht2 Hc). destruct (safe_trace_ray _ _ _ _ tid i W ltac:(unfold nthr; lia) fuel Hi o ([], 0%nat) (Forall_nil _)) as [A _].
  rewrite Forall_forall in A. destruct (A x Hx) as (A1 & _). exact A1.
Qed.
Print Assumptions C110_accesses_inside_partial.

(** a world of air with one recorder and two histograms, and a ray that leaves it *)
Definition open_world : stree := SNode 7 "world" rid (Some (GSphere 10, Some air)) [].
Definition leaving : recorder :=
  Recorder 0 Exit None 0 [TallyModel.H1 (Histogram PWavelength 400 800 100); TallyModel.H2 (Histogram PX 0 1 4) (Histogram PY 0 1 6)].
Lemma open_world_compiles : compile_scene open_world =
  Some (Tables ["world"%string] [GEOM_SPHERE] [[10; 0; 0; 0]%R] [rid] [ainv rid] [1%R] [0%nat] [0%nat] [0%nat] [] [] [] [] [] [], 0%nat).
Proof.
  assert (K : compile_transform rid = Some (rid, ainv rid)) by (unfold compile_transform; rewrite orthogonal_check by exact wf_rid; reflexivity).
  unfold compile_scene, open_world, geometry_nodes. cbn [preorder flat_map app index_of p_id Nat.eqb compile_nodes]. unfold compile_node.
  cbn [p_geometry p_to_root p_material p_name compile_geometry]. rewrite K. reflexivity.
Qed.
(** ray 3 of 5 on thread [tid]: one hit; the casts give bins 38, 2 and 5 *)
Definition leaves : oracle := Oracle (Nat.eqb 1) (fun k => if Nat.eqb k 7 then 38 else if Nat.eqb k 8 then 2 else 5).
Lemma open_world_run w tid : exists mem s, trace_bundle open_world [(0%nat, leaving)] (Call 5 1000 128 0 w 3) = Some (mem, s) /\
  m_len mem cross = Z.max 1 w /\ m_len mem bins = Z.max 1 w * 124 /\
  (tid = 1 -> In (Access true cross 1) (accesses mem s 9 tid 3 leaves) /\ In (Access true bins (124 + 38)) (accesses mem s 9 tid 3 leaves) /\
   In (Access true bins (124 + 100 + 2 * 6 + 5)) (accesses mem s 9 tid 3 leaves) /\ In (Access true ev_position (128 * 3)) (accesses mem s 9 tid 3 leaves)).
Proof.
  unfold trace_bundle. rewrite open_world_compiles. eexists. eexists. split; [reflexivity|]. split; [exact (Z.mul_1_r _)|]. split; [reflexivity|].
  intros ->. set (l := accesses _ _ _ _ _ _). vm_compute in l. unfold l. repeat split; repeat (try (left; reflexivity); right).
Qed.
Lemma open_world_built : spectra_built open_world.
Proof. intros n m k Hn Hm Hk. destruct Hn as [ <- | [] ]. cbn in Hm. injection Hm as <-. destruct Hk. Qed.

(** With workers = 0 there is one row of tallies, but more than one thread may run. *)
Theorem C110_accesses_inside_refuted : exists scene rs c mem s o fuel tid i x,
  spectra_built scene /\ trace_bundle scene rs c = Some (mem, s) /\ b_threads c = 0 /\ may_run c tid /\ 0 <= i < b_rays c /\
  In x (accesses mem s fuel tid i o) /\ x_write x = true /\ m_len mem (x_array x) <= x_index x.
Proof.
  destruct (open_world_run 0 1) as (mem & s & H & L & _ & R). destruct (R eq_refl) as (R1 & _).
  exists open_world, [(0%nat, leaving)], (Call 5 1000 128 0 0 3), mem, s, leaves, 9%nat, 1, 3, (Access true cross 1).
  split; [exact open_world_built|]. split; [exact H|]. split; [reflexivity|]. split; [split; cbn; lia|]. split; [cbn; lia|].
  split; [exact R1|]. split; [reflexivity|]. cbn [x_array x_index]. rewrite L. cbn. lia.
Qed.
Print Assumptions C110_accesses_inside_refuted.

(** two workers: ray 3 on thread 1 fills its own row of each tally and the second row of the log *)
Example C110_example : exists mem s, trace_bundle open_world [(0%nat, leaving)] (Call 5 1000 128 0 2 3) = Some (mem, s) /\
  m_len mem bins = 248 /\ In (Access true bins 241) (accesses mem s 9 1 3 leaves) /\ m_len mem ev_position = 768 /\
  In (Access true ev_position 384) (accesses mem s 9 1 3 leaves).
Proof.
  destruct (open_world_run 2 1) as (mem & s & H & _ & L & R). exists mem, s. destruct (R eq_refl) as (_ & _ & R3 & R4).
  split; [exact H|]. split; [exact L|]. split; [exact R3|]. split; [|exact R4].
  unfold trace_bundle in H. rewrite open_world_compiles in H. injection H as <- _. reflexivity.
Qed.

(** a scene with spectra satisfies the hypotheses *)
Example C110_example_demo : exists mem s, trace_bundle demo [(0%nat, leaving)] (Call 5 1000 128 0 2 3) = Some (mem, s) /\
  m_len mem comp_qy = 3 /\ m_len mem abs_x = 4 /\ m_len mem ems_cdf = 2 /\ spectra_built demo.
Proof.
  destruct C90_demo_compiles as (T & ET & N1 & N2 & N3 & N4 & N5 & _).
  destruct (compiled_fits _ _ _ C90_demo_built ET) as [_ [A1 A2 A3]]. destruct (compiled_nodes _ _ _ C90_demo_built ET) as (_ & Wd & NK).
  unfold trace_bundle. rewrite ET.
  assert (L : List.length (t_geom_type T) = 3%nat) by (rewrite (wi_gt _ _ Wd); reflexivity).
  assert (R3 : List.length (t_rows T) = 3%nat) by (rewrite <- A3, N2; reflexivity).
  assert (E2 : List.length (t_ems_x T) = 2%nat).
  { clear - ET.
    destruct (compile_scene_inv _ _ _ _ _ _ _ ET) as (_ & _ & HT). clear ET. revert HT.
    unfold geometry_nodes. cbn [preorder flat_map app compile_nodes]. unfold compile_node. cbn [p_geometry p_to_root p_material p_name compile_geometry].
    repeat match goal with |- context [compile_transform ?g] => destruct (compile_transform g) as [[? ?]|]; [|discriminate] end.
    cbn. intros H. injection H as <-. reflexivity. }
  unfold len at 1. cbn [List.length]. change (MAX_RECORDERS <? Z.of_nat 1) with false. cbv iota.
  destruct (compile_recorders [(0%nat, leaving)] 0 0) as [[ks rows] total]. unfold len at 1. rewrite L. cbv iota beta.
  change (MAX_NODES <? Z.of_nat 3) with false. change (n_recorded (Call 5 1000 128 0 2 3) * b_max_events (Call 5 1000 128 0 2 3) <? 0) with false. cbv iota.
  eexists. eexists. split; [reflexivity|]. cbn [m_len layout layout_len]. unfold len. rewrite R3, N5, A2, E2.
  split; [reflexivity|]. split; [reflexivity|]. split; [reflexivity|exact C90_demo_built].
Qed.

(** ** C111 *)
(** the arrays that each call of trace_one has to itself (629-640) *)
Definition on_stack (a : array) : Prop := In a [hit_t; hit_node; node_hits; node_min_t; ts; cand; rseen].
Theorem C111_no_data_races : forall scene rs c mem s,
  spectra_built scene -> trace_bundle scene rs c = Some (mem, s) -> 1 <= b_threads c ->
  forall o o' fuel fuel' tid tid' i i',
  may_run c tid -> may_run c tid' -> tid <> tid' -> 0 <= i < b_rays c -> 0 <= i' < b_rays c -> i <> i' ->
  forall x y, In x (accesses mem s fuel tid i o) -> In y (accesses mem s fuel' tid' i' o') ->
  x_write x = true -> x_array x = x_array y -> ~ on_stack (x_array x) -> x_index x <> x_index y.
Proof.
  intros scene rs c mem s B H Hc o o' fuel fuel' tid tid' i i' [Ht1 Ht2] [Ht1' Ht2'] Ht Hi Hi' Hne x y Hx Hy Hw Ha Hs E.
  pose proof (bundle_well_formed _ _ _ _ _ B H) as W. specialize (Ht2 Hc). specialize (Ht2' Hc).
  destruct (safe_trace_ray _ _ _ _ tid i W ltac:(unfold nthr; lia) fuel Hi o ([], 0%nat) (Forall_nil _)) as [A _].
  destruct (safe_trace_ray _ _ _ _ tid' i' W ltac:(unfold nthr; lia) fuel' Hi' o' ([], 0%nat) (Forall_nil _)) as [A' _].
  rewrite Forall_forall in A, A'. destruct (A x Hx) as (_ & M & Wr). destruct (A' y Hy) as (_ & M' & _). specialize (Wr Hw).
  rewrite <- Ha, <- E in M'. clear Ha Hw A A' Hx Hy. destruct x as [w a k]. cbn [x_array x_index] in *.
  assert (Q : 0 < record_every s -> i mod record_every s = 0 -> i' mod record_every s = 0 -> i / record_every s <> i' / record_every s).
  { intros P D D' F. apply Hne. rewrite (Z.div_mod i (record_every s)), (Z.div_mod i' (record_every s)), D, D', F by lia. reflexivity. }
  destruct a; cbn in Wr; try discriminate; try (exfalso; apply Hs; unfold on_stack; cbn; tauto); cbn [mine] in M, M';
    try (clear Q; nia); try (destruct M as [[P D] M], M' as [[_ D'] M']; specialize (Q P D D'); nia).
Qed.
Print Assumptions C111_no_data_races.

(** both threads write to the array of bins, in their own rows *)
Example C111_example : exists mem s, trace_bundle open_world [(0%nat, leaving)] (Call 5 1000 128 0 2 3) = Some (mem, s) /\
  In (Access true bins 38) (accesses mem s 9 0 2 leaves) /\ In (Access true bins 162) (accesses mem s 9 1 3 leaves).
Proof.
  unfold trace_bundle. rewrite open_world_compiles. eexists. eexists. split; [reflexivity|].
  split; [set (l := accesses _ _ _ _ _ _); vm_compute in l; unfold l|set (l := accesses _ _ _ _ _ _); vm_compute in l; unfold l]; repeat (try (left; reflexivity); right).
Qed.
