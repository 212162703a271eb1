(** C153: whose photons the table of an LSC counts. *)
From Coq Require Import Reals Lra Lia List Bool Arith String.
From Verif Require Import Base Vec TracerModel LscModel LscProps LscTableModel.
From Verif Require LscSceneModel LscSceneProps ComponentModel.
Import ListNotations.

Lemma mem_In s l : mem s l = true <-> In s l.
Proof.
  unfold mem. rewrite existsb_exists. split.
  - intros (x & Hx & E). apply String.eqb_eq in E. now subst.
  - intros H. exists s. split; [exact H|apply String.eqb_refl].
Qed.

(** ** Names of the scene are listed *)
Definition listed (l : LscSceneModel.lsc) : Prop := forall sc, LscSceneModel.l_scene l = Some sc ->
  incl (map LscSceneModel.co_name (LscSceneModel.bn_components (LscSceneModel.sc_lsc sc))) (map LscSceneModel.cd_name (LscSceneModel.l_components l)) /\
  incl (map LscSceneModel.ln_name (LscSceneModel.sc_lights sc)) (map LscSceneModel.ld_name (LscSceneModel.l_lights l)).
Lemma make_components_names cs : forall cs' ks, LscSceneModel.make_components cs = (cs', inl ks) -> map LscSceneModel.co_name ks = map LscSceneModel.cd_name cs'.
Proof.
  induction cs as [|c cs IH]; intros cs' ks E; cbn [LscSceneModel.make_components] in E; [now injection E as <- <-|].
  destruct c as [c n co|n]; [|discriminate E]. destruct (LscSceneModel.construct c n co) as [k|e] eqn:Ek; [|discriminate E].
  destruct (LscSceneModel.make_components cs) as [r1 [k1|e1]] eqn:Em; [|discriminate E]. injection E as <- <-. cbn [map LscSceneModel.cd_name]. rewrite (IH _ _ eq_refl). f_equal.
  unfold LscSceneModel.construct in Ek. destruct c.
  - destruct (ComponentModel.luminophore co e None false) as [[a d]| | | ]; try discriminate Ek; now injection Ek as <-.
  - destruct (ComponentModel.abs_dist co None false); try discriminate Ek; now injection Ek as <-.
Qed.
Lemma exec_listed l c l' e : listed l -> LscSceneModel.exec l c = (l', e) -> listed l'.
Proof.
  intros H E. destruct c; cbn [LscSceneModel.exec] in E.
  1-5: try (injection E as <- <-; intros sc Hs; cbn in Hs; destruct (H sc Hs) as [A B]; split; cbn; try exact A; try exact B;
    rewrite map_app; now apply incl_appl).
  destruct (LscSceneModel.l_scene l) eqn:Hs; [injection E as <- _; exact H|]. unfold LscSceneModel.make_scene in E. destruct (LscSceneModel.l_size l) as [len w d].
  destruct (match LscSceneModel.l_components l with [] => LscSceneModel.default_components l | _ => _ end) as [cs|]; [|injection E as <- _; intros sc Hc; congruence].
  destruct (LscSceneModel.make_components cs) as [cs' [ks|x]] eqn:Em; injection E as <- _; intros sc Hc; cbn in Hc; [|congruence].
  injection Hc as <-. cbn [LscSceneModel.sc_lsc LscSceneModel.bn_components LscSceneModel.sc_lights LscSceneModel.l_components LscSceneModel.l_lights]. split.
  - rewrite (make_components_names _ _ _ Em). apply incl_refl.
  - rewrite map_map. intros x Hx. exact Hx.
Qed.
Lemma script_listed cs : forall l l' e, listed l -> LscSceneModel.script l cs = (l', e) -> listed l'.
Proof.
  induction cs as [|c cs IH]; intros l l' e H E; cbn [LscSceneModel.script] in E; [now injection E as <- _|].
  destruct (LscSceneModel.exec l c) as [l1 [x|]] eqn:Ex; [injection E as <- _|apply (IH l1 l' e); [|exact E]]; now apply (exec_listed _ _ _ _ H Ex).
Qed.
Definition object_of (l : LscSceneModel.lsc) : Prop := exists size range n0 n1 cs e, LscSceneModel.script (LscSceneModel.new_lsc size range n0 n1) cs = (l, e).
Lemma object_listed l : object_of l -> listed l.
Proof. intros (size & range & n0 & n1 & cs & e & E). apply (script_listed cs _ _ _) in E; [exact E|]. intros sc H. discriminate H. Qed.

(** ** C153 *)
(** What an LSC answers by name, after any calls that gave it a scene: a set of names is refused
    exactly when one of them belongs to no light and no component that was added; otherwise the
    wavelengths are those of the photons whose source has one of the names, and which pass the other
    filters. *)
Theorem C153_spectrum_by_name : forall l sc df facets k ns events,
  LscSceneModel.l_scene l = Some sc ->
  (spectrum_named l (Some df) facets k (Many ns) events = None <->
     exists n, In n ns /\ ~ In n (map LscSceneModel.cd_name (LscSceneModel.l_components l)) /\ ~ In n (map LscSceneModel.ld_name (LscSceneModel.l_lights l))) /\
  (forall ws, spectrum_named l (Some df) facets k (Many ns) events = Some ws ->
     exists want_row, ws = map row_wavelength (filter want_row df) /\
       forall x, want_row x = true <->
         (match k with None => True | Some k => row_kind_of x = k end) /\
         (exists n, name_of sc (row_source x) = Some n /\ In n ns) /\
         (facets = [] \/ exists f, row_facet x = Some f /\ In f facets) /\
         (match events with None => True | Some es => In (row_event x) es end)).
Proof.
  intros l sc df facets k ns events Hs. unfold spectrum_named, LscSceneModel.component_names, LscSceneModel.light_names. rewrite Hs.
  set (all := map LscSceneModel.cd_name (LscSceneModel.l_components l) ++ map LscSceneModel.ld_name (LscSceneModel.l_lights l)).
  assert (A : forall n, mem n all = false <-> ~ In n (map LscSceneModel.cd_name (LscSceneModel.l_components l)) /\ ~ In n (map LscSceneModel.ld_name (LscSceneModel.l_lights l))).
  { intros n. rewrite <- not_true_iff_false, mem_In. unfold all. rewrite in_app_iff. tauto. }
  destruct (forallb (fun n => mem n all) ns) eqn:Ef.
  - split.
    + split; [discriminate|]. intros (n & Hn & Hno). apply A in Hno. rewrite forallb_forall in Ef. rewrite (Ef n Hn) in Hno. discriminate.
    + intros ws E. injection E as <-. exists (want facets k (named sc ns) events). split; [reflexivity|].
      intros x. unfold want. rewrite !andb_true_iff.
      assert (K1 : match k with None => true | Some k => row_kind_eqb (row_kind_of x) k end = true <-> match k with None => True | Some k => row_kind_of x = k end).
      { destruct k as [k|]; [|tauto]. destruct (row_kind_of x), k; cbn; split; intros; try discriminate; reflexivity. }
      assert (K2 : named sc ns (row_source x) = true <-> exists n, name_of sc (row_source x) = Some n /\ In n ns).
      { unfold named. destruct (name_of sc (row_source x)) as [n|].
        - rewrite mem_In. split; [intros H; exists n; auto|intros (m & E & H); now injection E as ->].
        - split; [discriminate|]. intros (m & E & _). discriminate E. }
      assert (K3 : match facets with [] => true | _ => match row_facet x with None => false | Some f => existsb (facet_eqb f) facets end end = true <->
                   (facets = [] \/ exists f, row_facet x = Some f /\ In f facets)).
      { destruct facets as [|g gs]; [tauto|]. destruct (row_facet x) as [f|].
        - rewrite existsb_exists. split.
          + intros (y & Hy & E). right. exists f. split; [reflexivity|]. destruct f, y; try discriminate E; exact Hy.
          + intros [E|(h & E & Hh)]; [discriminate E|]. injection E as <-. exists f. split; [exact Hh|destruct f; reflexivity].
        - split; [discriminate|]. intros [E|(h & E & _)]; discriminate E. }
      assert (K4 : match events with None => true | Some es => existsb (kind_eqb (row_event x)) es end = true <-> match events with None => True | Some es => In (row_event x) es end).
      { destruct events as [es|]; [|tauto]. rewrite existsb_exists. split.
        - intros (y & Hy & E). enough (row_event x = y) as -> by exact Hy. destruct (row_event x), y; try discriminate E; reflexivity.
        - intros H. exists (row_event x). split; [exact H|destruct (row_event x); reflexivity]. }
      rewrite K1, K2, K3, K4. tauto.
  - split; [|discriminate]. split; [intros _|reflexivity].
    assert (G : forall q, forallb (fun n => mem n all) q = false -> exists n, In n q /\ mem n all = false).
    { induction q as [|a q IH]; [discriminate|]. cbn [forallb]. destruct (mem a all) eqn:Ea; [|exists a; split; [now left|exact Ea]].
      intros Hq. destruct (IH Hq) as (n & Hn & En). exists n. split; [now right|exact En]. }
    destruct (G ns Ef) as (n & Hn & En). exists n. split; [exact Hn|now apply A].
Qed.
Print Assumptions C153_spectrum_by_name.

(** A string is the set of that one name; "all" is the set of all names. *)
Theorem C153_single_name : forall l df facets k s events,
  (s <> "all"%string -> spectrum_named l df facets k (One s) events = spectrum_named l df facets k (Many [s]) events) /\
  spectrum_named l df facets k (One "all") events =
  spectrum_named l df facets k (Many (map LscSceneModel.cd_name (LscSceneModel.l_components l) ++ map LscSceneModel.ld_name (LscSceneModel.l_lights l))) events.
Proof.
  intros l df facets k s events. unfold spectrum_named, LscSceneModel.component_names, LscSceneModel.light_names. split.
  - intros Hs. destruct df; [|reflexivity]. destruct (LscSceneModel.l_scene l); [|reflexivity]. apply String.eqb_neq in Hs. rewrite Hs. cbn [forallb]. now rewrite andb_true_r.
  - destruct df; [|reflexivity]. destruct (LscSceneModel.l_scene l); [|reflexivity]. cbn [String.eqb Ascii.eqb Bool.eqb].
    set (all := map _ _ ++ map _ _). enough (forallb (fun n => mem n all) all = true) as -> by reflexivity.
    apply forallb_forall. intros n Hn. now apply mem_In.
Qed.
Print Assumptions C153_single_name.

(** The table can be made after every sequence of calls that left a scene, also with additions
    after the first run; before there are results it is refused. *)
Theorem C153_table_available : forall l sc df c f, object_of l -> LscSceneModel.l_scene l = Some sc ->
  (exists n, table l (Some df) c f = Some n) /\ table l None c f = None.
Proof.
  intros l sc df c f Ho Hs. destruct (object_listed l Ho sc Hs) as [A B]. unfold table. rewrite Hs. split; [|destruct c; reflexivity].
  assert (G : forall k ns, incl ns (map LscSceneModel.cd_name (LscSceneModel.l_components l)) \/ incl ns (map LscSceneModel.ld_name (LscSceneModel.l_lights l)) ->
              exists ws, spectrum_named l (Some df) [f] (Some k) (Many ns) None = Some ws).
  { intros k ns Hn. destruct (spectrum_named l (Some df) [f] (Some k) (Many ns) None) as [ws|] eqn:E; [eauto|]. exfalso.
    apply (C153_spectrum_by_name l sc df [f] (Some k) ns None Hs) in E. destruct E as (n & Hn' & N1 & N2). destruct Hn as [Hn|Hn]; apply Hn in Hn'; contradiction. }
  destruct c.
  - destruct (G Entrance _ (or_intror B)) as [ws ->]. eexists. reflexivity.
  - destruct (G Exit _ (or_intror B)) as [ws ->]. eexists. reflexivity.
  - destruct (G Exit _ (or_introl A)) as [ws ->]. eexists. reflexivity.
  - destruct (G Entrance _ (or_introl A)) as [ws ->]. eexists. reflexivity.
Qed.
Print Assumptions C153_table_available.

(** If no light has the name of a component, the column of the lights counts the photons that come
    from a light and the column of the components those that were emitted in the plate; a photon on
    a face is counted in one of the two.  [solar_in] and the others are those of C84 and C87. *)
Theorem C153_table_partial : forall l sc df f, object_of l -> LscSceneModel.l_scene l = Some sc ->
  (forall n, In n (map LscSceneModel.co_name (LscSceneModel.bn_components (LscSceneModel.sc_lsc sc))) -> ~ In n (map LscSceneModel.ln_name (LscSceneModel.sc_lights sc))) ->
  Forall (fun x => name_of sc (row_source x) <> None) df ->
  table l (Some df) SolarIn f = Some (solar_in df f) /\ table l (Some df) SolarOut f = Some (solar_out df f) /\
  table l (Some df) LuminescentIn f = Some (lum_in df f) /\ table l (Some df) LuminescentOut f = Some (lum_out df f) /\
  (forall a b, table l (Some df) SolarOut f = Some a -> table l (Some df) LuminescentOut f = Some b ->
     (a + b)%nat = List.length (filter (fun x => row_kind_eqb (row_kind_of x) Exit && match row_facet x with Some g => facet_eqb g f | None => false end) df)).
Proof.
  intros l sc df f Ho Hs Hd Hn.
  assert (Sel : forall k ns s, (forall x, In x df -> named sc ns (row_source x) = s (row_source x)) ->
    spectrum df [f] (Some k) (named sc ns) None = spectrum df [f] (Some k) s None).
  { intros k ns s H. unfold spectrum. f_equal. apply filter_ext_in. intros x Hx. unfold want. now rewrite (H x Hx). }
  assert (L1 : forall x, In x df -> named sc (map LscSceneModel.ln_name (LscSceneModel.sc_lights sc)) (row_source x) = all_lights (row_source x)).
  { intros x Hx. rewrite Forall_forall in Hn. specialize (Hn x Hx). unfold named. destruct (row_source x) as [i|nd k]; cbn [name_of all_lights] in *.
    - destruct (nth_error (LscSceneModel.sc_lights sc) i) as [q|] eqn:E; [|contradiction]. cbn [option_map]. apply mem_In, in_map. apply (nth_error_In _ _ E).
    - destruct (nth_error (LscSceneModel.bn_components (LscSceneModel.sc_lsc sc)) k) as [q|] eqn:E; [|contradiction]. cbn [option_map].
      apply not_true_iff_false. rewrite mem_In. apply Hd. apply in_map. apply (nth_error_In _ _ E). }
  assert (L2 : forall x, In x df -> named sc (map LscSceneModel.co_name (LscSceneModel.bn_components (LscSceneModel.sc_lsc sc))) (row_source x) = all_components (row_source x)).
  { intros x Hx. rewrite Forall_forall in Hn. specialize (Hn x Hx). unfold named. destruct (row_source x) as [i|nd k]; cbn [name_of all_components] in *.
    - destruct (nth_error (LscSceneModel.sc_lights sc) i) as [q|] eqn:E; [|contradiction]. cbn [option_map].
      apply not_true_iff_false. rewrite mem_In. intros Hi. apply (Hd _ Hi). apply in_map. apply (nth_error_In _ _ E).
    - destruct (nth_error (LscSceneModel.bn_components (LscSceneModel.sc_lsc sc)) k) as [q|] eqn:E; [|contradiction]. cbn [option_map]. apply mem_In, in_map. apply (nth_error_In _ _ E). }
  assert (V : forall c, exists n, table l (Some df) c f = Some n) by (intros c; apply (C153_table_available l sc df c f Ho Hs)).
  assert (R : forall c ns k s, table l (Some df) c f = option_map (@List.length R) (spectrum_named l (Some df) [f] (Some k) (Many ns) None) ->
     (forall x, In x df -> named sc ns (row_source x) = s (row_source x)) -> table l (Some df) c f = Some (List.length (spectrum df [f] (Some k) s None))).
  { intros c ns k s E H. destruct (V c) as [n En]. rewrite En in E. rewrite En. unfold spectrum_named, LscSceneModel.component_names, LscSceneModel.light_names in E. rewrite Hs in E.
    destruct (forallb _ ns); [|discriminate E]. cbn [option_map] in E. rewrite (Sel k ns s H) in E. exact E. }
  assert (E1 : table l (Some df) SolarIn f = Some (solar_in df f)) by (eapply R; [unfold table; rewrite Hs; reflexivity|exact L1]).
  assert (E2 : table l (Some df) SolarOut f = Some (solar_out df f)) by (eapply R; [unfold table; rewrite Hs; reflexivity|exact L1]).
  assert (E3 : table l (Some df) LuminescentIn f = Some (lum_in df f)) by (eapply R; [unfold table; rewrite Hs; reflexivity|exact L2]).
  assert (E4 : table l (Some df) LuminescentOut f = Some (lum_out df f)) by (eapply R; [unfold table; rewrite Hs; reflexivity|exact L2]).
  repeat (split; [assumption|]). intros a b. rewrite E2, E4. intros Ea Eb. injection Ea as <-. injection Eb as <-.
  unfold solar_out, lum_out. rewrite !spectrum_length. clear.
  assert (W : forall s x, want [f] (Some Exit) s None x = row_kind_eqb (row_kind_of x) Exit && match row_facet x with Some g => facet_eqb g f | None => false end && s (row_source x)).
  { intros s x. unfold want. cbn [existsb]. rewrite andb_true_r. destruct (row_kind_eqb (row_kind_of x) Exit); [|reflexivity]. cbn [andb].
    destruct (row_facet x) as [g|]; [rewrite orb_false_r; apply andb_comm|apply andb_false_r]. }
  induction df as [|x df IH]; [reflexivity|]. cbn [filter]. rewrite !W. set (b := row_kind_eqb _ _ && _) in *. destruct b; cbn [andb]; [|exact IH].
  destruct (row_source x); cbn [all_lights all_components List.length]; lia.
Qed.
Print Assumptions C153_table_partial.

(** A light and a component of the same name: a photon that came straight from the light is
    counted as luminescence too. *)
Theorem C153_same_name_refuted : exists cs l sc df f,
  LscSceneModel.script (LscSceneModel.new_lsc (V 4 2 1) None 1 (3 / 2)) cs = (l, None) /\ LscSceneModel.l_scene l = Some sc /\
  Forall (fun x => name_of sc (row_source x) <> None) df /\ Forall (fun x => all_components (row_source x) = false) df /\
  List.length df = 1%nat /\ table l (Some df) SolarOut f = Some 1%nat /\ table l (Some df) LuminescentOut f = Some 1%nat.
Proof.
  exists [LscSceneModel.AddAbsorber "red" (ComponentModel.CFloat (1 / 50)); LscSceneModel.AddLight (LscSceneModel.LData "red" (V 0 0 3, false) None LscSceneModel.DNone LscSceneModel.DNone LscSceneModel.DNone); LscSceneModel.Run].
  eexists. eexists. exists [Row Exit TRANSMIT (Light 0) 555 (Some Bottom)], Bottom.
  split; [reflexivity|]. split; [reflexivity|]. split; [repeat constructor; discriminate|]. split; [repeat constructor|]. repeat split.
Qed.
Print Assumptions C153_same_name_refuted.

(** The name "all" cannot be asked for alone as a string: of a component with that name and a light
    the spectrum has both. *)
Theorem C153_all_refuted : exists cs l sc df,
  LscSceneModel.script (LscSceneModel.new_lsc (V 4 2 1) None 1 (3 / 2)) cs = (l, None) /\ LscSceneModel.l_scene l = Some sc /\
  In "all"%string (map LscSceneModel.co_name (LscSceneModel.bn_components (LscSceneModel.sc_lsc sc))) /\
  spectrum_named l (Some df) [] None (One "all") None = Some [555; 600]%R /\
  spectrum_named l (Some df) [] None (Many ["all"%string]) None = Some [600%R].
Proof.
  exists [LscSceneModel.AddAbsorber "all" (ComponentModel.CFloat (1 / 50)); LscSceneModel.AddLight (LscSceneModel.LData "lamp" (V 0 0 3, false) None LscSceneModel.DNone LscSceneModel.DNone LscSceneModel.DNone); LscSceneModel.Run].
  eexists. eexists. exists [Row Exit TRANSMIT (Light 0) 555 (Some Bottom); Row Exit TRANSMIT (Emitter 1 0) 600 (Some Top)].
  split; [reflexivity|]. split; [reflexivity|]. split; [now left|]. split; reflexivity.
Qed.
Print Assumptions C153_all_refuted.

Example C153_example :
  let l := fst (LscSceneModel.script (LscSceneModel.new_lsc (V 4 2 1) None 1 (3 / 2))
    [LscSceneModel.AddAbsorber "dye" (ComponentModel.CFloat 5); LscSceneModel.AddLight (LscSceneModel.LData "lamp" (V 0 0 3, false) None LscSceneModel.DNone LscSceneModel.DNone LscSceneModel.DNone); LscSceneModel.Run]) in
  let df := [Row Entrance TRANSMIT (Light 0) 555 (Some Top); Row Exit TRANSMIT (Emitter 1 0) 600 (Some Left)] in
  table l (Some df) SolarIn Top = Some 1%nat /\ table l (Some df) LuminescentOut Left = Some 1%nat /\ table l (Some df) SolarOut Left = Some 0%nat /\
  spectrum_named l (Some df) [] None (One "dye") None = Some [600%R] /\ spectrum_named l (Some df) [] None (One "lumogen") None = None.
Proof. repeat split. Qed.
