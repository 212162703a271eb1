(** Properties C56 - C58, C80 and C82: what a scene document means. *)
From Coq Require Import Reals ZArith List Bool Arith String Ascii Lra Lia.
From Verif Require Import Base Vec Interp DistModel MaterialModel KernelModel TallyModel TallyProofs ColourProps SpecModel SpecProofs.
Import ListNotations.
Open Scope string_scope.
Open Scope nat_scope.
Open Scope list_scope.

(** ** C56 *)
(** The scene has the nodes of the document, and each has the parent the document declares: world
    if it declares none; world itself has no parent.  Every parent is a node. *)
Theorem C56_parents : forall d s, wf_doc d -> parse_document d = Some s ->
  keys (ps_parents s) = keys (d_nodes d) /\ keys (ps_nodes s) = keys (d_nodes d) /\
  (forall k n, get k (d_nodes d) = Some n ->
     get k (ps_parents s) = Some (if String.eqb k "world" then None
                                  else Some (match ns_parent n with Some p => p | None => "world" end))) /\
  (forall k p, get k (ps_parents s) = Some (Some p) -> In p (keys (d_nodes d))).
Proof.
  intros d s (_ & Wn & _) H. apply parse_inv in H. destruct H as (cmap & specs & [P1 P2 P3 P4 P5 P6]).
  assert (ND : NoDup (keys (declared_of (d_nodes d)))) by (rewrite declared_keys; exact Wn).
  assert (WD : In "world" (keys (declared_of (d_nodes d)))) by (rewrite declared_keys; exact P1).
  destruct (make_tree_spec _ _ ND WD P4) as (T1 & T2 & T3 & T4). rewrite declared_keys in *.
  split; [exact T1|]. split; [|split; [|exact T3]].
  - apply map_opt_some in P3. clear - P3. unfold keys. induction P3 as [|[k n] [k' m] l ys H1 H2 IH]; [reflexivity|].
    simpl in *. destruct (parse_node n cmap); [|discriminate]. injection H1 as H1 _. congruence.
  - intros k n G. apply (T2 k (ns_parent n)). unfold declared_of. rewrite get_map_val, G. reflexivity.
Qed.
Print Assumptions C56_parents.

(** The parents form a tree: going up from any node ends at world. *)
Inductive leads_to_world (f : forest) : string -> Prop :=
| lw_here : leads_to_world f "world"
| lw_up : forall k p, get k f = Some (Some p) -> leads_to_world f p -> leads_to_world f k.
Theorem C56_tree : forall d s, wf_doc d -> parse_document d = Some s ->
  get "world" (ps_parents s) = Some None /\ forall k, In k (keys (d_nodes d)) -> leads_to_world (ps_parents s) k.
Proof.
  intros d s (_ & Wn & _) H. apply parse_inv in H. destruct H as (cmap & specs & [P1 P2 P3 P4 P5 P6]).
  assert (ND : NoDup (keys (declared_of (d_nodes d)))) by (rewrite declared_keys; exact Wn).
  assert (WD : In "world" (keys (declared_of (d_nodes d)))) by (rewrite declared_keys; exact P1).
  destruct (make_tree_spec _ _ ND WD P4) as (T1 & T2 & T3 & T4). rewrite declared_keys in *. split.
  - destruct (keys_get _ _ _ WD) as (n & G). apply (T2 "world" (ns_parent n)). unfold declared_of. rewrite get_map_val, G. reflexivity.
  - intros k I. specialize (T4 k I). induction T4 as [|k p E R IH]; [constructor|]. econstructor; [exact E|].
    apply IH. eapply T3. exact E.
Qed.
Print Assumptions C56_tree.

(** The material of a node has exactly the components it names, in that order, each built from
    the entry of that name in the components section. *)
Theorem C56_materials : forall d s k n sh m, wf_doc d -> parse_document d = Some s ->
  get k (d_nodes d) = Some n -> ns_body n = Geometry sh m ->
  exists l, get k (ps_nodes s) = Some (Some l) /\
  Forall2 (fun name p => exists c, get name (doc_components d) = Some c /\ parse_component c = Some p)
          (match ms_components m with Some names => names | None => [] end) l.
Proof.
  intros d s k n sh m W H G B. pose proof (C56_parents d s W H) as (_ & Kn & _ & _). destruct W as (Wc & Wn & _).
  apply parse_inv in H. destruct H as (cmap & specs & [P1 P2 P3 P4 P5 P6]).
  apply map_opt_some in P3. destruct (Forall2_In_l _ _ _ _ _ _ P3 (get_In _ _ _ _ G)) as ([k' x] & I & E). simpl in E.
  unfold parse_node in E. rewrite B in E. destruct (parse_material m cmap) as [l|] eqn:M; [|discriminate].
  injection E as E1 E2. subst k' x. exists l. split; [apply In_get; [rewrite Kn; exact Wn|exact I]|].
  apply parse_material_spec in M. destruct (parse_components_keys _ _ P2) as [K C]. clear I.
  induction M as [|name p names ps Hp HM IH]; [constructor|]. constructor; [|exact IH].
  assert (In1 : In name (keys (doc_components d))) by (rewrite <- K; eapply In_keys, get_In; exact Hp).
  destruct (keys_get _ _ _ In1) as (c & Gc). exists c. split; [exact Gc|].
  destruct (C name c (get_In _ _ _ _ Gc)) as (q & Eq & Iq). rewrite Eq. f_equal.
  rewrite <- K in Wc. pose proof (In_get _ _ _ _ Wc Iq). congruence.
Qed.
Print Assumptions C56_materials.

(** Recorders: every recorder sits on an existing node and is the one specified; none is missing;
    names are distinct; an explicit recorder replaces the automatic one of the same name. *)
Theorem C56_recorders : forall d s, wf_doc d -> parse_document d = Some s ->
  NoDup (map (fun km => mr_name (snd km)) (ps_recorders s)) /\
  (forall k m, In (k, m) (ps_recorders s) <->
     exists r, source d (mr_name m) r /\ k = rs_node r /\ recorder_means (mr_name m) r m) /\
  (forall k m, In (k, m) (ps_recorders s) -> In k (keys (d_nodes d))) /\
  (forall n r, source d n r -> exists m, In (rs_node r, m) (ps_recorders s) /\ recorder_means n r m).
Proof.
  intros d s W H. apply parse_inv in H. destruct H as (cmap & specs & [P1 P2 P3 P4 P5 P6]).
  destruct (all_recorders_spec d specs W P5) as [N A]. apply map_opt_some in P6.
  assert (F : Forall2 (fun nr km => fst km = rs_node (snd nr) /\ recorder_valid (keys (d_nodes d)) (snd nr) /\ recorder_means (fst nr) (snd nr) (snd km)) specs (ps_recorders s)).
  { clear - P6. induction P6 as [|[n r] [k m] l ys E HF IH]; [constructor|]. constructor; [|exact IH]. simpl.
    pose proof (parse_recorder_spec (keys (d_nodes d)) n r) as PR. rewrite E in PR. tauto. }
  assert (E : map (fun km => mr_name (snd km)) (ps_recorders s) = keys specs).
  { clear - F. unfold keys. induction F as [|[n r] [k m] l ys (_ & _ & E & _) HF IH]; [reflexivity|]. simpl in *. congruence. }
  assert (G : forall n r, source d n r -> exists m, In (rs_node r, m) (ps_recorders s) /\ recorder_means n r m).
  { intros n r S. apply A in S. destruct (Forall2_In_l _ _ _ _ _ _ F S) as ([k m] & I & E1 & _ & E2). simpl in *. subst. eauto. }
  split; [rewrite E; exact N|]. split; [|split; [|exact G]].
  - intros k m. split.
    + intro I. destruct (Forall2_In_r _ _ _ _ _ _ F I) as ([n r] & I2 & E1 & _ & E2). simpl in *. subst k. exists r.
      assert (mr_name m = n) by apply E2. rewrite H. split; [apply A; exact I2|]. auto.
    + intros (r & S & -> & M). destruct (G _ _ S) as (m' & I & M'). rewrite (recorder_means_fun _ _ _ _ M M'). exact I.
  - intros k m I. destruct (Forall2_In_r _ _ _ _ _ _ F I) as ([n r] & I2 & E1 & (V & _) & _). simpl in *. subst. exact V.
Qed.
Print Assumptions C56_recorders.

(** Parsing fails exactly for documents with a defect: no world, a component that cannot be built,
    an undefined component, a bad light, a parent chain that does not end at world (dangling
    parents and cycles), a recorder on an unknown node or with a bad histogram.  In particular the
    order of the sections' entries does not matter. *)
Theorem C56_accepted_iff : forall d, wf_doc d -> (exists s, parse_document d = Some s) <-> acceptable d.
Proof. exact parse_acceptable. Qed.
Print Assumptions C56_accepted_iff.

(** The parent may be declared after its child; a cycle is rejected. *)
Definition ball (parent : option string) : node_spec :=
  NodeSpec (Geometry (SSphere 1) (MatSpec 1 None)) parent None None false.
Example child_first :
  parse_document (Doc None [("b", ball (Some "a")); ("a", ball None); ("world", ball None)] None)
  = Some (PScene [("b", Some []); ("a", Some []); ("world", Some [])]
                 [("b", Some "a"); ("a", Some "world"); ("world", None)] []).
Proof. reflexivity. Qed.
Example cycle_rejected :
  parse_document (Doc None [("b", ball (Some "a")); ("a", ball (Some "b")); ("world", ball None)] None) = None.
Proof. reflexivity. Qed.
Example explicit_first :
  option_map (fun s => map (fun km => (fst km, mr_name (snd km), mr_event (snd km))) (ps_recorders s))
    (parse_document (Doc None [("world", ball None); ("a", NodeSpec (Geometry (SSphere 1) (MatSpec 1 None)) None None None true)]
                         (Some [("a-lost", RecSpec "world" Entering None None [])])))
  = Some [("world", "a-lost", Entering); ("a", "a-escaping", Escaping)].
Proof.
  cbn -[mk_histogram]. unfold parse_recorder. cbn -[mk_histogram]. unfold mk_histogram. cbn. rdec. reflexivity.
Qed.

(** ** C57 *)
(** A component can be used if its absorption coefficient can be evaluated. *)
Definition usable (r : option parsed_component) : Prop := exists p, r = Some p /\ pc_abs p <> NoDistribution.
Definition good_array : array := Arr false [(400, 1); (500, 2); (600, 1)]%R.

Lemma good_dist : dist_ok false good_array = true.
Proof. unfold dist_ok, good_array. simpl. unfold mk_dist. simpl. rdec. simpl. unfold np_max. simpl. rdec. destruct (Reqb _ 0); reflexivity. Qed.

(** Four allowed specifications do not give a usable component: a spectrum without coefficient, an
    integer coefficient, a zero coefficient, a scatterer with a coefficient only. *)
Theorem C57_refuted :
  (exists c, schema_component c /\ c = CAbsorber (AbsSpec None false (Some (Some good_array))) /\ parse_component c = None) /\
  (exists c, schema_component c /\ c = CAbsorber (AbsSpec (Some (Int 1)) false None) /\ ~ usable (parse_component c)) /\
  (exists c, schema_component c /\ c = CAbsorber (AbsSpec (Some (Float 0)) false None) /\ parse_component c = None) /\
  (exists c, schema_component c /\ c = CScatterer (ScaSpec (Some (Float 1)) false None None) /\ parse_component c = None).
Proof.
  split; [|split; [|split]]; eexists; (split; [|split; [reflexivity|]]).
  - simpl. split; [exact I|right; discriminate].
  - reflexivity.
  - simpl. split; [lra|left; discriminate].
  - intros (p & H & N). simpl in H. unfold parse_absorber, build in H. simpl in H. unfold truthy in H. simpl in H.
    rewrite (proj2 (Reqb_false 1 0)) in H by lra. simpl in H. injection H as H. subst. apply N. reflexivity.
  - simpl. split; [lra|left; discriminate].
  - simpl. unfold parse_absorber, build, truthy. simpl. rewrite (proj2 (Reqb_true 0 0)) by reflexivity. reflexivity.
  - simpl. split; [lra|]. split; [exact I|left; discriminate].
  - reflexivity.
Qed.
Print Assumptions C57_refuted.

Lemma build_usable : forall c hist sp,
  (exists b, build c hist sp = Some b /\ b <> NoDistribution) <->
  (exists n a a', c = Some n /\ sp = Some a /\ num n <> 0%R /\ scale_array a (num n) = Some a' /\ dist_ok hist a' = true) \/
  (exists x, c = Some (Float x) /\ sp = None /\ x <> 0%R).
Proof.
  intros c hist sp. unfold build. split.
  - intros (b & H & N). destruct c as [n|].
    + destruct sp as [a|].
      * destruct (truthy n) eqn:T.
        { left. destruct (scale_array a (num n)) as [a'|] eqn:S; [|discriminate]. unfold build_array in H.
          destruct (dist_ok hist a') eqn:D; [|discriminate]. exists n, a, a'. repeat split; auto.
          unfold truthy in T. apply negb_true_iff, Reqb_false in T. exact T. }
        { exfalso. unfold array_truth in H. destruct (a_rows a); discriminate. }
      * destruct (truthy n) eqn:T; [|discriminate]. injection H as H. right. destruct n as [z|x]; simpl in H; [congruence|].
        exists x. repeat split. unfold truthy in T. apply negb_true_iff, Reqb_false in T. exact T.
    + exfalso. destruct sp as [a|]; [|discriminate]. unfold array_truth in H. destruct (a_rows a); discriminate.
  - intros [(n & a & a' & -> & -> & N & S & D)|(x & -> & -> & N)].
    + unfold truthy. rewrite (proj2 (Reqb_false _ _) N). simpl. rewrite S. unfold build_array. rewrite D.
      eexists. split; [reflexivity|discriminate].
    + unfold truthy. simpl. rewrite (proj2 (Reqb_false _ _) N). simpl. eexists. split; [reflexivity|discriminate].
Qed.

(** A valid spectrum: two or more rows, increasing wavelengths, no negative value *)
Definition valid_spectrum (a : array) : Prop :=
  (2 <= List.length (a_rows a))%nat /\
  (forall i j p q, (i < j)%nat -> nth_error (a_rows a) i = Some p -> nth_error (a_rows a) j = Some q -> (fst p < fst q)%R) /\
  forall x y, In (x, y) (a_rows a) -> (0 <= y)%R.
Lemma ascending_rows (l : list (R * R)) : ascending (map fst l) = true <->
  forall i j p q, (i < j)%nat -> nth_error l i = Some p -> nth_error l j = Some q -> (fst p < fst q)%R.
Proof.
  induction l as [|a l IH]; [split; [intros _ i j p q _ H; destruct i; discriminate|reflexivity]|].
  destruct l as [|b l]; [split; [intros _ i j p q L _ H; destruct j as [|[|j]]; [lia|discriminate..]|reflexivity]|].
  change (ascending (map fst (a :: b :: l))) with (Rltb 0 (fst b - fst a) && ascending (map fst (b :: l))). rewrite andb_true_iff, Rltb_true, IH. split.
  - intros [H0 H] i j p q L Ei Ej. destruct i as [|i].
    + injection Ei as <-. destruct j as [|j]; [lia|]. cbn [nth_error] in Ej. destruct j as [|j]; [injection Ej as <-; lra|].
      specialize (H 0%nat (S j) b q ltac:(lia) eq_refl Ej). lra.
    + destruct j as [|j]; [lia|]. apply (H i j); auto; lia.
  - intros H. split; [specialize (H 0%nat 1%nat a b ltac:(lia) eq_refl eq_refl); lra|]. intros i j p q L Ei Ej. apply (H (S i) (S j)); auto; lia.
Qed.
Lemma dist_ok_iff hist a : dist_ok hist a = true <-> valid_spectrum a.
Proof.
  unfold valid_spectrum. rewrite <- ascending_rows. unfold dist_ok. set (xs := map fst (a_rows a)). 
  assert (Lx : List.length xs = List.length (a_rows a)) by apply map_length.
  assert (Hy : existsb (fun y => Rltb y 0) (map snd (a_rows a)) = false <-> forall x y, In (x, y) (a_rows a) -> (0 <= y)%R).
  { split.
    - intros E x y Hin. destruct (Rltb y 0) eqn:Ey; [exfalso|apply Rltb_false in Ey; lra].
      assert (T : existsb (fun y => Rltb y 0) (map snd (a_rows a)) = true) by (apply existsb_exists; exists y; split; [apply in_map_iff; exists (x, y); auto|exact Ey]). congruence.
    - intros H. destruct (existsb _ _) eqn:E; [|reflexivity]. apply existsb_exists in E. destruct E as (y & Hin & Ey). apply in_map_iff in Hin. destruct Hin as ([x y'] & <- & Hin).
      apply Rltb_true in Ey. specialize (H _ _ Hin). cbn in Ey. lra. }
  unfold mk_dist. destruct (ascending xs) eqn:Ea; cbn [negb]; [|split; [discriminate|intros (_ & H & _); discriminate]].
  destruct (a_rows a) as [|r [|r2 rs]] eqn:Er.
  - cbn. split; [discriminate|intros (L & _); inversion L].
  - cbn [map] in *. destruct (existsb _ _); [split; [discriminate|intros (L & _); cbn in L; lia]|]. destruct hist; [rewrite Lx; cbn|cbn]; (split; [discriminate|intros (L & _); cbn in L; lia]).
  - assert (G : forall b, b = existsb (fun y => Rltb y 0) (map snd (r :: r2 :: rs)) ->
      match (if b then MkValueError else if hist then
        let c := cumsum (map snd (r :: r2 :: rs)) in let tot := last c 0%R in
        if Nat.ltb (List.length xs) 2 then MkIndexError else if Reqb tot 0 then MkNanCdf
        else MkOk (DTable true xs (map snd (r :: r2 :: rs)) (map (fun v => v * (1 / tot))%R c))
        else match cumsum (midpoints (map snd (r :: r2 :: rs))) with
             | [] => MkValueError
             | c0 :: cr => let m := np_max c0 cr in if Reqb m 0 then MkNanCdf else MkOk (DTable false xs (map snd (r :: r2 :: rs)) (0%R :: map (fun v => v / m)%R (c0 :: cr)))
             end) with MkOk _ | MkNanCdf => true | _ => false end = negb b).
    { intros [|] _; [reflexivity|]. cbn [negb]. destruct hist; cbv zeta.
      - rewrite Lx. change (Nat.ltb (List.length (r :: r2 :: rs)) 2) with false. cbv iota. destruct (Reqb _ 0); reflexivity.
      - cbn [map midpoints]. unfold cumsum. cbn [cumsum_from]. cbv zeta. destruct (Reqb _ 0); reflexivity. }
    specialize (G _ eq_refl). cbn [map] in *. rewrite G, negb_true_iff, Hy. split; [intros H; split; [cbn; lia|auto]|tauto].
Qed.

Definition scales0 (c : option number) (hist : bool) (a : array) : Prop :=
  exists n a', c = Some n /\ num n <> 0%R /\ scale_array a (num n) = Some a' /\ dist_ok hist a' = true.
Lemma buildable_dist :
  (forall c hist sp, usable (parse_component (CAbsorber (AbsSpec c hist sp))) <->
     (exists a, sp = Some (Some a) /\ scales0 c hist a) \/ (sp = None /\ exists x, c = Some (Float x) /\ x <> 0%R)) /\
  (forall c hist sp q, usable (parse_component (CScatterer (ScaSpec c hist sp q))) <-> exists a, sp = Some (Some a) /\ scales0 c hist a) /\
  (forall hist ab em, usable (parse_component (CLuminophore (LumSpec hist ab em))) <->
     exists c a q e, ab = Some (c, Some (Some a)) /\ em = Some (q, Some (Some e)) /\ scales0 c hist a /\ dist_ok hist e = true).
Proof.
  unfold usable, scales0. split; [|split].
  - intros c hist sp. simpl. unfold parse_absorber. simpl. destruct sp as [[a|]|].
    + pose proof (build_usable c hist (Some a)) as B. split.
      * intros (p & H & N). destruct (build c hist (Some a)) as [b|]; [|discriminate]. injection H as H. subst p. simpl in N.
        destruct (proj1 B) as [(n & a1 & a' & E1 & E2 & E3)|(x & _ & E & _)]; [eauto| |discriminate].
        injection E2 as ->. left. exists a1. split; [reflexivity|]. exists n, a'. tauto.
      * intros [(a1 & E & n & a' & H)|[E _]]; [|discriminate]. injection E as <-.
        destruct (proj2 B) as (b & Eb & Nb); [left; exists n, a, a'; tauto|]. rewrite Eb. eexists. split; [reflexivity|exact Nb].
    + split; [intros (p & H & _); discriminate|]. intros [(a & E & _)|[E _]]; discriminate.
    + pose proof (build_usable c hist None) as B. split.
      * intros (p & H & N). destruct (build c hist None) as [b|]; [|discriminate]. injection H as H. subst p. simpl in N.
        destruct (proj1 B) as [(n & a1 & a' & E1 & E2 & E3)|(x & E & _ & N2)]; [eauto|discriminate|]. right. eauto.
      * intros [(a1 & E & _)|[_ (x & E & Nx)]]; [discriminate|].
        destruct (proj2 B) as (b & Eb & Nb); [right; eauto|]. rewrite Eb. eexists. split; [reflexivity|exact Nb].
  - intros c hist sp q. simpl. unfold parse_scatterer. simpl. destruct sp as [[a|]|].
    + pose proof (build_usable c hist (Some a)) as B. split.
      * intros (p & H & N). destruct (build c hist (Some a)) as [b|]; [|discriminate]. injection H as H. subst p. simpl in N.
        destruct (proj1 B) as [(n & a1 & a' & E1 & E2 & E3)|(x & _ & E & _)]; [eauto| |discriminate].
        injection E2 as ->. exists a1. split; [reflexivity|]. exists n, a'. tauto.
      * intros (a1 & E & n & a' & H). injection E as <-.
        destruct (proj2 B) as (b & Eb & Nb); [left; exists n, a, a'; tauto|]. rewrite Eb. eexists. split; [reflexivity|exact Nb].
    + split; [intros (p & H & _); discriminate|]. intros (a & E & _). discriminate.
    + split; [intros (p & H & _); discriminate|]. intros (a & E & _). discriminate.
  - intros hist ab em. simpl. unfold parse_luminophore. simpl. split.
    + intros (p & H & N). destruct ab as [[c [[a|]|]]|]; try discriminate. destruct em as [[q [[e|]|]]|]; try discriminate.
      pose proof (build_usable c hist (Some a)) as B. destruct (build c hist (Some a)) as [b|]; [|discriminate].
      destruct (dist_ok hist e) eqn:De; [|discriminate]. injection H as H. subst p. simpl in N.
      destruct (proj1 B) as [(n & a1 & a' & E1 & E2 & E3)|(x & _ & E & _)]; [eauto| |discriminate].
      injection E2 as ->. exists c, a1, q, e. split; [reflexivity|]. split; [reflexivity|]. split; [|exact De]. exists n, a'. tauto.
    + intros (c & a & q & e & -> & -> & (n & a' & H) & De). pose proof (build_usable c hist (Some a)) as B.
      destruct (proj2 B) as (b & Eb & Nb); [left; exists n, a, a'; tauto|]. rewrite Eb, De. eexists. split; [reflexivity|exact Nb].
Qed.
(** What works: a non-zero coefficient with a spectrum that can be scaled and is a valid
    distribution, for all three kinds; for absorbers also a non-zero float coefficient alone.
    Nothing else. *)
Definition scales (c : option number) (a : array) : Prop :=
  exists n a', c = Some n /\ num n <> 0%R /\ scale_array a (num n) = Some a' /\ valid_spectrum a'.
Lemma scales_iff c hist a : scales0 c hist a <-> scales c a.
Proof. unfold scales0, scales. split; intros (n & a' & E & N & S & V); exists n, a'; repeat (split; [assumption|]); now apply (dist_ok_iff hist). Qed.
Theorem C57_buildable_partial :
  (forall c hist sp, usable (parse_component (CAbsorber (AbsSpec c hist sp))) <->
     (exists a, sp = Some (Some a) /\ scales c a) \/ (sp = None /\ exists x, c = Some (Float x) /\ x <> 0%R)) /\
  (forall c hist sp q, usable (parse_component (CScatterer (ScaSpec c hist sp q))) <-> exists a, sp = Some (Some a) /\ scales c a) /\
  (forall hist ab em, usable (parse_component (CLuminophore (LumSpec hist ab em))) <->
     exists c a q e, ab = Some (c, Some (Some a)) /\ em = Some (q, Some (Some e)) /\ scales c a /\ valid_spectrum e).
Proof.
  destruct buildable_dist as (A & B & C). split; [|split].
  - intros c hist sp. rewrite A. now setoid_rewrite (scales_iff c hist).
  - intros c hist sp q. rewrite B. now setoid_rewrite (scales_iff c hist).
  - intros hist ab em. rewrite C. split; intros (c & a & q & e & Ea & Ee & S & V); exists c, a, q, e; (split; [exact Ea|]); (split; [exact Ee|]); (split; [now apply (scales_iff c hist)|]); now apply (dist_ok_iff hist).
Qed.
Print Assumptions C57_buildable_partial.

(** The kind, yield and emission of what is built are those declared: the yield of a scatterer or luminophore
    is 1 if none is given, an absorber has none, and only a luminophore has an emission spectrum. *)
Theorem C57_declared_partial :
  (forall c hist sp p, parse_component (CAbsorber (AbsSpec c hist sp)) = Some p -> pc_kind p = Absorber /\ pc_qy p = 0%R /\ pc_ems p = None) /\
  (forall c hist sp q p, parse_component (CScatterer (ScaSpec c hist sp (Some q))) = Some p -> pc_kind p = Scatterer /\ pc_qy p = q /\ pc_ems p = None) /\
  (forall c hist sp p, parse_component (CScatterer (ScaSpec c hist sp None)) = Some p -> pc_kind p = Scatterer /\ pc_qy p = 1%R /\ pc_ems p = None) /\
  (forall hist ab q e p, parse_component (CLuminophore (LumSpec hist ab (Some (Some q, Some (Some e))))) = Some p -> pc_kind p = Luminophore /\ pc_qy p = q /\ pc_ems p = Some e) /\
  (forall hist ab e p, parse_component (CLuminophore (LumSpec hist ab (Some (None, Some (Some e))))) = Some p -> pc_kind p = Luminophore /\ pc_qy p = 1%R /\ pc_ems p = Some e).
Proof.
  repeat split; intros; cbn [parse_component] in *; unfold parse_absorber, parse_scatterer, parse_luminophore in *; cbn [as_coefficient as_hist as_spectrum ss_coefficient ss_hist ss_spectrum ss_qy ls_hist ls_absorption ls_emission] in *;
    repeat match goal with
    | H : match ?x with _ => _ end = Some _ |- _ => destruct x; try discriminate H
    | H : (if ?x then _ else _) = Some _ |- _ => destruct x; try discriminate H
    | H : Some _ = Some _ |- _ => injection H as <-
    end; reflexivity.
Qed.
Print Assumptions C57_declared_partial.

(** A luminophore with a coefficient and spectra works, also with an integer coefficient. *)
Example luminophore_builds : usable (parse_component (CLuminophore
  (LumSpec false (Some (Some (Int 3), Some (Some good_array))) (Some (None, Some (Some good_array)))))).
Proof.
  apply C57_buildable_partial. exists (Some (Int 3)), good_array, None, good_array. split; [reflexivity|]. split; [reflexivity|].
  split; [|apply (dist_ok_iff false), good_dist]. exists (Int 3). unfold scale_array, good_array, array_max, np_max. simpl.
  replace (Rmax (Rmax 1 2) 1)%R with 2%R by (rewrite (Rmax_right 1 2), Rmax_left; lra).
  rewrite (proj2 (Reqb_false 2 0)) by lra. eexists. split; [reflexivity|]. split; [lra|]. split; [reflexivity|].
  apply (dist_ok_iff false). unfold dist_ok. simpl. unfold mk_dist. simpl. rdec. simpl. unfold np_max. simpl. destruct (Reqb _ 0); reflexivity.
Qed.

(** ** C80 *)
Lemma np_max_in : forall y ys, In (np_max y ys) (y :: ys).
Proof.
  intros y ys. unfold np_max. revert y. induction ys as [|z ys IH]; intro y; simpl; [auto|].
  destruct (IH (Rmax y z)) as [H|H]; [|auto]. rewrite <- H. unfold Rmax. destruct (Rle_dec y z); auto.
Qed.
Lemma np_max_ub : forall ys y x, In x (y :: ys) -> (x <= np_max y ys)%R.
Proof.
  induction ys as [|z ys IH]; intros y x H; unfold np_max in *; simpl in *.
  - destruct H as [->|[]]. lra.
  - destruct H as [->|[->|H]].
    + eapply Rle_trans; [apply Rmax_l|apply IH; left; reflexivity].
    + eapply Rle_trans; [apply Rmax_r|apply IH; left; reflexivity].
    + apply IH. right. exact H.
Qed.

(** Scaling a spectrum to a coefficient keeps the wavelengths and the shape, and the peak of the
    result is the coefficient.  [peak a m]: m is the largest value of the array. *)
Definition peak (a : array) (m : R) : Prop :=
  (exists x, In (x, m) (a_rows a)) /\ forall x y, In (x, y) (a_rows a) -> (y <= m)%R.
Theorem C80_scaled_peak_partial : forall a m c, a_int a = false -> peak a m -> (0 < m)%R -> (0 < c)%R ->
  exists a', scale_array a c = Some a' /\ peak a' c /\ map fst (a_rows a') = map fst (a_rows a) /\
    Forall2 (fun r r' => snd r' * m = snd r * c)%R (a_rows a) (a_rows a').
Proof.
  intros [b rows] m c Hf [(x0 & Hin) Hub] Hm Hc. simpl in *. subst b. unfold scale_array, array_max. simpl.
  assert (E : array_max (Arr false rows) = Some m).
  { unfold array_max. simpl. destruct (map snd rows) as [|y ys] eqn:Em.
    - destruct rows; [destruct Hin|discriminate].
    - f_equal. apply Rle_antisym.
      + pose proof (np_max_in y ys) as I. rewrite <- Em in I. apply in_map_iff in I. destruct I as ([x y'] & E & I). simpl in E.
        rewrite <- E. eapply Hub. exact I.
      + apply np_max_ub. rewrite <- Em. apply in_map_iff. exists (x0, m). auto. }
  unfold array_max in E. simpl in E. rewrite E. rewrite (proj2 (Reqb_false m 0)) by lra.
  eexists. split; [reflexivity|]. unfold peak. simpl. split; [split|split].
  - exists x0. apply in_map_iff. exists (x0, m). split; [|exact Hin]. f_equal. field. lra.
  - intros x y I. apply in_map_iff in I. destruct I as ([x' y'] & Ey & I). injection Ey as <- <-. pose proof (Hub _ _ I) as U.
    apply (Rmult_le_reg_r (/ c)); [apply Rinv_0_lt_compat; exact Hc|]. replace (y' / m * c * / c)%R with (y' / m)%R by (field; lra).
    replace (c * / c)%R with 1%R by (field; lra). apply (Rmult_le_reg_r m); [exact Hm|]. unfold Rdiv. rewrite Rmult_assoc, Rinv_l by lra. lra.
  - rewrite map_map. apply map_ext. intros [? ?]. reflexivity.
  - clear - Hm. induction rows as [|[x y] rows IH]; simpl; constructor; [|exact IH]. simpl. field. lra.
Qed.
Print Assumptions C80_scaled_peak_partial.

(** Without the hypothesis on the element type it is false: a spectrum read from integers is
    truncated.  A coefficient below 1 then removes the component altogether. *)
Theorem C80_scaled_peak_refuted : exists a m c a', peak a m /\ (0 < m)%R /\ (0 < c)%R /\ scale_array a c = Some a' /\
  forall x y, In (x, y) (a_rows a') -> y = 0%R.
Proof.
  exists (Arr true [(400, 1); (500, 2); (600, 1)]%R), 2%R, (1 / 2)%R. unfold scale_array, array_max, np_max. simpl.
  replace (Rmax (Rmax 1 2) 1)%R with 2%R by (rewrite (Rmax_right 1 2), Rmax_left; lra).
  rewrite (proj2 (Reqb_false 2 0)) by lra. eexists. split; [|split; [lra|split; [lra|split; [reflexivity|]]]].
  - split; [exists 500%R; simpl; auto|]. simpl. intros x y [H|[H|[H|[]]]]; injection H as <- <-; lra.
  - assert (T : forall v, (0 <= v < 1)%R -> trunc v = 0%Z).
    { intros v Hv. pose proof (trunc_bounds v (proj1 Hv)) as (B0 & B1 & B2). assert (IZR (trunc v) < IZR 1)%R by lra. apply lt_IZR in H. lia. }
    simpl. intros x y [H|[H|[H|[]]]]; injection H as <- <-; rewrite T by lra; reflexivity.
Qed.
Print Assumptions C80_scaled_peak_refuted.

(** ** C58 *)
Lemma auto_bins_range : forall s, (10 <= auto_bins s <= 60)%Z.
Proof. intro s. unfold auto_bins. lia. Qed.
Lemma axis_known : forall i, In (axis_name i) prop_names.
Proof. intros [|[|i]]; simpl; tauto. Qed.

(** record: true gives valid recorders on the node itself; for boxes the sizes must be positive. *)
Theorem C58_valid : forall node b l,
  (forall size m, b = Geometry (SBox size) m -> Forall (fun s => (0 < s)%R) size) ->
  auto_recorders node b = Some l ->
  forall names n r, In node names -> In (n, r) l -> exists m, parse_recorder names n r = Some (node, m) /\ mr_name m = n.
Proof.
  intros node b l P H names n r Hn I.
  assert (V : recorder_valid names r).
  { split; [rewrite (proj1 (auto_entries _ _ _ _ _ H I)); exact Hn|].
    assert (VW : hist_valid auto_wavelength) by (simpl; split; [tauto|split; [lra|lia]]).
    assert (VA : hist_valid auto_angle) by (simpl; split; [tauto|split; [lra|lia]]).
    destruct b as [[size| | |] m|ok]; [|simpl in H..].
    - apply auto_box in H. destruct H as (a & b & c & rest & E1 & E2). specialize (P _ _ eq_refl). subst size l.
      inversion P as [|? ? Pa P1]; subst. inversion P1 as [|? ? Pb P2]; subst. inversion P2 as [|? ? Pc P3]; subst.
      assert (VF : forall u v su sv, (0 < su)%R -> (0 < sv)%R -> hist_valid (face_hist u v su sv)).
      { intros u v su sv Hu Hv. unfold face_hist. cbn [hist_valid]. pose proof (auto_bins_range su). pose proof (auto_bins_range sv).
        repeat split; try apply axis_known; try lra; lia. }
      simpl in I. repeat (destruct I as [I|I]; [injection I as I1 I2; subst; cbn [rs_hists]; repeat (apply Forall_cons; [solve [auto]|]); apply Forall_nil|]). destruct I.
    - injection H as H. subst l. simpl in I. repeat (destruct I as [I|I]; [injection I as I1 I2; subst; cbn [rs_hists]; repeat (apply Forall_cons; [solve [auto]|]); apply Forall_nil|]). destruct I.
    - injection H as H. subst l. simpl in I. repeat (destruct I as [I|I]; [injection I as I1 I2; subst; cbn [rs_hists]; repeat (apply Forall_cons; [solve [auto]|]); apply Forall_nil|]). destruct I.
    - injection H as H. subst l. simpl in I. repeat (destruct I as [I|I]; [injection I as I1 I2; subst; cbn [rs_hists]; repeat (apply Forall_cons; [solve [auto]|]); apply Forall_nil|]). destruct I.
    - injection H as H. subst l. simpl in I. repeat (destruct I as [I|I]; [injection I as I1 I2; subst; cbn [rs_hists]; repeat (apply Forall_cons; [solve [auto]|]); apply Forall_nil|]). destruct I. }
  pose proof (parse_recorder_spec names n r) as PR. destruct (parse_recorder names n r) as [[k m]|]; [|contradiction].
  destruct PR as (_ & -> & M). exists m. rewrite (proj1 (auto_entries _ _ _ _ _ H I)). split; [reflexivity|apply M].
Qed.
Print Assumptions C58_valid.

(** Names do not collide, within a node or between nodes, whatever the nodes are called. *)
Theorem C58_names_distinct : forall node b l, auto_recorders node b = Some l ->
  NoDup (keys l) /\
  forall node' b' l', auto_recorders node' b' = Some l' -> node <> node' -> forall n, In n (keys l) -> ~ In n (keys l').
Proof.
  intros node b l H. split; [eapply auto_names_distinct; exact H|]. intros node' b' l' H' N n I I'. apply N.
  eapply auto_names_across; [exact H|exact H'|exact I|exact I'].
Qed.
Print Assumptions C58_names_distinct.

(** A box gets one recorder per face and one for losses; the map of a face spans the two axes in
    the face over the whole face, with 10 to 60 bins a side. *)
Theorem C58_faces : forall node a b c rest m l, auto_recorders node (Geometry (SBox (a :: b :: c :: rest)) m) = Some l ->
  map (fun nr => (rs_event (snd nr), rs_facet (snd nr))) l =
    [(Lost, None); (Escaping, Some [0; 0; 1]%R); (Escaping, Some [0; 0; -1]%R); (Escaping, Some [1; 0; 0]%R);
     (Escaping, Some [-1; 0; 0]%R); (Escaping, Some [0; 1; 0]%R); (Escaping, Some [0; -1; 0]%R)] /\
  forall n r facet, In (n, r) l -> rs_facet r = Some facet ->
    exists u v su sv nu nv,
      In (HPosition (axis_name u) (axis_name v) (- (su / 2), su / 2, nu)%R (- (sv / 2), sv / 2, nv)%R) (rs_hists r) /\
      u < 3 /\ v < 3 /\ u <> v /\ nth u facet 1%R = 0%R /\ nth v facet 1%R = 0%R /\
      nth_error [a; b; c] u = Some su /\ nth_error [a; b; c] v = Some sv /\ (10 <= nu <= 60)%Z /\ (10 <= nv <= 60)%Z.
Proof.
  intros node a b c rest m l H. apply auto_box in H. destruct H as (a' & b' & c' & rest' & E & El). injection E as <- <- <- <-. subst l.
  split; [reflexivity|]. intros n r facet I F.
  assert (G : forall x y z u v su sv, facet = [x; y; z] -> In (face_hist u v su sv) (rs_hists r) ->
     (u < 3 /\ v < 3 /\ u <> v /\ nth u [x; y; z] 1%R = 0%R /\ nth v [x; y; z] 1%R = 0%R /\
      nth_error [a; b; c] u = Some su /\ nth_error [a; b; c] v = Some sv) ->
     exists u v su sv nu nv,
      In (HPosition (axis_name u) (axis_name v) (- (su / 2), su / 2, nu)%R (- (sv / 2), sv / 2, nv)%R) (rs_hists r) /\
      u < 3 /\ v < 3 /\ u <> v /\ nth u facet 1%R = 0%R /\ nth v facet 1%R = 0%R /\
      nth_error [a; b; c] u = Some su /\ nth_error [a; b; c] v = Some sv /\ (10 <= nu <= 60)%Z /\ (10 <= nv <= 60)%Z).
  { intros x y z u v su sv -> Hh (H1 & H2 & H3 & H4 & H5 & H6 & H7). exists u, v, su, sv, (auto_bins su), (auto_bins sv).
    split; [exact Hh|]. repeat (split; [assumption|]). split; apply auto_bins_range. }
  simpl in I. destruct I as [I|I]; [injection I as <- <-; discriminate|].
  repeat (destruct I as [I|I];
    [injection I as <- <-; simpl in F; injection F as <-; eapply G; [reflexivity|simpl; right; right; left; reflexivity|];
     simpl; repeat split; try reflexivity; lia|]). destruct I.
Qed.
Print Assumptions C58_faces.

(** The studio's add-face-recorders uses the same names as record: true, so both can be used. *)
Example slab_auto : exists l, auto_recorders "slab" (Geometry (SBox [5; 5; 1 / 2]%R) glass_spec) = Some l /\ List.length l = 7 /\
  get "slab-top" l = Some (RecSpec "slab" Escaping (Some [0; 0; 1]%R) None
    [auto_wavelength; auto_angle; HPosition "x" "y" (- (5 / 2), 5 / 2, 50%Z)%R (- (5 / 2), 5 / 2, 50%Z)%R]).
Proof.
  eexists. split; [apply auto_box; exists 5%R, 5%R, (1 / 2)%R, []; split; reflexivity|]. split; [reflexivity|].
  simpl. unfold face_hist. simpl. assert (E : auto_bins 5 = 50%Z).
  { unfold auto_bins. replace (trunc (5 * 10)) with 50%Z; [reflexivity|]. symmetry.
    assert (0 <= 5 * 10)%R by lra. pose proof (trunc_at_most (5 * 10) 50 H ltac:(lra)). pose proof (trunc_at_least (5 * 10) 50 H ltac:(lra)). lia. }
  rewrite E. reflexivity.
Qed.

(** ** C82 *)
Lemma distinct_NoDup : forall l, distinct l = true <-> NoDup l.
Proof.
  induction l as [|x l IH]; simpl; [split; [constructor|reflexivity]|]. rewrite andb_true_iff, negb_true_iff, mem_str_not, IH. split.
  - intros [H1 H2]. constructor; assumption.
  - intro H. inversion H; auto.
Qed.
Lemma NoDup_app_l : forall A (l r : list A), NoDup (l ++ r) -> NoDup l.
Proof.
  intros A l r. induction l as [|x l IH]; simpl; intro H; [constructor|]. inversion H as [|? ? H1 H2]; subst.
  constructor; [|apply IH; exact H2]. intro I. apply H1. apply in_or_app. left. exact I.
Qed.
(** The compiled scene tallies every recorder that sits on a node with a geometry, once; names never
    clash; it is refused only for a facet on a volume event or for more than 256 recorders.  (A
    recorder on a light node is missing.) *)
Definition on_geometry (s : parsed_scene) (km : string * made_recorder) : Prop := exists l, get (fst km) (ps_nodes s) = Some (Some l).
Theorem C82_recorders_compiled_partial : forall d s, wf_doc d -> parse_document d = Some s ->
  (forall l, compile_recorders s = Some l -> NoDup l /\ forall km, In km l <-> In km (ps_recorders s) /\ on_geometry s km) /\
  (compile_recorders s = None <->
     (exists km facet, In km (ps_recorders s) /\ on_geometry s km /\ mr_facet (snd km) = Some facet /\ In (mr_event (snd km)) [Lost; Reacted; Killed]) \/
     (exists l, NoDup l /\ List.length l = 257 /\ forall km, In km l -> In km (ps_recorders s) /\ on_geometry s km)).
Proof.
  intros d s W H. destruct (C56_recorders d s W H) as (N & _ & _ & _). unfold compile_recorders.
  set (l := filter (fun nr => has_geometry s (fst nr)) (ps_recorders s)).
  assert (Og : forall km, has_geometry s (fst km) = true <-> on_geometry s km).
  { intro km. unfold has_geometry, on_geometry. destruct (get (fst km) (ps_nodes s)) as [[x|]|]; split; intro E; try discriminate; eauto.
    - destruct E as (? & E). discriminate.
    - destruct E as (? & E). discriminate. }
  assert (L : forall km, In km l <-> In km (ps_recorders s) /\ on_geometry s km) by (intro km; unfold l; rewrite filter_In, Og; reflexivity).
  assert (Nm : NoDup (map (fun nr => mr_name (snd nr)) l)).
  { unfold l. clear - N. induction (ps_recorders s) as [|x r IH]; simpl in *; [constructor|]. inversion N as [|? ? N1 N2]; subst.
    destruct (has_geometry s (fst x)); [|apply IH; exact N2]. simpl. constructor; [|apply IH; exact N2].
    intro I. apply N1. apply in_map_iff in I. destruct I as (y & E & I). apply filter_In in I. apply in_map_iff. exists y. tauto. }
  assert (Nl : NoDup l) by (apply (NoDup_map_inv (fun nr => mr_name (snd nr))); exact Nm).
  rewrite (proj2 (distinct_NoDup _) Nm). simpl.
  destruct (existsb _ l) eqn:E1.
  - split; [discriminate|]. split; [intros _|reflexivity]. left. apply existsb_exists in E1. destruct E1 as (km & I & E).
    apply andb_true_iff in E. destruct E as [E2 E3]. destruct (mr_facet (snd km)) as [f|] eqn:F; [|discriminate].
    apply L in I. exists km, f. repeat split; try tauto. destruct (mr_event (snd km)); simpl in *; try discriminate; tauto.
  - assert (NV : ~ exists km facet, In km (ps_recorders s) /\ on_geometry s km /\ mr_facet (snd km) = Some facet /\ In (mr_event (snd km)) [Lost; Reacted; Killed]).
    { intros (km & f & I1 & I2 & F & V). assert (T : existsb (fun nr => volume_event (mr_event (snd nr)) && match mr_facet (snd nr) with Some _ => true | None => false end) l = true); [|congruence].
      apply existsb_exists. exists km. split; [apply L; auto|]. rewrite F. simpl in V.
      destruct V as [V|[V|[V|[]]]]; rewrite <- V; reflexivity. }
    destruct (Nat.ltb max_recorders (List.length l)) eqn:E2.
    + split; [discriminate|]. split; [intros _|reflexivity]. right. apply Nat.ltb_lt in E2. unfold max_recorders in E2.
      exists (firstn 257 l). split; [|split].
      * clear - Nl. clearbody l. rewrite <- (firstn_skipn 257 l) in Nl. exact (NoDup_app_l _ _ _ Nl).
      * apply firstn_length_le. exact E2.
      * intros km I. apply L. rewrite <- (firstn_skipn 257 l). apply in_or_app. left. exact I.
    + split; [intros l' E; injection E as <-; split; [exact Nl|exact L]|]. split; [discriminate|].
      intros [Hv|(l' & N' & Len & I')]; [contradiction|]. exfalso. apply Nat.ltb_ge in E2. unfold max_recorders in E2.
      assert (List.length l' <= List.length l) by (apply NoDup_incl_length; [exact N'|intros km I; apply L; apply I'; exact I]). lia.
Qed.
Print Assumptions C82_recorders_compiled_partial.

(** A recorder on a light node is accepted and silently never tallied. *)
Theorem C82_recorders_compiled_refuted : exists d s km, wf_doc d /\ parse_document d = Some s /\
  In km (ps_recorders s) /\ exists l, compile_recorders s = Some l /\ ~ In km l.
Proof.
  exists (Doc None [("world", ball None); ("lamp", NodeSpec (LightBody true) None None None false)] (Some [("count", RecSpec "lamp" Entering None None [])])).
  eexists. exists ("lamp", MadeRec "count" Entering None (/ 10 ^ 6)%R []).
  split; [|split; [reflexivity|split; [left; reflexivity|exists []; split; [reflexivity|intros []]]]].
  split; [constructor|]. split; repeat constructor; simpl; intuition discriminate.
Qed.
Print Assumptions C82_recorders_compiled_refuted.
