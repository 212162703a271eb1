(** Properties C59 - C61, C81 and C83: editing documents in the studio. *)
From Coq Require Import Reals ZArith List Bool Arith String Ascii Lra Lia DecimalString DecimalNat Decimal.
From Verif Require Import Base Vec Interp DistModel MaterialModel KernelModel TallyModel SpecModel SpecProofs SpecProps.
Import ListNotations.
Open Scope string_scope.
Open Scope nat_scope.
Open Scope list_scope.

(** ** C60 *)
Lemma append_inj : forall s a b, (s ++ a = s ++ b)%string -> a = b.
Proof. induction s as [|c s IH]; simpl; intros a b H; [exact H|]. injection H as H. apply IH. exact H. Qed.
Lemma decimal_inj : forall i j, decimal i = decimal j -> i = j.
Proof.
  intros i j H. unfold decimal in H. assert (E : Some (Nat.to_uint i) = Some (Nat.to_uint j)) by (rewrite <- !NilEmpty.usu; congruence).
  injection E as E. rewrite <- (Unsigned.of_to i), <- (Unsigned.of_to j). congruence.
Qed.
Lemma candidate_inj : forall stem i j, candidate stem i = candidate stem j -> i = j.
Proof. unfold candidate. intros stem i j H. apply append_inj in H. simpl in H. injection H as H. apply decimal_inj. exact H. Qed.
Lemma unique_from_spec : forall fuel ex stem i,
  match unique_from fuel ex stem i with
  | Some name => exists k, i <= k /\ name = candidate stem k /\ ~ In name ex /\ forall j, i <= j < k -> In (candidate stem j) ex
  | None => forall j, i <= j < i + fuel -> In (candidate stem j) ex
  end.
Proof.
  induction fuel as [|fuel IH]; intros ex stem i; simpl; [intros; lia|].
  destruct (mem_str (candidate stem i) ex) eqn:E.
  - apply mem_str_In in E. specialize (IH ex stem (S i)). destruct (unique_from fuel ex stem (S i)).
    + destruct IH as (k & H1 & H2 & H3 & H4). exists k. split; [lia|]. split; [exact H2|]. split; [exact H3|].
      intros j Hj. destruct (Nat.eq_dec j i) as [->|Nj]; [exact E|]. apply H4. lia.
    + intros j Hj. destruct (Nat.eq_dec j i) as [->|Nj]; [exact E|]. apply IH. lia.
  - apply mem_str_not in E. exists i. split; [lia|]. split; [reflexivity|]. split; [exact E|]. intros; lia.
Qed.

(** _unique_name always ends; its result is free, is the stem with a number from 1 on, and all
    smaller numbers are taken. *)
Theorem C60_unique_name : forall existing stem, exists k,
  unique_name existing stem = Some (candidate stem k) /\ 1 <= k /\ ~ In (candidate stem k) existing /\
  forall j, 1 <= j < k -> In (candidate stem j) existing.
Proof.
  intros ex stem. unfold unique_name. pose proof (unique_from_spec (S (List.length ex)) ex stem 1) as H.
  destruct (unique_from (S (List.length ex)) ex stem 1) as [name|].
  - destruct H as (k & H1 & H2 & H3 & H4). subst. exists k. auto.
  - exfalso. assert (L : List.length (map (candidate stem) (seq 1 (S (List.length ex)))) <= List.length ex).
    { apply NoDup_incl_length.
      - apply NoDup_map_inj; [intros x y _ _ E; eapply candidate_inj; exact E|apply seq_NoDup].
      - intros x Hx. apply in_map_iff in Hx. destruct Hx as (j & <- & Hj). apply in_seq in Hj. apply H. exact Hj. }
    rewrite map_length, seq_length in L. lia.
Qed.
Print Assumptions C60_unique_name.
(** The number is written in decimal without leading zeros; other names do not disturb. *)
Example box_names : unique_name ["box-1"; "world"; "box-3"; "box-02"; "box-2"] "box" = Some "box-4".
Proof. reflexivity. Qed.
Example two_digits : candidate "box" 12 = "box-12".
Proof. reflexivity. Qed.

(** ** C59 *)
Lemma map_opt_pl : forall nodes : dict node_spec,
  (forall k s, In (k, s) nodes -> ns_record s = true -> auto_recorders k (ns_body s) <> None) ->
  exists l, map_opt (fun '(k, n) => if ns_record n then option_map (@keys recorder_spec) (auto_recorders k (ns_body n)) else Some []) nodes = Some l.
Proof.
  intros nodes H. apply map_opt_total. intros [k s] I. destruct (ns_record s) eqn:R; [|eauto].
  specialize (H k s I R). destruct (auto_recorders k (ns_body s)); [simpl; eauto|congruence].
Qed.
Section Atomic.
  Variable text : Type.
  Variable load : text -> option document.
  Variable dump : document -> text.
  Variable compile : parsed_scene -> bool.
  (** A loaded document has distinct keys *)
  Hypothesis load_wf : forall t d, load t = Some d -> wf_doc d.

  (** The three fields belong to the same accepted text *)
  Definition consistent (s : studio text) : Prop :=
    exists d sc, load (st_document _ s) = Some d /\ parse_document d = Some sc /\ compile sc = true /\
                 st_scene _ s = Some sc /\ st_spec _ s = Some d.

  Lemma apply_atomic : forall s t s' r, studio_apply text load compile s t = (s', r) ->
    (r = None -> s' = s) /\ (r <> None -> st_document _ s' = t /\ consistent s').
  Proof using load_wf.
    intros s t s' r. unfold studio_apply. destruct (load t) as [d|] eqn:L; [|intro H; injection H as <- <-; split; [auto|congruence]].
    destruct (parse_document d) as [sc|] eqn:P; [|intro H; injection H as <- <-; split; [auto|congruence]].
    destruct (compile sc) eqn:C; [|intro H; injection H as <- <-; split; [auto|congruence]].
    intro H. injection H as <- <-. split.
    - intro E. exfalso. unfold payload in E. simpl in E.
      destruct (map_opt_pl (d_nodes d)) as (l & El); [apply acc_auto; apply parse_acceptable; [eapply load_wf; exact L|eauto]|].
      rewrite El in E. discriminate.
    - intros _. split; [reflexivity|]. exists d, sc. auto.
  Qed.

  (** A request that reports an error changes nothing; one that succeeds leaves document, scene and
      spec belonging to the same text.  So after any sequence of requests the studio is in its
      initial state or consistent, and once consistent it stays so. *)
  Theorem C59_atomic : forall s q,
    (snd (handle_request text load dump compile s q) = None -> fst (handle_request text load dump compile s q) = s) /\
    (snd (handle_request text load dump compile s q) <> None -> consistent (fst (handle_request text load dump compile s q))) /\
    (snd (handle_request text load dump compile s q) <> None -> forall t, q = Put text t -> st_document _ (fst (handle_request text load dump compile s q)) = t).
  Proof using load_wf.
    intros s q. destruct q as [t|e]; simpl.
    - destruct (studio_apply text load compile s t) as [s' r] eqn:E. destruct (apply_atomic _ _ _ _ E) as [A B]. simpl.
      split; [exact A|]. split; [intro H; apply B; exact H|]. intros H t' Et. injection Et as <-. apply B. exact H.
    - destruct (load (st_document text s)) as [d|]; [|simpl; split; [auto|split; congruence]].
      destruct (apply_edit (st_scene text s) e d) as [d'|]; [|simpl; split; [auto|split; congruence]].
      destruct (studio_apply text load compile s (dump d')) as [s' r] eqn:E. destruct (apply_atomic _ _ _ _ E) as [A B]. simpl.
      split; [exact A|]. split; [intro H; apply B; exact H|]. intros _ t' Et. discriminate.
  Qed.
  Theorem C59_any_sequence : forall s qs,
    run_requests text load dump compile s qs = s \/ consistent (run_requests text load dump compile s qs).
  Proof using load_wf.
    intros s qs. unfold run_requests. revert s. induction qs as [|q qs IH]; intro s; simpl; [left; reflexivity|].
    destruct (C59_atomic s q) as (A & B & _).
    destruct (snd (handle_request text load dump compile s q)) eqn:E.
    - right. specialize (B ltac:(discriminate)). destruct (IH (fst (handle_request text load dump compile s q))) as [H|H]; [rewrite H; exact B|exact H].
    - rewrite A by reflexivity. apply IH.
  Qed.
End Atomic.
Print Assumptions C59_atomic.
Print Assumptions C59_any_sequence.

(** With documents as their own text: a good document, then one without world. *)
Example bad_put_ignored :
  let good := Doc None [("world", ball None)] None in
  let bad := Doc None [("wrld", ball None)] None in
  let s := run_requests document Some (fun d => d) (fun _ => true) (studio0 document bad) [Put _ good; Put _ bad; Patch _ (DeleteNode "world")] in
  st_document _ s = good /\ st_spec _ s = Some good /\ st_scene _ s <> None.
Proof. simpl. split; [reflexivity|]. split; [reflexivity|discriminate]. Qed.

(** ** Edits keep documents acceptable *)
Lemma get_app : forall A (d e : dict A) k, get k (d ++ e) = match get k d with Some v => Some v | None => get k e end.
Proof. intros A d e k. induction d as [|[k' v] d IH]; simpl; [reflexivity|]. destruct (String.eqb k' k); [reflexivity|exact IH]. Qed.
Lemma to_world_app : forall nodes more k, to_world nodes k -> to_world (nodes ++ more) k.
Proof.
  intros nodes more k H. induction H as [|k s G N H IH]; [constructor|]. eapply up_to_world; [|exact N|exact IH].
  rewrite get_app, G. reflexivity.
Qed.
Lemma In_put : forall A k (v : A) d n r, NoDup (keys d) -> In (n, r) (put k v d) <-> (n = k /\ r = v) \/ (n <> k /\ In (n, r) d).
Proof.
  intros A k v d n r N. pose proof (NoDup_put _ k v d N) as N'. split.
  - intro H. apply In_get in H; [|exact N']. rewrite get_put in H. destruct (String.eqb k n) eqn:E.
    + apply String.eqb_eq in E. injection H as H. auto.
    + apply String.eqb_neq in E. right. split; [congruence|]. apply get_In. exact H.
  - intros [[-> ->]|[E H]]; apply get_In; rewrite get_put; [rewrite String.eqb_refl; reflexivity|].
    rewrite (proj2 (String.eqb_neq k n)) by congruence. apply In_get; assumption.
Qed.
Lemma keys_put_iff : forall A k (v : A) d n, In n (keys (put k v d)) <-> n = k \/ In n (keys d).
Proof.
  intros A k v d n. destruct (in_dec string_dec k (keys d)) as [H|H].
  - rewrite keys_put_old by exact H. split; [auto|]. intros [->|G]; assumption.
  - rewrite keys_put_new by exact H. rewrite keys_app, in_app_iff. simpl. intuition congruence.
Qed.
Definition boxes_positive (d : document) : Prop :=
  forall k s size m, In (k, s) (d_nodes d) -> ns_body s = Geometry (SBox size) m -> Forall (fun x => (0 < x)%R) size.
Lemma auto_valid : forall d n r, wf_doc d -> boxes_positive d -> auto_of (d_nodes d) n r -> recorder_valid (keys (d_nodes d)) r.
Proof.
  intros d n r W P (k & s & l & I1 & R & A & I2).
  destruct (C58_valid k (ns_body s) l) with (names := keys (d_nodes d)) (n := n) (r := r) as (m & E & _); auto.
  - intros size m E. eapply P; eassumption.
  - eapply In_keys. exact I1.
  - pose proof (parse_recorder_spec (keys (d_nodes d)) n r) as PR. rewrite E in PR. tauto.
Qed.
Lemma drop_auto : forall k name s, auto_recorders k (ns_body (drop_component name s)) = auto_recorders k (ns_body s).
Proof. intros k name s. unfold drop_component. destruct (ns_body s) as [sh m|ok] eqn:E; [|rewrite E; reflexivity]. destruct (mem_str _ _); [|rewrite E; reflexivity]. reflexivity. Qed.
Lemma drop_record : forall name s, ns_record (drop_component name s) = ns_record s.
Proof. intros name s. unfold drop_component. destruct (ns_body s); [|reflexivity]. destruct (mem_str _ _); reflexivity. Qed.
Lemma drop_parent : forall name s, ns_parent (drop_component name s) = ns_parent s.
Proof. intros name s. unfold drop_component. destruct (ns_body s); [|reflexivity]. destruct (mem_str _ _); reflexivity. Qed.
Lemma drop_light : forall name s, ns_body (drop_component name s) = LightBody false -> ns_body s = LightBody false.
Proof. intros name s. unfold drop_component. destruct (ns_body s) as [sh m|ok] eqn:E; [|congruence]. destruct (mem_str _ _); [discriminate|congruence]. Qed.
Lemma drop_names : forall name s c, In c (material_names (drop_component name s)) -> In c (material_names s) /\ c <> name.
Proof.
  intros name s c. unfold drop_component, material_names. destruct (ns_body s) as [sh m|ok] eqn:E; [|rewrite E; intros []].
  destruct (mem_str name _) eqn:Em.
  - simpl. destruct (ms_components m) as [l|]; [|intros []]. simpl. rewrite filter_In. intros [H1 H2].
    apply negb_true_iff, String.eqb_neq in H2. auto.
  - rewrite E. intro H. split; [exact H|]. apply mem_str_not in Em. intros ->. contradiction.
Qed.

(** ** C61 *)
(** After delete-component the component is gone and no material names it; all other components
    and references are as before. *)
Theorem C61_delete_component : forall sc d d' name, apply_edit sc (DeleteComponent name) d = Some d' ->
  ~ In name (keys (doc_components d')) /\
  (forall k s, In (k, s) (d_nodes d') -> ~ In name (material_names s)) /\
  (forall c, In c (keys (doc_components d)) -> c <> name -> In c (keys (doc_components d'))) /\
  (forall k s c, get k (d_nodes d) = Some s -> In c (material_names s) -> c <> name ->
     exists s', get k (d_nodes d') = Some s' /\ In c (material_names s')).
Proof.
  intros sc d d' name H. simpl in H. destruct (has name (doc_components d)); [|discriminate]. injection H as <-. simpl.
  split; [intro H; apply keys_remove in H; destruct H; congruence|]. split; [|split].
  - intros k s I N. apply In_map_val in I. destruct I as (s0 & _ & ->). apply drop_names in N. destruct N. congruence.
  - intros c I N. apply keys_remove. auto.
  - intros k s c G I N. exists (drop_component name s). split; [rewrite get_map_val, G; reflexivity|].
    unfold drop_component, material_names in *. destruct (ns_body s) as [sh m|ok] eqn:E; [|destruct I].
    destruct (mem_str name _); [|rewrite E; exact I]. simpl. destruct (ms_components m) as [l|]; [|destruct I]. simpl.
    apply filter_In. split; [exact I|]. apply negb_true_iff, String.eqb_neq. exact N.
Qed.
Print Assumptions C61_delete_component.

(** After delete-node no recorder of the document refers to the node, and recorders of other
    nodes stay. *)
Theorem C61_delete_node_recorders : forall sc d d' name, apply_edit sc (DeleteNode name) d = Some d' ->
  ~ In name (keys (d_nodes d')) /\
  forall n r, In (n, r) (doc_recorders d') <-> In (n, r) (doc_recorders d) /\ rs_node r <> name.
Proof.
  intros sc d d' name H. simpl in H. destruct (has name (d_nodes d)); [|discriminate]. injection H as <-. simpl.
  split; [intro H; apply keys_remove in H; destruct H; congruence|]. intros n r. unfold doc_recorders. simpl.
  destruct (d_recorders d) as [l|]; [|simpl; tauto]. rewrite filter_In. simpl. rewrite negb_true_iff, String.eqb_neq. reflexivity.
Qed.
Print Assumptions C61_delete_node_recorders.

(** But children keep naming the deleted node as their parent. *)
Theorem C61_delete_node_refuted : exists d d' name k s, wf_doc d /\ (exists sc, parse_document d = Some sc) /\
  apply_edit None (DeleteNode name) d = Some d' /\ In (k, s) (d_nodes d') /\ ns_parent s = Some name /\ parse_document d' = None.
Proof.
  exists (Doc None [("world", ball None); ("a", ball None); ("b", ball (Some "a"))] None). eexists. exists "a", "b", (ball (Some "a")).
  split; [split; [constructor|split; [repeat constructor; simpl; intuition discriminate|constructor]]|].
  split; [eexists; reflexivity|]. split; [reflexivity|]. split; [simpl; auto|]. split; reflexivity.
Qed.
Print Assumptions C61_delete_node_refuted.

(** What saves the studio: the edited document is accepted exactly if the node was not world and
    no remaining node named it as its parent; otherwise it is refused and nothing changes (C59). *)
Theorem C61_delete_node_partial : forall sc d s d' name, wf_doc d -> boxes_positive d -> parse_document d = Some s ->
  apply_edit sc (DeleteNode name) d = Some d' ->
  ((exists s', parse_document d' = Some s') <->
   name <> "world" /\ forall k n, In (k, n) (d_nodes d) -> k <> name -> k <> "world" -> ns_parent n <> Some name).
Proof.
  intros sc d s d' name W P Hs H. pose proof (proj1 (parse_acceptable d W) (ex_intro _ s Hs)) as A.
  destruct W as (Wc & Wn & Wr). pose proof (C61_delete_node_recorders sc d d' name H) as [_ Rr].
  simpl in H. destruct (has name (d_nodes d)); [|discriminate]. injection H as H.
  assert (W' : wf_doc d').
  { subst d'. split; [exact Wc|]. split; [simpl; apply NoDup_filter_keys; exact Wn|]. unfold doc_recorders in *. simpl.
    destruct (d_recorders d); [apply NoDup_filter_keys; exact Wr|constructor]. }
  assert (En : d_nodes d' = remove_key name (d_nodes d)) by (subst d'; reflexivity).
  assert (Ec : doc_components d' = doc_components d) by (subst d'; reflexivity). clear H.
  assert (Ng : forall j n, get j (remove_key name (d_nodes d)) = Some n <-> get j (d_nodes d) = Some n /\ j <> name).
  { intros j n. split.
    - intro G. apply get_In, In_remove in G. destruct G as [G1 G2]. split; [apply In_get; assumption|exact G2].
    - intros [G1 G2]. apply In_get; [apply NoDup_filter_keys; exact Wn|]. apply In_remove. split; [apply get_In; exact G1|exact G2]. }
  rewrite (parse_acceptable d' W'). split.
  - intros [A1 A2 A3 A4 A5 A6 A7]. rewrite En in *. split; [apply keys_remove in A1; destruct A1; congruence|].
    intros k n I N Nw E. assert (Ik : In k (keys (remove_key name (d_nodes d)))) by (apply keys_remove; split; [eapply In_keys; exact I|exact N]).
    pose proof (A5 k Ik) as T. inversion T as [|? n' G Nk T']; subst; [congruence|].
    apply Ng in G. destruct G as [G _]. rewrite (In_get _ _ _ _ Wn I) in G. injection G as <-. rewrite E in T'.
    inversion T' as [|? n' G' _ _]; subst; [apply keys_remove in A1; destruct A1; congruence|]. apply Ng in G'. destruct G'. congruence.
  - intros [Nw Np]. destruct A as [A1 A2 A3 A4 A5 A6 A7].
    assert (Sub : forall k n, In (k, n) (d_nodes d') -> In (k, n) (d_nodes d)) by (intros k n I; rewrite En in I; apply In_remove in I; tauto).
    constructor.
    + rewrite En. apply keys_remove. auto.
    + rewrite Ec. exact A2.
    + intros k n c I Ic. rewrite Ec. eapply A3; [apply Sub; exact I|exact Ic].
    + intros k n I. eapply A4. apply Sub. exact I.
    + intros k I. rewrite En in *. apply keys_remove in I. destruct I as [I N]. specialize (A5 k I).
      induction A5 as [|k n G Nk T IH]; [constructor|]. eapply up_to_world; [apply Ng; split; eassumption|exact Nk|].
      assert (Npar : ns_parent n <> Some name) by (eapply Np; [apply get_In; exact G|exact N|exact Nk]).
      destruct (ns_parent n) as [p|]; [|constructor]. apply IH; [|congruence].
      inversion T as [|? n' G' _ _]; subst; [exact A1|]. eapply In_keys, get_In. exact G'.
    + intros k n I R. eapply A6; [apply Sub; exact I|exact R].
    + intros n r S. assert (V : recorder_valid (keys (d_nodes d)) r /\ rs_node r <> name).
      { destruct S as [S|[_ S]].
        - apply Rr in S. destruct S as [S N]. split; [|exact N]. apply (A7 n r). left. exact S.
        - assert (S' : auto_of (d_nodes d) n r).
          { destruct S as (k & t & l & I & S). exists k, t, l. split; [apply Sub; exact I|exact S]. }
          split; [apply (auto_valid d n r (conj Wc (conj Wn Wr)) P S')|].
          destruct S as (k & t & l & I & R & Al & Il). rewrite (proj1 (auto_entries _ _ _ _ _ Al Il)).
          rewrite En in I. apply In_remove in I. apply I. }
      destruct V as [[V1 V2] V3]. split; [|exact V2]. rewrite En. apply keys_remove. auto.
Qed.
Print Assumptions C61_delete_node_partial.

(** ** C81 *)
Lemma source_same : forall d d', d_nodes d' = d_nodes d -> doc_recorders d' = doc_recorders d -> forall n r, source d' n r <-> source d n r.
Proof. intros d d' E1 E2 n r. unfold source. rewrite E1, E2. reflexivity. Qed.

(** Adding and deleting things through the studio's structured edits (other than deleting a node,
    see C61) never turns an accepted document into a rejected one. *)
Definition safe_edit (e : edit) : Prop :=
  match e with
  | AddNode _ | AddRecorder _ | AddFaceRecorders _ | AddComponent | UpdateRecorder _ _ _ _ | DeleteComponent _ | DeleteRecorder _ => True
  | SetOrMove _ | DeleteNode _ => False
  end.
Lemma hist_to_spec_valid : forall h x, hist_valid h -> hist_means h x -> hist_to_spec x = h.
Proof.
  intros [p [[a b] n]|p q [[a b] n] [[a' b'] n']|] [x|x y]; cbn [hist_means]; try tauto; intros _ H.
  - destruct H as [E1 E2]. unfold hist_to_spec. rewrite E1. f_equal. exact E2.
  - destruct H as [[E1 E2] [E3 E4]]. unfold hist_to_spec. rewrite E1, E3. f_equal; assumption.
Qed.
Lemma hists_to_spec : forall hs xs, Forall hist_valid hs -> Forall2 hist_means hs xs -> map hist_to_spec xs = hs.
Proof.
  intros hs xs V H. induction H as [|h x hs xs H1 H2 IH]; [reflexivity|]. inversion V; subst. simpl.
  rewrite (hist_to_spec_valid h x), IH; auto.
Qed.
(** The specification used for update-recorder is the one the recorder came from. *)
Lemma materialised : forall d s name r, wf_doc d -> parse_document d = Some s -> get name (doc_recorders d) = None ->
  recorder_to_spec (Some s) name = Some r -> source d name r.
Proof.
  intros d s name r W H G E. pose proof (proj1 (parse_acceptable d W) (ex_intro _ s H)) as A.
  destruct (C56_recorders d s W H) as (_ & Sr & _ & _). unfold recorder_to_spec in E.
  destruct (find _ (ps_recorders s)) as [[k m]|] eqn:F; [|discriminate]. injection E as <-.
  apply find_some in F. destruct F as [I En]. simpl in En. apply String.eqb_eq in En.
  apply Sr in I. destruct I as (r & S & -> & M). rewrite En in *.
  destruct S as [S|[Nn S]]; [exfalso; apply get_None in G; apply G; eapply In_keys; exact S|].
  destruct M as (M1 & M2 & M3 & M4 & M5).
  assert (V : Forall hist_valid (rs_hists r)) by (apply (acc_recorders d A name r); right; auto).
  assert (At : rs_atol r = None).
  { destruct S as (j & t & l & I1 & R & Al & I2). clear - Al I2.
    destruct (ns_body t) as [[size| | |] mt|ok]; [|simpl in Al..].
    - apply auto_box in Al. destruct Al as (a & b & c & rest & _ & ->). simpl in I2.
      repeat (destruct I2 as [I2|I2]; [injection I2 as _ <-; reflexivity|]). destruct I2.
    - injection Al as <-. simpl in I2. repeat (destruct I2 as [I2|I2]; [injection I2 as _ <-; reflexivity|]). destruct I2.
    - injection Al as <-. simpl in I2. repeat (destruct I2 as [I2|I2]; [injection I2 as _ <-; reflexivity|]). destruct I2.
    - injection Al as <-. simpl in I2. repeat (destruct I2 as [I2|I2]; [injection I2 as _ <-; reflexivity|]). destruct I2.
    - injection Al as <-. simpl in I2. repeat (destruct I2 as [I2|I2]; [injection I2 as _ <-; reflexivity|]). destruct I2. }
  rewrite (hists_to_spec _ _ V M5), M2, M3, <- At. right. split; [exact Nn|]. destruct r. simpl in *. exact S.
Qed.
Lemma put_source : forall d name r0, wf_doc d ->
  let d' := Doc (d_components d) (d_nodes d) (Some (put name r0 (doc_recorders d))) in
  forall n r, source d' n r <-> (n = name /\ r = r0) \/ (n <> name /\ source d n r).
Proof.
  intros d name r0 (_ & _ & Wr) d' n r. assert (E : doc_recorders d' = put name r0 (doc_recorders d)) by reflexivity.
  unfold source. rewrite E. change (d_nodes d') with (d_nodes d). clear E.
  rewrite In_put by exact Wr. rewrite keys_put_iff. split.
  - intros [[H|[H1 H2]]|[H1 H2]]; [left; exact H|right; auto|].
    right. split; [intro E; apply H1; left; exact E|]. right. split; [intro E; apply H1; right; exact E|exact H2].
  - intros [H|[H1 [H2|[H2 H3]]]]; [left; left; exact H|left; right; auto|].
    right. split; [intros [E|E]; contradiction|exact H3].
Qed.
Lemma put_recorder_acceptable : forall d name r0, wf_doc d -> acceptable d -> recorder_valid (keys (d_nodes d)) r0 ->
  acceptable (Doc (d_components d) (d_nodes d) (Some (put name r0 (doc_recorders d)))).
Proof.
  intros d name r0 W [A1 A2 A3 A4 A5 A6 A7] V. constructor; try assumption.
  intros n r S. apply put_source in S; [|exact W]. destruct S as [[-> ->]|[_ S]]; [exact V|]. apply (A7 n r S).
Qed.

Theorem C81_edits_accepted : forall d s e d', wf_doc d -> boxes_positive d -> parse_document d = Some s ->
  safe_edit e -> apply_edit (Some s) e d = Some d' ->
  wf_doc d' /\ boxes_positive d' /\ exists s', parse_document d' = Some s'.
Proof.
  intros d s e d' W P Hs Se H. pose proof (proj1 (parse_acceptable d W) (ex_intro _ s Hs)) as A.
  assert (G : wf_doc d' /\ boxes_positive d' /\ acceptable d'); [|destruct G as (G1 & G2 & G3); split; [exact G1|]; split; [exact G2|]; apply parse_acceptable; assumption].
  pose proof W as (Wc & Wn & Wr).
  destruct e as [f|sn|node|node| |name ev fc at_|name|name|name]; try destruct Se; cbn [apply_edit] in H.
  - (* add-node *)
    destruct (C60_unique_name (keys (d_nodes d)) (snippet_name sn)) as (k & Ek & _ & Fr & _). rewrite Ek in H.
    set (name := candidate (snippet_name sn) k) in *. injection H as <-. rewrite keys_put_new by exact Fr.
    assert (Nw : name <> "world") by (intro E; apply Fr; rewrite E; exact (acc_world d A)).
    destruct A as [A1 A2 A3 A4 A5 A6 A7]. split; [|split].
    + split; [exact Wc|]. split; [|exact Wr]. simpl. rewrite <- keys_put_new with (v := snippet_node sn) by exact Fr. apply NoDup_put. exact Wn.
    + intros j t size m I E. simpl in I. apply in_app_iff in I. destruct I as [I|[I|[]]]; [eapply P; eassumption|].
      injection I as <- <-. destruct sn; simpl in E; try discriminate. injection E as <- <-. repeat constructor; lra.
    + constructor; simpl.
      * rewrite keys_app. apply in_or_app. left. exact A1.
      * exact A2.
      * intros j t c I Ic. apply in_app_iff in I. destruct I as [I|[I|[]]]; [eapply A3; eassumption|].
        injection I as <- <-. destruct sn; destruct Ic.
      * intros j t I. apply in_app_iff in I. destruct I as [I|[I|[]]]; [eapply A4; exact I|]. injection I as <- <-. destruct sn; discriminate.
      * intros j I. rewrite keys_app in I. apply in_app_iff in I. destruct I as [I|[<-|[]]]; [apply to_world_app, A5; exact I|].
        eapply up_to_world; [|exact Nw|].
        { rewrite get_app. cbn [fst]. rewrite (proj2 (get_None _ _ _) Fr). simpl. rewrite String.eqb_refl. reflexivity. }
        { destruct sn; constructor. }
      * intros j t I R. apply in_app_iff in I. destruct I as [I|[I|[]]]; [eapply A6; eassumption|]. injection I as <- <-. destruct sn; discriminate.
      * intros n r S. assert (V : recorder_valid (keys (d_nodes d)) r).
        { apply (A7 n r). destruct S as [S|[S1 (j & t & l & I & R & S2)]]; [left; exact S|]. right. split; [exact S1|].
          simpl in I. apply in_app_iff in I. destruct I as [I|[I|[]]]; [exists j, t, l; auto|]. injection I as <- <-. destruct sn; discriminate. }
        destruct V as [V1 V2]. split; [|exact V2]. rewrite keys_app. apply in_or_app. left. exact V1.
  - (* add-recorder *)
    destruct (has node (d_nodes d)) eqn:Hn; [|discriminate]. apply has_keys in Hn.
    destruct (C60_unique_name (keys (doc_recorders d)) (node ++ "-escaping")%string) as (k & Ek & _). rewrite Ek in H. injection H as <-.
    split; [split; [exact Wc|]; split; [exact Wn|]; apply NoDup_put; exact Wr|]. split; [exact P|].
    apply put_recorder_acceptable; [exact W|exact A|]. split; [exact Hn|]. constructor; [|constructor]. simpl. split; [tauto|]. split; [lra|lia].
  - (* add-face-recorders *)
    destruct (get node (d_nodes d)) as [[[[size| | |] m|] pa lo di re]|] eqn:Gn; try discriminate.
    assert (Ps : Forall (fun x => (0 < x)%R) size) by (eapply P; [apply get_In; exact Gn|reflexivity]).
    destruct (le_lt_dec 3 (List.length size)) as [L|L];
      [|rewrite (faces_map_short _ (fun label facet p => (recorder_name node label, RecSpec node Escaping (Some facet) None [p])) size L) in H; discriminate].
    destruct size as [|a [|b [|c rest]]]; simpl in L; try lia.
    rewrite (faces_map _ (fun label facet p => (recorder_name node label, RecSpec node Escaping (Some facet) None [p])) a b c rest) in H.
    pose (l := map (fun '(label, facet, p) => (recorder_name node label, RecSpec node Escaping (Some facet) None [p])) (box_faces a b c)).
    assert (E : d' = Doc (d_components d) (d_nodes d) (Some (merge (doc_recorders d) l))) by (injection H as <-; reflexivity).
    clear H. subst d'.
    assert (Nl : NoDup (keys l)).
    { change (keys l) with (map (recorder_name node) ["top"; "bottom"; "east"; "west"; "north"; "south"]).
      apply NoDup_map_inj; [|repeat constructor; simpl; intuition discriminate].
      intros x y Hx Hy E. apply (recorder_name_inj node x node y); [apply auto_labels_no_dash; simpl in *; tauto|apply auto_labels_no_dash; simpl in *; tauto|exact E]. }
    destruct (merge_spec _ l (doc_recorders d) Nl Wr) as [M1 M2].
    split; [split; [exact Wc|]; split; [exact Wn|exact M1]|]. split; [exact P|].
    destruct A as [A1 A2 A3 A4 A5 A6 A7]. constructor; try assumption. cbn [d_nodes]. intros n r S.
    assert (S' : source d n r \/ In (n, r) l).
    { destruct S as [S|[S1 S2]]; unfold doc_recorders at 1 in S || unfold doc_recorders at 1 in S1; cbn [d_recorders] in *.
      - apply M2 in S. destruct S as [S|[_ S]]; [left; left; exact S|right; exact S].
      - left. right. split; [|exact S2]. intro I. apply S1. apply keys_get in I. destruct I as (w & I). apply get_In in I.
        eapply In_keys. apply M2. left. exact I. }
    destruct S' as [S'|I]; [apply (A7 n r S')|].
    inversion Ps as [|? ? Pa P1]; subst. inversion P1 as [|? ? Pb P2]; subst. inversion P2 as [|? ? Pc P3]; subst.
    assert (VF : forall u v su sv, (0 < su)%R -> (0 < sv)%R -> hist_valid (face_hist u v su sv)).
    { intros u v su sv Hu Hv. unfold face_hist. cbn [hist_valid]. pose proof (auto_bins_range su). pose proof (auto_bins_range sv).
      repeat split; try apply axis_known; try lra; lia. }
    assert (Nn : In node (keys (d_nodes d))) by (eapply In_keys, get_In; exact Gn).
    unfold l in I. simpl in I.
    repeat (destruct I as [I|I]; [injection I as <- <-; split; [exact Nn|]; cbn [rs_hists]; repeat (apply Forall_cons; [solve [auto]|]); apply Forall_nil|]). destruct I.
  - (* add-component *)
    destruct (C60_unique_name (keys (doc_components d)) "absorber") as (k & Ek & _ & Fr & _). rewrite Ek in H. injection H as <-.
    destruct A as [A1 A2 A3 A4 A5 A6 A7].
    split; [split; [apply NoDup_put; exact Wc|]; split; [exact Wn|exact Wr]|]. split; [exact P|]. constructor; try assumption; unfold doc_components; cbn [d_components d_nodes].
    + intros j c I. apply In_put in I; [|exact Wc]. destruct I as [[-> ->]|[_ I]]; [|eapply A2; exact I].
      simpl. unfold parse_absorber, build, truthy. simpl. rewrite (proj2 (Reqb_false 1 0)) by lra. discriminate.
    + intros j t c I Ic. apply keys_put_iff. right. eapply A3; eassumption.
  - (* update-recorder *)
    destruct (get name (doc_recorders d)) as [r|] eqn:Gr.
    + injection H as <-. split; [split; [exact Wc|]; split; [exact Wn|]; apply NoDup_put; exact Wr|]. split; [exact P|].
      apply put_recorder_acceptable; [exact W|exact A|]. apply (acc_recorders d A name r). left. apply get_In. exact Gr.
    + destruct (recorder_to_spec (Some s) name) as [r|] eqn:Er; [|discriminate]. injection H as <-.
      split; [split; [exact Wc|]; split; [exact Wn|]; apply NoDup_put; exact Wr|]. split; [exact P|].
      apply put_recorder_acceptable; [exact W|exact A|]. apply (acc_recorders d A name r). eapply materialised; eassumption.
  - (* delete-component *)
    pose proof (C61_delete_component (Some s) d d' name H) as (_ & D2 & D3 & _).
    destruct (has name (doc_components d)); [|discriminate]. injection H as <-. unfold doc_components in *. cbn [d_components d_nodes] in *.
    assert (Kn : keys (map (fun '(k, s0) => (k, drop_component name s0)) (d_nodes d)) = keys (d_nodes d)) by apply keys_map_val.
    split; [|split].
    + split; [apply NoDup_filter_keys; exact Wc|]. split; [simpl; rewrite Kn; exact Wn|exact Wr].
    + intros k t size m I E. simpl in I. apply In_map_val in I. destruct I as (t0 & I & ->). unfold drop_component in E.
      destruct (ns_body t0) as [sh mt|] eqn:Eb; [|congruence]. destruct (mem_str _ _); [|eapply P; [exact I|exact E]].
      simpl in E. injection E as -> _. eapply P; [exact I|exact Eb].
    + destruct A as [A1 A2 A3 A4 A5 A6 A7]. constructor; unfold doc_components in *; cbn [d_components d_nodes] in *; try rewrite Kn.
      * exact A1.
      * intros k c I. apply In_remove in I. eapply A2. apply I.
      * intros k t c I Ic. pose proof (D2 k t I) as Nc. apply In_map_val in I. destruct I as (t0 & I & ->).
        pose proof (drop_names _ _ _ Ic) as [Ic' Nn]. apply D3; [eapply A3; eassumption|exact Nn].
      * intros k t I E. apply In_map_val in I. destruct I as (t0 & I & ->). apply drop_light in E. eapply A4; eassumption.
      * intros k I. specialize (A5 k I). clear - A5. induction A5 as [|k t G N T IH]; [constructor|].
        eapply up_to_world; [rewrite get_map_val, G; reflexivity|exact N|]. rewrite drop_parent. exact IH.
      * intros k t I R. apply In_map_val in I. destruct I as (t0 & I & ->). rewrite drop_auto. rewrite drop_record in R. eapply A6; eassumption.
      * intros n r S. apply (A7 n r). destruct S as [S|[S1 (k & t & l & I & R & Al & Il)]]; [left; exact S|]. right. split; [exact S1|].
        simpl in I. apply In_map_val in I. destruct I as (t0 & I & ->). rewrite drop_auto in Al. rewrite drop_record in R. exists k, t0, l. auto.
  - (* delete-recorder *)
    destruct (has name (doc_recorders d)); [|discriminate]. injection H as <-.
    split; [split; [exact Wc|]; split; [exact Wn|]; apply NoDup_filter_keys; exact Wr|]. split; [exact P|].
    destruct A as [A1 A2 A3 A4 A5 A6 A7]. constructor; try assumption. cbn [d_nodes]. intros n r S.
    destruct S as [S|[_ S]].
    + unfold doc_recorders in S at 1. cbn [d_recorders] in S. apply In_remove in S. apply (A7 n r). left. apply S.
    + apply (auto_valid d n r W P S).
Qed.
Print Assumptions C81_edits_accepted.

(** ** C83 *)
(** Editing a recorder changes that recorder only; an automatic recorder is first copied into the
    document with the same meaning, so that no other recorder of the node changes or disappears. *)
Definition changed (ev : option selector) (fc : option (option (list R))) (at_ : option R) (m : made_recorder) : made_recorder :=
  MadeRec (mr_name m) (match ev with Some e => e | None => mr_event m end) (match fc with Some f => f | None => mr_facet m end)
          (match at_ with Some a => a | None => mr_atol m end) (mr_hists m).
Theorem C83_update_recorder : forall d s name ev fc at_ d' s', wf_doc d -> parse_document d = Some s ->
  apply_edit (Some s) (UpdateRecorder name ev fc at_) d = Some d' -> parse_document d' = Some s' ->
  ps_parents s' = ps_parents s /\ ps_nodes s' = ps_nodes s /\
  forall k m, In (k, m) (ps_recorders s') <->
    (In (k, m) (ps_recorders s) /\ mr_name m <> name) \/
    (exists m0, In (k, m0) (ps_recorders s) /\ mr_name m0 = name /\ m = changed ev fc at_ m0).
Proof.
  intros d s name ev fc at_ d' s' W Hs H Hs'. cbn [apply_edit] in H.
  assert (G : exists r, source d name r /\ d' = Doc (d_components d) (d_nodes d) (Some (put name (update_recorder r ev fc at_) (doc_recorders d)))).
  { destruct (get name (doc_recorders d)) as [r|] eqn:Gr.
    - injection H as <-. exists r. split; [left; apply get_In; exact Gr|reflexivity].
    - destruct (recorder_to_spec (Some s) name) as [r|] eqn:Er; [|discriminate]. injection H as <-. exists r.
      split; [eapply materialised; eassumption|reflexivity]. }
  destruct G as (r0 & S0 & E). clear H. pose proof W as (Wc & Wn & Wr).
  assert (W' : wf_doc d') by (subst d'; split; [exact Wc|]; split; [exact Wn|]; apply NoDup_put; exact Wr).
  destruct (C56_recorders d s W Hs) as (_ & R1 & _ & R2). destruct (C56_recorders d' s' W' Hs') as (_ & R1' & _ & _).
  pose proof Hs as Ps. pose proof Hs' as Ps'. apply parse_inv in Ps, Ps'.
  destruct Ps as (cm & sp & [P1 P2 P3 P4 P5 P6]), Ps' as (cm' & sp' & [Q1 Q2 Q3 Q4 Q5 Q6]).
  assert (Ecm : cm' = cm) by (subst d'; unfold parse_components, doc_components in P2, Q2; cbn [d_components] in Q2; congruence).
  split; [subst d'; cbn [d_nodes] in Q4; congruence|]. split; [subst d' cm'; cbn [d_nodes] in Q3; congruence|].
  assert (Sp : forall n r, source d' n r <-> (n = name /\ r = update_recorder r0 ev fc at_) \/ (n <> name /\ source d n r))
    by (intros n r; subst d'; apply put_source; exact W).
  assert (Mean : forall r m0, recorder_means name r m0 -> recorder_means name (update_recorder r ev fc at_) (changed ev fc at_ m0)).
  { intros r m0 (M1 & M2 & M3 & M4 & M5). unfold recorder_means, changed, update_recorder. simpl.
    split; [exact M1|]. split; [destruct ev; auto|]. split; [destruct fc; auto|]. split; [destruct at_; auto|exact M5]. }
  intros k m. rewrite R1'. split.
  - intros (r & S & -> & M). apply Sp in S. destruct S as [[En ->]|[N S]].
    + right. destruct (R2 name r0 S0) as (m0 & I0 & M0). exists m0. split; [exact I0|]. split; [apply M0|].
      rewrite En in M. eapply recorder_means_fun; [exact M|]. apply Mean. exact M0.
    + left. split; [|exact N]. apply R1. exists r. auto.
  - intros [[I N]|(m0 & I & En & ->)].
    + apply R1 in I. destruct I as (r & S & -> & M). exists r. split; [apply Sp; right; auto|]. auto.
    + apply R1 in I. destruct I as (r & S & -> & M). rewrite En in *.
      assert (Er : r = r0).
      { destruct (all_recorders_spec d sp W P5) as [Nsp As]. apply As in S, S0. pose proof (In_get _ _ _ _ Nsp S). pose proof (In_get _ _ _ _ Nsp S0). congruence. }
      subst r0. exists (update_recorder r ev fc at_). change (mr_name (changed ev fc at_ m0)) with (mr_name m0). rewrite En.
      split; [apply Sp; left; auto|]. split; [reflexivity|]. apply Mean. exact M.
Qed.
Print Assumptions C83_update_recorder.
(** An automatic recorder of a sphere switched from escaping to reflected. *)
Definition recorded_ball : document :=
  Doc None [("world", ball None); ("a", NodeSpec (Geometry (SSphere 1) (MatSpec 1 None)) None None None true)] None.
Lemma recorded_ball_parses : exists s, parse_document recorded_ball = Some s /\
  ps_recorders s = [("a", MadeRec "a-lost" Lost None (/ 10 ^ 6)%R [H1 (Histogram PWavelength 300 1000 100)]);
                    ("a", MadeRec "a-escaping" Escaping None (/ 10 ^ 6)%R [H1 (Histogram PWavelength 300 1000 100); H1 (Histogram PAngle 0 (15708 / 10000) 18)])].
Proof.
  eexists. split.
  - unfold parse_document, recorded_ball. cbn -[mk_histogram]. unfold parse_recorder. cbn -[mk_histogram]. unfold mk_histogram. cbn. rdec. reflexivity.
  - reflexivity.
Qed.
Example reflected_instead : exists s d', parse_document recorded_ball = Some s /\
  apply_edit (Some s) (UpdateRecorder "a-escaping" (Some Reflected) None None) recorded_ball = Some d' /\
  map fst (doc_recorders d') = ["a-escaping"].
Proof.
  destruct recorded_ball_parses as (s & E & R). exists s. eexists. split; [exact E|]. unfold apply_edit, recorder_to_spec. rewrite R.
  split; reflexivity.
Qed.
Lemma face_recorders_eq : forall sc d node a b c rest m pa lo di re,
  get node (d_nodes d) = Some (NodeSpec (Geometry (SBox (a :: b :: c :: rest)) m) pa lo di re) ->
  apply_edit sc (AddFaceRecorders node) d = Some (Doc (d_components d) (d_nodes d) (Some (merge (doc_recorders d)
    (map (fun '(label, facet, p) => (recorder_name node label, RecSpec node Escaping (Some facet) None [p])) (box_faces a b c))))).
Proof.
  intros sc d node a b c rest m pa lo di re G. unfold apply_edit. rewrite G.
  rewrite (faces_map _ (fun label facet p => (recorder_name node label, RecSpec node Escaping (Some facet) None [p])) a b c rest). reflexivity.
Qed.
(** Adding a box, a component and face recorders to that document is accepted. *)
Example additions : exists s d1 d2, parse_document recorded_ball = Some s /\
  apply_edit (Some s) (AddNode SnBox) recorded_ball = Some d1 /\ keys (d_nodes d1) = ["world"; "a"; "box-1"] /\
  apply_edit None (AddFaceRecorders "box-1") d1 = Some d2 /\
  keys (doc_recorders d2) = ["box-1-top"; "box-1-bottom"; "box-1-east"; "box-1-west"; "box-1-north"; "box-1-south"].
Proof.
  destruct recorded_ball_parses as (s & E & _). exists s. eexists. eexists. split; [exact E|]. split; [reflexivity|]. split; [reflexivity|].
  split; [apply (face_recorders_eq _ _ "box-1" 1 1 1 [] glass_spec None (Some [0; 0; 0]%R) None false); reflexivity|reflexivity].
Qed.
