(** Lemmas about edits of documents (InspectModel.v). *)
From Coq Require Import Reals ZArith List Bool Arith String Lia.
From Verif Require Import Base DistModel SpecModel SpecProofs LightModel InspectModel.
Import ListNotations.
Open Scope list_scope.
Open Scope nat_scope.
Open Scope string_scope.

(** ** Dicts *)
Definition valued {A B} (f : A -> option B) (ky : string * A) : option (string * B) := option_map (pair (fst ky)) (f (snd ky)).
Lemma valued_put : forall A B (f : A -> option B) k v w d r, map_opt (valued f) d = Some r -> f v = Some w ->
  map_opt (valued f) (put k v d) = Some (put k w r).
Proof.
  intros A B f k v w d. induction d as [|[k' v'] d IH]; intros r H Hv.
  - injection H as <-. simpl. unfold valued. simpl. rewrite Hv. reflexivity.
  - cbn [map_opt] in H. unfold valued at 1 in H. simpl in H. destruct (f v') as [w'|] eqn:E; [|discriminate H]. simpl in H.
    destruct (map_opt (valued f) d) as [r'|] eqn:Ed; [|discriminate H]. injection H as <-.
    cbn [put]. destruct (String.eqb k' k) eqn:Ek; cbn [map_opt]; unfold valued at 1; simpl.
    + rewrite Hv. simpl. rewrite Ed. reflexivity.
    + rewrite E. simpl. rewrite (IH r' eq_refl Hv). reflexivity.
Qed.
Lemma valued_get : forall A B (f : A -> option B) k d r, map_opt (valued f) d = Some r ->
  match get k r with
  | Some w => exists v, get k d = Some v /\ f v = Some w
  | None => get k d = None
  end.
Proof.
  intros A B f k d. induction d as [|[k' v'] d IH]; intros r H.
  - injection H as <-. reflexivity.
  - cbn [map_opt] in H. unfold valued at 1 in H. simpl in H. destruct (f v') as [w'|] eqn:E; [|discriminate H]. simpl in H.
    destruct (map_opt (valued f) d) as [r'|] eqn:Ed; [|discriminate H]. injection H as <-.
    cbn [get]. destruct (String.eqb k' k); [eauto|]. exact (IH r' eq_refl).
Qed.
Lemma map_opt_map : forall A B C (f : B -> option C) (g : A -> B) (h : A -> C) l, (forall x, f (g x) = Some (h x)) ->
  map_opt f (map g l) = Some (map h l).
Proof. intros A B C f g h l H. induction l as [|x l IH]; [reflexivity|]. simpl. rewrite H, IH. reflexivity. Qed.

Section Update.
Variable load : string -> yaml -> loaded.
Variable recorders_of : yaml -> option (dict recorder_spec).
Variable position_mask_of : yaml -> option (or_point position_mask).
Variable wavelength_mask_of : yaml -> option (or_number wavelength_mask).
Variable float_of : string -> option R.
Notation node_of := (node_of position_mask_of wavelength_mask_of float_of).
Notation light_of := (light_of position_mask_of wavelength_mask_of float_of).
Notation component_of := (component_of load).
Notation document_of := (document_of load recorders_of position_mask_of wavelength_mask_of float_of).

Lemma document_inv : forall y D, document_of y = Some D -> exists d nd,
  y = YMap d /\ get "nodes" d = Some (YMap nd) /\ map_opt (valued node_of) nd = Some (d_nodes D) /\
  match d_components D with
  | None => get "components" d = None
  | Some c => exists cd, get "components" d = Some (YMap cd) /\ map_opt (valued component_of) cd = Some c
  end /\
  entry recorders_of "recorders" d = Some (d_recorders D).
Proof.
  intros y D H. unfold document_of, mapping in H. destruct y as [|l|d]; try discriminate H.
  destruct (entry (entries component_of) "components" d) as [c|] eqn:Ec; [|discriminate H].
  destruct (needed (entries node_of) "nodes" d) as [n|] eqn:En; [|discriminate H].
  destruct (entry recorders_of "recorders" d) as [r|] eqn:Er; [|discriminate H]. injection H as <-.
  unfold needed in En. destruct (get "nodes" d) as [yn|] eqn:Eg; [|discriminate En].
  unfold entries, mapping in En. destruct yn as [|l|nd]; try discriminate En.
  exists d, nd. simpl. repeat split; [exact Eg|exact En| |exact Er].
  unfold entry in Ec. destruct (get "components" d) as [yc|]; [|injection Ec as <-; reflexivity].
  unfold entries, mapping in Ec. destruct yc as [|l|cd]; try discriminate Ec.
  destruct (map_opt _ cd) as [c'|] eqn:E2; [|discriminate Ec]. injection Ec as <-. exists cd. split; [reflexivity|exact E2].
Qed.

(** An edit inside a node *)
Lemma node_update : forall y D name s, document_of y = Some D -> get name (d_nodes D) = Some s ->
  node_of (child name (child "nodes" y)) = Some s /\
  forall rest v n' s', rest <> [] -> set_at rest v (child name (child "nodes" y)) = Some n' -> node_of n' = Some s' ->
  exists y', set_at ("nodes" :: name :: rest) v y = Some y' /\
    document_of y' = Some (Doc (d_components D) (put name s' (d_nodes D)) (d_recorders D)).
Proof.
  intros y D name s H Hs. destruct (document_inv _ _ H) as (d & nd & -> & Hn & Hnd & Hc & Hr).
  pose proof (valued_get _ _ _ name _ _ Hnd) as G. rewrite Hs in G. destruct G as (yn & Gn & Gs).
  assert (Ech : child name (child "nodes" (YMap d)) = yn) by (unfold child; rewrite Hn, Gn; reflexivity).
  rewrite Ech. split; [exact Gs|]. intros rest v n' s' Hrest Hset Hn'.
  exists (YMap (put "nodes" (YMap (put name n' nd)) d)). split.
  - destruct rest as [|k rest]; [contradiction|]. cbn [set_at]. rewrite Hn. rewrite Gn. cbn [set_at] in Hset. rewrite Hset. reflexivity.
  - unfold InspectModel.document_of, mapping, entry, needed, entries, mapping. rewrite !get_put. cbn [String.eqb Ascii.eqb Bool.eqb].
    change (map_opt _ (put name n' nd)) with (map_opt (valued node_of) (put name n' nd)).
    rewrite (valued_put _ _ _ _ _ _ _ _ Hnd Hn').
    unfold entry in Hr. rewrite Hr. destruct (d_components D) as [c|] eqn:Ec.
    + destruct Hc as (cd & -> & Hcd). change (map_opt _ cd) with (map_opt (valued component_of) cd). rewrite Hcd. reflexivity.
    + rewrite Hc. reflexivity.
Qed.
(** An edit inside a component *)
Lemma component_update : forall y D name s, document_of y = Some D -> get name (doc_components D) = Some s ->
  component_of (child name (child "components" y)) = Some s /\
  forall rest v n' s', rest <> [] -> set_at rest v (child name (child "components" y)) = Some n' -> component_of n' = Some s' ->
  exists y', set_at ("components" :: name :: rest) v y = Some y' /\
    document_of y' = Some (Doc (Some (put name s' (doc_components D))) (d_nodes D) (d_recorders D)).
Proof.
  intros y D name s H Hs. destruct (document_inv _ _ H) as (d & nd & -> & Hn & Hnd & Hc & Hr).
  unfold doc_components in *. destruct (d_components D) as [c|] eqn:Ec; [|discriminate Hs].
  destruct Hc as (cd & Hcc & Hcd).
  pose proof (valued_get _ _ _ name _ _ Hcd) as G. rewrite Hs in G. destruct G as (yn & Gn & Gs).
  assert (Ech : child name (child "components" (YMap d)) = yn) by (unfold child; rewrite Hcc, Gn; reflexivity).
  rewrite Ech. split; [exact Gs|]. intros rest v n' s' Hrest Hset Hn'.
  exists (YMap (put "components" (YMap (put name n' cd)) d)). split.
  - destruct rest as [|k rest]; [contradiction|]. cbn [set_at]. rewrite Hcc. rewrite Gn. cbn [set_at] in Hset. rewrite Hset. reflexivity.
  - unfold InspectModel.document_of, mapping, entry, needed, entries, mapping. rewrite !get_put. cbn [String.eqb Ascii.eqb Bool.eqb].
    change (map_opt _ (put name n' cd)) with (map_opt (valued component_of) (put name n' cd)).
    rewrite (valued_put _ _ _ _ _ _ _ _ Hcd Hn'). rewrite Hn.
    change (map_opt _ nd) with (map_opt (valued node_of) nd). rewrite Hnd.
    unfold entry in Hr. rewrite Hr. reflexivity.
Qed.

(** The parts of a node *)
Lemma node_inv : forall n s, node_of n = Some s -> exists d r, n = YMap d /\ body_of position_mask_of wavelength_mask_of float_of d = Some (ns_body s) /\
  parent_entry d = Some (ns_parent s) /\ entry (list_of real_of) "location" d = Some (ns_location s) /\
  entry (list_of real_of) "direction" d = Some (ns_direction s) /\ entry bool_of "record" d = Some r /\
  ns_record s = match r with Some b => b | None => false end.
Proof.
  intros n s H. unfold InspectModel.node_of, mapping in H. destruct n as [|l|d]; try discriminate H.
  destruct (body_of _ _ _ d) as [b|] eqn:Eb; [|discriminate H].
  destruct (parent_entry d) as [p|] eqn:Ep; [|discriminate H].
  destruct (entry (list_of real_of) "location" d) as [l|] eqn:El; [|discriminate H].
  destruct (entry (list_of real_of) "direction" d) as [q|] eqn:Eq; [|discriminate H].
  destruct (entry bool_of "record" d) as [r|] eqn:Er; [|discriminate H]. injection H as <-.
  exists d, r. repeat split; assumption.
Qed.
Lemma node_intro : forall d b p l q r, body_of position_mask_of wavelength_mask_of float_of d = Some b ->
  parent_entry d = Some p -> entry (list_of real_of) "location" d = Some l ->
  entry (list_of real_of) "direction" d = Some q -> entry bool_of "record" d = Some r ->
  node_of (YMap d) = Some (NodeSpec b p l q (match r with Some b => b | None => false end)).
Proof. intros d b p l q r H1 H2 H3 H4 H5. unfold InspectModel.node_of, mapping. rewrite H1, H2, H3, H4, H5. reflexivity. Qed.

Lemma entry_other : forall A (f : yaml -> option A) k j v d, String.eqb k j = false -> entry f j (put k v d) = entry f j d.
Proof. intros A f k j v d H. unfold entry. rewrite get_put, H. reflexivity. Qed.
Lemma entry_same : forall A (f : yaml -> option A) k v d w, f v = Some w -> entry f k (put k v d) = Some (Some w).
Proof. intros A f k v d w H. unfold entry. rewrite get_put, String.eqb_refl, H. reflexivity. Qed.
Lemma needed_other : forall A (f : yaml -> option A) k j v d, String.eqb k j = false -> needed f j (put k v d) = needed f j d.
Proof. intros A f k j v d H. unfold needed. rewrite get_put, H. reflexivity. Qed.
Lemma needed_same : forall A (f : yaml -> option A) k v d, needed f k (put k v d) = f v.
Proof. intros A f k v d. unfold needed. rewrite get_put, String.eqb_refl. reflexivity. Qed.
Lemma parent_other : forall k v d, String.eqb k "parent" = false -> parent_entry (put k v d) = parent_entry d.
Proof. intros k v d H. unfold parent_entry, entry. rewrite get_put, H. reflexivity. Qed.
Lemma body_other : forall k v d, ~ In k ["box"; "cylinder"; "sphere"; "mesh"; "light"] ->
  body_of position_mask_of wavelength_mask_of float_of (put k v d) = body_of position_mask_of wavelength_mask_of float_of d.
Proof.
  intros k v d H. unfold body_of. rewrite !get_put.
  rewrite (proj2 (String.eqb_neq k "box")), (proj2 (String.eqb_neq k "cylinder")), (proj2 (String.eqb_neq k "sphere")),
    (proj2 (String.eqb_neq k "mesh")), (proj2 (String.eqb_neq k "light")); [reflexivity|..]; intros ->; apply H; simpl; auto 6.
Qed.
Lemma numbers_read : forall l, list_of real_of (yaml_of (Many (map Num l))) = Some (map num l).
Proof. intros l. simpl. rewrite map_map. apply map_opt_map. intros x. reflexivity. Qed.
Lemma texts_read : forall l, list_of text_of (yaml_of (Many (map Str l))) = Some l.
Proof. intros l. simpl. rewrite map_map. rewrite (map_opt_map _ _ _ _ _ (fun x => x)); [rewrite map_id; reflexivity|]. intros x. reflexivity. Qed.

(** The geometry and the light of a node whose kinds exclude each other *)
Definition kinds := ["box"; "cylinder"; "sphere"; "mesh"; "light"].
Definition one_kind (n : yaml) : Prop := forall j k, In j kinds -> In k kinds -> present j n = true -> present k n = true -> j = k.
Lemma has_get : forall A k (d : dict A), has k d = false -> get k d = None.
Proof. intros A k d H. unfold has in H. destruct (get k d); [discriminate|reflexivity]. Qed.
Lemma one_kind_only : forall d k, one_kind (YMap d) -> In k kinds -> has k d = true -> forall j, In j kinds -> j <> k -> get j d = None.
Proof.
  intros d k O Hk Pk j Hj N. apply has_get. destruct (has j d) eqn:E; [|reflexivity]. exfalso. apply N. exact (O j k Hj Hk E Pk).
Qed.
Lemma body_kind : forall d k y, one_kind (YMap d) -> In k kinds -> get k d = Some y -> forall e, 
  body_of position_mask_of wavelength_mask_of float_of (put k e d) = 
    if String.eqb k "light" then option_map light_body (light_of e) else geometry_of k e.
Proof.
  intros d k y O Hk G e. assert (P : has k d = true) by (unfold has; rewrite G; reflexivity).
  pose proof (one_kind_only d k O Hk P) as F.
  unfold body_of. simpl in Hk. destruct Hk as [E|[E|[E|[E|[E|[]]]]]]; subst k; rewrite !get_put; cbn [String.eqb Ascii.eqb Bool.eqb]; try reflexivity;
  repeat rewrite F by (simpl; auto 6 || discriminate); reflexivity.
Qed.
Lemma body_kind_now : forall d k y, one_kind (YMap d) -> In k kinds -> get k d = Some y ->
  body_of position_mask_of wavelength_mask_of float_of d = if String.eqb k "light" then option_map light_body (light_of y) else geometry_of k y.
Proof.
  intros d k y O Hk G. assert (P : has k d = true) by (unfold has; rewrite G; reflexivity).
  pose proof (one_kind_only d k O Hk P) as F.
  unfold body_of. simpl in Hk. destruct Hk as [E|[E|[E|[E|[E|[]]]]]]; subst k; cbn [String.eqb Ascii.eqb Bool.eqb];
  repeat rewrite F by (simpl; auto 6 || discriminate); rewrite G; try reflexivity.
Qed.
Lemma geometry_key_in : forall d g, geometry_key (YMap d) = Some g -> In g ["box"; "sphere"; "cylinder"; "mesh"] /\ exists y, get g d = Some y.
Proof.
  intros d g H. unfold geometry_key in H. apply find_some in H. destruct H as [I P]. split; [exact I|].
  unfold present, has in P. destruct (get g d) as [y|]; [eauto|discriminate P].
Qed.
End Update.
