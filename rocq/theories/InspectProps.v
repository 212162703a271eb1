(** C145: an edit in the inspector of the studio changes what the field names and nothing else, and
    a field shows what the scene uses. *)
From Coq Require Import Reals ZArith List Bool Arith String Lia Lra.
From Verif Require Import Base DistModel SpecModel SpecProofs LightModel InspectModel InspectProofs InspectHeap.
Import ListNotations.
Open Scope list_scope.
Open Scope nat_scope.
Open Scope string_scope.

Definition with_body (s : node_spec) (b : body) : node_spec := NodeSpec b (ns_parent s) (ns_location s) (ns_direction s) (ns_record s).
(** The names of the components of a material *)
Definition listed (m : material_spec) : list string := match ms_components m with Some l => l | None => [] end.
Definition set_wavelength (w : R) (l : light_spec) : light_spec :=
  LightSpec (Some w) (ls_mask_wavelength l) (ls_mask_position l) (ls_mask_direction l).
Definition set_cone (a : R) (l : light_spec) : light_spec :=
  LightSpec (ls_wavelength l) (ls_mask_wavelength l) (ls_mask_position l) (Some (Mask (MCone (Some a)))).

(** What each field is for: [light] is the light described in the document *)
Definition node_edited (D : document) (light : option light_spec) (e : node_edit) (s s' : node_spec) : Prop :=
  match e with
  | EParent p => s' = NodeSpec (ns_body s) (Some p) (ns_location s) (ns_direction s) (ns_record s)
  | ELocation l => s' = NodeSpec (ns_body s) (ns_parent s) (Some (map num l)) (ns_direction s) (ns_record s)
  | EDirection l => ns_direction s <> None /\ s' = NodeSpec (ns_body s) (ns_parent s) (ns_location s) (Some (map num l)) (ns_record s)
  | ERecord b => (exists g m, ns_body s = Geometry g m) /\ s' = NodeSpec (ns_body s) (ns_parent s) (ns_location s) (ns_direction s) b
  | ESize l => exists l0 m, ns_body s = Geometry (SBox l0) m /\ s' = with_body s (Geometry (SBox (map num l)) m)
  | ELength x => exists l0 r m, ns_body s = Geometry (SCylinder l0 r) m /\ s' = with_body s (Geometry (SCylinder (num x) r) m)
  | ERadius x => (exists l r0 m, ns_body s = Geometry (SCylinder l r0) m /\ s' = with_body s (Geometry (SCylinder l (num x)) m)) \/
                 (exists r0 m, ns_body s = Geometry (SSphere r0) m /\ s' = with_body s (Geometry (SSphere (num x)) m))
  | EIndex x => exists g m, ns_body s = Geometry g m /\ s' = with_body s (Geometry g (MatSpec (num x) (ms_components m)))
  | EDetach c => exists g m, ns_body s = Geometry g m /\ In c (listed m) /\
      s' = with_body s (Geometry g (MatSpec (ms_index m) (Some (filter (fun k => negb (String.eqb k c)) (listed m)))))
  | EAttach c => exists g m, ns_body s = Geometry g m /\ In c (keys (doc_components D)) /\ ~ In c (listed m) /\
      s' = with_body s (Geometry g (MatSpec (ms_index m) (Some (listed m ++ [c])%list)))
  | EWavelength x => exists l, light = Some l /\ ns_body s = light_body l /\ s' = with_body s (light_body (set_wavelength (num x) l))
  | ECone x => exists l a, light = Some l /\ ls_mask_direction l = Some (Mask (MCone (Some a))) /\ ns_body s = light_body l /\
      s' = with_body s (light_body (set_cone (num x) l))
  end.

Definition one_mask (y : yaml) : Prop := present "cone" y = true -> present "isotropic" y = false /\ present "lambertian" y = false.

Section Edits.
Variable load : string -> yaml -> loaded.
Variable recorders_of : yaml -> option (dict recorder_spec).
Variable position_mask_of : yaml -> option (or_point position_mask).
Variable wavelength_mask_of : yaml -> option (or_number wavelength_mask).
Variable float_of : string -> option R.
Notation node_of := (node_of position_mask_of wavelength_mask_of float_of).
Notation light_of := (light_of position_mask_of wavelength_mask_of float_of).
Notation body_of := (body_of position_mask_of wavelength_mask_of float_of).
Notation component_of := (component_of load).
Notation document_of := (document_of load recorders_of position_mask_of wavelength_mask_of float_of).

(** Setting an entry of the body [k] of a node *)
Lemma kind_edit : forall d s r k y rest v y' b, node_of (YMap d) = Some s -> one_kind (YMap d) -> In k kinds -> get k d = Some y ->
  entry bool_of "record" d = Some r -> ns_record s = match r with Some b => b | None => false end ->
  rest <> [] -> set_at rest v y = Some y' ->
  (if String.eqb k "light" then option_map light_body (light_of y') else geometry_of k y') = Some b ->
  exists n', set_at (k :: rest) v (YMap d) = Some n' /\ node_of n' = Some (with_body s b).
Proof.
  intros d s r k y rest v y' b Hn O Hk G Er Hr Hrest Hset Hb.
  destruct (node_inv _ _ _ _ _ Hn) as (d0 & r0 & E0 & Eb & Ep & El & Eq & Er0 & Hr0). injection E0 as <-.
  exists (YMap (put k y' d)). split.
  - destruct rest as [|k2 rest]; [contradiction|]. cbn [set_at]. rewrite G. cbn [set_at] in Hset. rewrite Hset. reflexivity.
  - unfold with_body. rewrite Hr.
    assert (N : forall j, In j ["parent"; "location"; "direction"; "record"] -> String.eqb k j = false).
    { intros j Hj. apply String.eqb_neq. intros ->. simpl in Hk, Hj.
      destruct Hj as [<-|[<-|[<-|[<-|[]]]]]; destruct Hk as [E|[E|[E|[E|[E|[]]]]]]; discriminate E. }
    apply node_intro.
    + rewrite (body_kind _ _ _ d k y O Hk G). exact Hb.
    + rewrite parent_other by (apply N; simpl; auto). exact Ep.
    + rewrite entry_other by (apply N; simpl; auto). exact El.
    + rewrite entry_other by (apply N; simpl; auto). exact Eq.
    + rewrite entry_other by (apply N; simpl; auto). exact Er.
Qed.
(** Setting an entry of the node itself *)
Lemma geometry_inv : forall g y b, geometry_of g y = Some b -> exists d s m, y = YMap d /\ shape_of g d = Some s /\
  needed material_of "material" d = Some m /\ b = Geometry s m.
Proof.
  intros g y b H. unfold geometry_of, mapping in H. destruct y as [|l|d]; try discriminate H.
  destruct (shape_of g d) as [s|] eqn:E1; [|discriminate H]. destruct (needed material_of "material" d) as [m|] eqn:E2; [|discriminate H].
  injection H as <-. exists d, s, m. auto.
Qed.
Lemma material_inv : forall y m, material_of y = Some m -> exists d, y = YMap d /\ needed real_of "refractive-index" d = Some (ms_index m) /\
  entry (list_of text_of) "components" d = Some (ms_components m).
Proof.
  intros y m H. unfold material_of, mapping in H. destruct y as [|l|d]; try discriminate H.
  destruct (needed real_of "refractive-index" d) as [n|] eqn:En; [|discriminate H].
  destruct (entry (list_of text_of) "components" d) as [c|] eqn:Ec; [|discriminate H]. injection H as <-. exists d. auto.
Qed.
Lemma listed_attached : forall d m, needed material_of "material" d = Some m -> strings_in (child "components" (child "material" (YMap d))) = listed m.
Proof.
  intros d m H. unfold needed in H. unfold child at 2. destruct (get "material" d) as [y|]; [|discriminate H].
  destruct (material_inv _ _ H) as (md & -> & _ & Hc). unfold child, listed. unfold entry in Hc.
  destruct (get "components" md) as [yc|]; [|injection Hc as <-; reflexivity].
  unfold strings_in. destruct (list_of text_of yc) as [l|]; [|discriminate Hc]. injection Hc as <-. reflexivity.
Qed.
Lemma shape_material : forall g v d, String.eqb "material" g = false -> shape_of g (put "material" v d) = shape_of g d.
Proof.
  intros g v d _. unfold shape_of. destruct (String.eqb g "box"); [rewrite needed_other by reflexivity; reflexivity|].
  destruct (String.eqb g "cylinder"); [rewrite !needed_other by reflexivity; reflexivity|].
  destruct (String.eqb g "sphere"); rewrite needed_other by reflexivity; reflexivity.
Qed.
(** Setting an entry of the material *)
Lemma material_edit : forall g y s m k v m', In g ["box"; "sphere"; "cylinder"; "mesh"] -> geometry_of g y = Some (Geometry s m) ->
  (forall md, material_of (YMap md) = Some m -> material_of (YMap (put k v md)) = Some m') ->
  exists y', set_at ["material"; k] v y = Some y' /\ geometry_of g y' = Some (Geometry s m').
Proof.
  intros g y s m k v m' Ig H U. destruct (geometry_inv _ _ _ H) as (d & s0 & m0 & -> & Hs & Hm & E). injection E as <- <-.
  unfold needed in Hm. destruct (get "material" d) as [ym|] eqn:Eg; [|discriminate Hm].
  destruct (material_inv _ _ Hm) as (md & -> & _ & _).
  exists (YMap (put "material" (YMap (put k v md)) d)). split; [cbn [set_at]; rewrite Eg; reflexivity|].
  unfold geometry_of, mapping. rewrite shape_material by (destruct Ig as [<-|[<-|[<-|[<-|[]]]]]; reflexivity).
  rewrite Hs, needed_same, (U md Hm). reflexivity.
Qed.
Lemma light_inv : forall y l, light_of y = Some l -> exists d, y = YMap d /\ entry real_of "wavelength" d = Some (ls_wavelength l).
Proof.
  intros y l H. unfold InspectModel.light_of, mapping in H. destruct y as [|z|d]; try discriminate H.
  destruct (entry real_of "wavelength" d) as [w|] eqn:Ew; [|discriminate H]. exists d. split; [reflexivity|]. rewrite Ew. f_equal.
  destruct (entry _ "mask" d) as [[[[mw mp] md]|]|]; try discriminate H; injection H as <-; reflexivity.
Qed.
Lemma light_wavelength : forall d l x, light_of (YMap d) = Some l ->
  light_of (YMap (put "wavelength" (YScalar (Num x)) d)) = Some (set_wavelength (num x) l).
Proof.
  intros d l x H. unfold InspectModel.light_of, mapping in *. rewrite (entry_same _ _ _ _ _ (num x)) by reflexivity.
  rewrite entry_other by reflexivity.
  destruct (entry real_of "wavelength" d) as [w|]; [|discriminate H].
  destruct (entry _ "mask" d) as [[[[mw mp] md]|]|]; try discriminate H; injection H as <-; reflexivity.
Qed.
Lemma light_cone : forall y l x, light_of y = Some l -> 
  numeric (child "half-angle" (child "cone" (child "direction" (child "mask" y)))) = true ->
  ls_mask_direction l = None \/ (exists p, ls_mask_direction l = Some (PointLike p)) \/
  (exists m, ls_mask_direction l = Some (Mask m) /\ forall a, m <> MCone (Some a)) \/
  (exists a y', ls_mask_direction l = Some (Mask (MCone (Some a))) /\
    set_at ["mask"; "direction"; "cone"; "half-angle"] (YScalar (Num x)) y = Some y' /\ light_of y' = Some (set_cone (num x) l)).
Proof.
  intros y l x H N.
  destruct (ls_mask_direction l) as [[p|m]|] eqn:Ed; [right; left; eauto| |left; reflexivity].
  right. right.
  assert (C : (exists a, m = MCone (Some a)) \/ forall a, m <> MCone (Some a)).
  { destruct m as [| |[a|]|g]; [right; discriminate|right; discriminate|left; eauto|right; discriminate|right; discriminate]. }
  destruct C as [(a & ->)|C]; [|left; eauto]. right.
  unfold InspectModel.light_of, mapping in H. destruct y as [|z|d]; try discriminate H.
  destruct (entry real_of "wavelength" d) as [w|] eqn:Ew; [|discriminate H].
  unfold entry in H. destruct (get "mask" d) as [ym|] eqn:Em; [|injection H as <-; discriminate Ed].
  destruct ym as [|z|md]; try discriminate H.
  destruct (match get "wavelength" md with Some y => option_map Some (wavelength_mask_of y) | None => Some None end) as [mw|] eqn:Ew2; [|discriminate H].
  destruct (match get "position" md with Some y => option_map Some (position_mask_of y) | None => Some None end) as [mp|] eqn:Ep2; [|discriminate H].
  destruct (get "direction" md) as [yd|] eqn:Edd; [|injection H as <-; discriminate Ed].
  destruct (direction_mask_of float_of yd) as [dm|] eqn:Edm; [|discriminate H]. injection H as <-. simpl in Ed. injection Ed as ->.
  destruct yd as [|z|dd]; [discriminate Edm|simpl in Edm; destruct (map_opt real_of z); discriminate Edm|].
  unfold direction_mask_of in Edm. destruct (has "isotropic" dd) eqn:E1; [discriminate Edm|]. destruct (has "lambertian" dd) eqn:E2; [discriminate Edm|].
  destruct (get "cone" dd) as [yc|] eqn:Ec; [|destruct (needed _ _ _); discriminate Edm].
  destruct yc as [|z|cd]; try discriminate Edm.
  exists a. eexists. split; [reflexivity|]. split.
  - cbn [set_at]. rewrite Em, Edd, Ec. reflexivity.
  - unfold InspectModel.light_of, mapping. rewrite (entry_other _ real_of) by reflexivity. rewrite Ew.
    rewrite (entry_same _ _ _ _ _ (mw, mp, Some (Mask (MCone (Some (num x)))))).
    + reflexivity.
    + rewrite !entry_other by reflexivity. unfold entry at 1 2. rewrite Ew2, Ep2.
      rewrite (entry_same _ _ _ _ _ (Mask (MCone (Some (num x))))); [reflexivity|].
      unfold direction_mask_of. unfold has in *. rewrite !get_put. cbn [String.eqb Ascii.eqb Bool.eqb].
      destruct (get "isotropic" dd); [discriminate E1|]. destruct (get "lambertian" dd); [discriminate E2|].
      unfold mapping. rewrite needed_same. reflexivity.
Qed.

(** What the fields of a node's form do.  The kinds of a node and those of a direction mask exclude
    each other in the schema. *)
Lemma node_edit : forall y D name s e path v, document_of y = Some D -> get name (d_nodes D) = Some s ->
  one_kind (child name (child "nodes" y)) -> node_request y name e = Some (path, v) ->
  one_mask (child "direction" (child "mask" (child "light" (child name (child "nodes" y))))) ->
  exists y' s', set_at path (yaml_of v) y = Some y' /\
    document_of y' = Some (Doc (d_components D) (put name s' (d_nodes D)) (d_recorders D)) /\
    node_edited D (light_of (child "light" (child name (child "nodes" y)))) e s s'.
Proof.
  intros y D name s e path v HD Hs O Hreq HC. destruct (node_update _ _ _ _ _ y D name s HD Hs) as (Hn & U).
  assert (Goal1 : exists rest n' s', path = "nodes" :: name :: rest /\ rest <> [] /\
     set_at rest (yaml_of v) (child name (child "nodes" y)) = Some n' /\ node_of n' = Some s' /\
     node_edited D (light_of (child "light" (child name (child "nodes" y)))) e s s').
  2: { destruct Goal1 as (rest & n' & s' & -> & Hrest & Hset & Hn' & He).
       destruct (U rest (yaml_of v) n' s' Hrest Hset Hn') as (y' & Hy & Hd). exists y', s'. auto. }
  unfold node_request in Hreq. set (n := child name (child "nodes" y)) in *.
  assert (HA : forall c, present c (child "components" y) = true -> In c (keys (doc_components D))).
  { intros c P. destruct (document_inv _ _ _ _ _ _ _ HD) as (d & nd & -> & _ & _ & Hc & _).
    unfold child in P. unfold doc_components. destruct (d_components D) as [c0|].
    - destruct Hc as (cd & Ecd & Hcd). rewrite Ecd in P. simpl in P. unfold has in P.
      pose proof (valued_get _ _ _ c _ _ Hcd) as G. destruct (get c c0) as [w|] eqn:Ec; [eapply In_keys, get_In; exact Ec|].
      rewrite G in P. discriminate P.
    - rewrite Hc in P. discriminate P. }
  clearbody n. clear U HD Hs. destruct (node_inv _ _ _ _ _ Hn) as (d & r & -> & Eb & Ep & El & Eq & Er & Hr).
  assert (KE : forall k yk rest y' b, In k kinds -> get k d = Some yk -> rest <> [] -> set_at rest (yaml_of v) yk = Some y' ->
     (if String.eqb k "light" then option_map light_body (light_of y') else geometry_of k y') = Some b ->
     exists n', set_at (k :: rest) (yaml_of v) (YMap d) = Some n' /\ node_of n' = Some (with_body s b)).
  { intros k yk rest y' b Hk G. eapply kind_edit; eauto. }
  assert (GK : forall g, geometry_key (YMap d) = Some g -> exists yg gd sh m, get g d = Some yg /\ yg = YMap gd /\
     In g ["box"; "sphere"; "cylinder"; "mesh"] /\ In g kinds /\ String.eqb g "light" = false /\
     shape_of g gd = Some sh /\ needed material_of "material" gd = Some m /\ ns_body s = Geometry sh m).
  { intros g Hg. destruct (geometry_key_in _ _ Hg) as (Ig & yg & Gg).
    assert (Ik : In g kinds) by (simpl in *; destruct Ig as [E|[E|[E|[E|[]]]]]; auto 6).
    assert (NL : String.eqb g "light" = false) by (simpl in Ig; destruct Ig as [<-|[<-|[<-|[<-|[]]]]]; reflexivity).
    pose proof (body_kind_now position_mask_of wavelength_mask_of float_of d g yg O Ik Gg) as B. rewrite NL, Eb in B. symmetry in B.
    destruct (geometry_inv _ _ _ B) as (gd & sh & m & -> & Hsh & Hm & Eg). exists (YMap gd), gd, sh, m. repeat (split; [assumption || reflexivity|]). exact Eg. }
  destruct e as [p|l|l|l|x|x|x|c|c|b|x|x].
  - destruct (String.eqb name "world"); [discriminate Hreq|]. injection Hreq as <- <-.
    exists ["parent"], (YMap (put "parent" (YScalar (Str p)) d)). eexists. split; [reflexivity|]. split; [discriminate|]. split; [reflexivity|].
    split; [|reflexivity]. rewrite Hr. apply node_intro.
    + rewrite body_other by (simpl; intuition discriminate). exact Eb.
    + unfold parent_entry. rewrite get_put, String.eqb_refl. apply entry_same. reflexivity.
    + rewrite entry_other by reflexivity. exact El.
    + rewrite entry_other by reflexivity. exact Eq.
    + rewrite entry_other by reflexivity. exact Er.
  - destruct (String.eqb name "world"); [discriminate Hreq|]. injection Hreq as <- <-.
    exists ["location"]. eexists. eexists. split; [reflexivity|]. split; [discriminate|]. split; [reflexivity|].
    split; [|reflexivity]. rewrite Hr. apply node_intro.
    + rewrite body_other by (simpl; intuition discriminate). exact Eb.
    + rewrite parent_other by reflexivity. exact Ep.
    + apply entry_same. apply numbers_read.
    + rewrite entry_other by reflexivity. exact Eq.
    + rewrite entry_other by reflexivity. exact Er.
  - destruct (String.eqb name "world"); [discriminate Hreq|]. simpl present in Hreq. destruct (has "direction" d) eqn:Eh; [|discriminate Hreq]. injection Hreq as <- <-.
    exists ["direction"]. eexists. eexists. split; [reflexivity|]. split; [discriminate|]. split; [reflexivity|].
    split; [|split; [|reflexivity]]. 
    + rewrite Hr. apply node_intro.
      * rewrite body_other by (simpl; intuition discriminate). exact Eb.
      * rewrite parent_other by reflexivity. exact Ep.
      * rewrite entry_other by reflexivity. exact El.
      * apply entry_same. apply numbers_read.
      * rewrite entry_other by reflexivity. exact Er.
    + intros Z. rewrite Z in Eq. unfold entry in Eq. unfold has in Eh. destruct (get "direction" d) as [yd|]; [|discriminate Eh].
      destruct (list_of real_of yd); discriminate Eq.
  - destruct (geometry_key (YMap d)) as [g|] eqn:Eg; [|discriminate Hreq].
    destruct (GK g eq_refl) as (yg & gd & sh & m & Gg & -> & Ig & Ik & NL & Hsh & Hm & HB).
    simpl in Ig. destruct Ig as [<-|[<-|[<-|[<-|[]]]]]; try discriminate Hreq. injection Hreq as <- <-.
    unfold shape_of in Hsh. simpl in Hsh. destruct (needed (list_of real_of) "size" gd) as [l0|]; [|discriminate Hsh]. injection Hsh as <-.
    destruct (KE "box" (YMap gd) ["size"] (YMap (put "size" (yaml_of (Many (map Num l))) gd)) (Geometry (SBox (map num l)) m) Ik Gg ltac:(discriminate) eq_refl) as (n' & Hset & Hn').
    { cbn [String.eqb Ascii.eqb Bool.eqb]. unfold geometry_of, mapping, shape_of. cbn [String.eqb Ascii.eqb Bool.eqb].
      rewrite needed_same, numbers_read, needed_other, Hm by reflexivity. reflexivity. }
    exists ["box"; "size"], n'. eexists. split; [reflexivity|]. split; [discriminate|]. split; [exact Hset|]. split; [exact Hn'|].
    exists l0, m. auto.
  - destruct (geometry_key (YMap d)) as [g|] eqn:Eg; [|discriminate Hreq].
    destruct (GK g eq_refl) as (yg & gd & sh & m & Gg & -> & Ig & Ik & NL & Hsh & Hm & HB).
    simpl in Ig. destruct Ig as [<-|[<-|[<-|[<-|[]]]]]; try discriminate Hreq. injection Hreq as <- <-.
    unfold shape_of in Hsh. simpl in Hsh. destruct (needed real_of "length" gd) as [l0|]; [|discriminate Hsh].
    destruct (needed real_of "radius" gd) as [r0|] eqn:Er0; [|discriminate Hsh]. injection Hsh as <-.
    destruct (KE "cylinder" (YMap gd) ["length"] (YMap (put "length" (YScalar (Num x)) gd)) (Geometry (SCylinder (num x) r0) m) Ik Gg ltac:(discriminate) eq_refl) as (n' & Hset & Hn').
    { cbn [String.eqb Ascii.eqb Bool.eqb]. unfold geometry_of, mapping, shape_of. cbn [String.eqb Ascii.eqb Bool.eqb].
      rewrite needed_same, !needed_other, Hm, Er0 by reflexivity. reflexivity. }
    exists ["cylinder"; "length"], n'. eexists. split; [reflexivity|]. split; [discriminate|]. split; [exact Hset|]. split; [exact Hn'|].
    exists l0, r0, m. auto.
  - destruct (geometry_key (YMap d)) as [g|] eqn:Eg; [|discriminate Hreq].
    destruct (GK g eq_refl) as (yg & gd & sh & m & Gg & -> & Ig & Ik & NL & Hsh & Hm & HB).
    simpl in Ig. destruct Ig as [<-|[<-|[<-|[<-|[]]]]]; try discriminate Hreq; injection Hreq as <- <-.
    + unfold shape_of in Hsh. simpl in Hsh. destruct (needed real_of "radius" gd) as [r0|] eqn:Er0; [|discriminate Hsh]. injection Hsh as <-.
      destruct (KE "sphere" (YMap gd) ["radius"] (YMap (put "radius" (YScalar (Num x)) gd)) (Geometry (SSphere (num x)) m) Ik Gg ltac:(discriminate) eq_refl) as (n' & Hset & Hn').
      { cbn [String.eqb Ascii.eqb Bool.eqb]. unfold geometry_of, mapping, shape_of. cbn [String.eqb Ascii.eqb Bool.eqb].
        rewrite needed_same, !needed_other, Hm by reflexivity. reflexivity. }
      exists ["sphere"; "radius"], n'. eexists. split; [reflexivity|]. split; [discriminate|]. split; [exact Hset|]. split; [exact Hn'|].
      right. exists r0, m. auto.
    + unfold shape_of in Hsh. simpl in Hsh. destruct (needed real_of "length" gd) as [l0|] eqn:El0; [|discriminate Hsh].
      destruct (needed real_of "radius" gd) as [r0|] eqn:Er0; [|discriminate Hsh]. injection Hsh as <-.
      destruct (KE "cylinder" (YMap gd) ["radius"] (YMap (put "radius" (YScalar (Num x)) gd)) (Geometry (SCylinder l0 (num x)) m) Ik Gg ltac:(discriminate) eq_refl) as (n' & Hset & Hn').
      { cbn [String.eqb Ascii.eqb Bool.eqb]. unfold geometry_of, mapping, shape_of. cbn [String.eqb Ascii.eqb Bool.eqb].
        rewrite needed_same, !needed_other, Hm, El0 by reflexivity. reflexivity. }
      exists ["cylinder"; "radius"], n'. eexists. split; [reflexivity|]. split; [discriminate|]. split; [exact Hset|]. split; [exact Hn'|].
      left. exists l0, r0, m. auto.
  - destruct (geometry_key (YMap d)) as [g|] eqn:Eg; [|discriminate Hreq].
    destruct (GK g eq_refl) as (yg & gd & sh & m & Gg & -> & Ig & Ik & NL & Hsh & Hm & HB). injection Hreq as <- <-.
    destruct (material_edit g (YMap gd) sh m "refractive-index" (YScalar (Num x)) (MatSpec (num x) (ms_components m)) Ig) as (y' & Hset1 & Hg').
    { unfold geometry_of, mapping. rewrite Hsh, Hm. reflexivity. }
    { intros md Hmd. destruct (material_inv _ _ Hmd) as (md0 & E0 & H1 & H2). injection E0 as <-.
      unfold material_of, mapping. rewrite needed_same, entry_other, H2 by reflexivity. reflexivity. }
    destruct (KE g (YMap gd) ["material"; "refractive-index"] y' (Geometry sh (MatSpec (num x) (ms_components m))) Ik Gg ltac:(discriminate) Hset1) as (n' & Hset & Hn').
    { rewrite NL. exact Hg'. }
    exists [g; "material"; "refractive-index"], n'. eexists. split; [reflexivity|]. split; [discriminate|]. split; [exact Hset|]. split; [exact Hn'|].
    exists sh, m. auto.
  - destruct (geometry_key (YMap d)) as [g|] eqn:Eg; [|discriminate Hreq].
    destruct (GK g eq_refl) as (yg & gd & sh & m & Gg & -> & Ig & Ik & NL & Hsh & Hm & HB).
    assert (HL : attached (YMap d) g = listed m) by (unfold attached, child at 3; rewrite Gg; apply listed_attached; exact Hm).
    rewrite HL in Hreq. destruct (mem_str c (listed m)) eqn:Ec; [|discriminate Hreq]. injection Hreq as <- <-. apply mem_str_In in Ec.
    set (l' := filter (fun k => negb (String.eqb k c)) (listed m)) in *.
    destruct (material_edit g (YMap gd) sh m "components" (yaml_of (Many (map Str l'))) (MatSpec (ms_index m) (Some l')) Ig) as (y' & Hset1 & Hg').
    { unfold geometry_of, mapping. rewrite Hsh, Hm. reflexivity. }
    { intros md Hmd. destruct (material_inv _ _ Hmd) as (md0 & E0 & H1 & H2). injection E0 as <-.
      unfold material_of, mapping. rewrite needed_other, H1 by reflexivity. rewrite (entry_same _ _ _ _ _ l') by apply texts_read. reflexivity. }
    destruct (KE g (YMap gd) ["material"; "components"] y' (Geometry sh (MatSpec (ms_index m) (Some l'))) Ik Gg ltac:(discriminate) Hset1) as (n' & Hset & Hn').
    { rewrite NL. exact Hg'. }
    exists [g; "material"; "components"], n'. eexists. split; [reflexivity|]. split; [discriminate|]. split; [exact Hset|]. split; [exact Hn'|].
    exists sh, m. auto.
  - destruct (geometry_key (YMap d)) as [g|] eqn:Eg; [|discriminate Hreq].
    destruct (GK g eq_refl) as (yg & gd & sh & m & Gg & -> & Ig & Ik & NL & Hsh & Hm & HB).
    assert (HL : attached (YMap d) g = listed m) by (unfold attached, child at 3; rewrite Gg; apply listed_attached; exact Hm).
    rewrite HL in Hreq. destruct (present c (child "components" y) && negb (mem_str c (listed m))) eqn:Ec; [|discriminate Hreq]. injection Hreq as <- <-.
    apply andb_true_iff in Ec. destruct Ec as [Ec1 Ec2]. apply negb_true_iff, mem_str_not in Ec2.
    set (l' := (listed m ++ [c])%list) in *.
    destruct (material_edit g (YMap gd) sh m "components" (yaml_of (Many (map Str l'))) (MatSpec (ms_index m) (Some l')) Ig) as (y' & Hset1 & Hg').
    { unfold geometry_of, mapping. rewrite Hsh, Hm. reflexivity. }
    { intros md Hmd. destruct (material_inv _ _ Hmd) as (md0 & E0 & H1 & H2). injection E0 as <-.
      unfold material_of, mapping. rewrite needed_other, H1 by reflexivity. rewrite (entry_same _ _ _ _ _ l') by apply texts_read. reflexivity. }
    destruct (KE g (YMap gd) ["material"; "components"] y' (Geometry sh (MatSpec (ms_index m) (Some l'))) Ik Gg ltac:(discriminate) Hset1) as (n' & Hset & Hn').
    { rewrite NL. exact Hg'. }
    exists [g; "material"; "components"], n'. eexists. split; [reflexivity|]. split; [discriminate|]. split; [exact Hset|]. split; [exact Hn'|].
    exists sh, m. auto 6.
  - destruct (geometry_key (YMap d)) as [g|] eqn:Eg; [|discriminate Hreq].
    destruct (GK g eq_refl) as (yg & gd & sh & m & Gg & -> & Ig & Ik & NL & Hsh & Hm & HB).
    destruct (String.eqb name "world"); [discriminate Hreq|]. injection Hreq as <- <-.
    exists ["record"]. eexists. eexists. split; [reflexivity|]. split; [discriminate|]. split; [reflexivity|].
    split; [|split; [exists sh, m; exact HB|reflexivity]].
    apply (node_intro _ _ _ _ _ _ _ _ (Some b)).
    + rewrite body_other by (simpl; intuition discriminate). exact Eb.
    + rewrite parent_other by reflexivity. exact Ep.
    + rewrite entry_other by reflexivity. exact El.
    + rewrite entry_other by reflexivity. exact Eq.
    + apply entry_same. reflexivity.
  - simpl present in Hreq. destruct (has "light" d) eqn:Eh; [|discriminate Hreq]. injection Hreq as <- <-.
    unfold has in Eh. destruct (get "light" d) as [yl|] eqn:Gl; [|discriminate Eh].
    assert (Ik : In "light" kinds) by (simpl; auto 6).
    pose proof (body_kind_now position_mask_of wavelength_mask_of float_of d "light" yl O Ik Gl) as B. simpl in B. rewrite Eb in B.
    destruct (light_of yl) as [l|] eqn:Hl; [|discriminate B]. injection B as B.
    destruct (light_inv _ _ Hl) as (ld & -> & _).
    destruct (KE "light" (YMap ld) ["wavelength"] (YMap (put "wavelength" (YScalar (Num x)) ld)) (light_body (set_wavelength (num x) l)) Ik Gl ltac:(discriminate) eq_refl) as (n' & Hset & Hn').
    { cbn [String.eqb Ascii.eqb Bool.eqb]. rewrite (light_wavelength _ _ _ Hl). reflexivity. }
    exists ["light"; "wavelength"], n'. eexists. split; [reflexivity|]. split; [discriminate|]. split; [exact Hset|]. split; [exact Hn'|].
    exists l. split; [unfold child; rewrite Gl; exact Hl|]. auto.
  - simpl present in Hreq. destruct (has "light" d) eqn:Eh; [|discriminate Hreq].
    unfold has in Eh. destruct (get "light" d) as [yl|] eqn:Gl; [|discriminate Eh].
    unfold cone_in in Hreq.
    assert (Ech : child "light" (YMap d) = yl) by (unfold child; rewrite Gl; reflexivity). rewrite Ech in *.
    destruct (numeric (child "half-angle" (child "cone" (child "direction" (child "mask" yl))))) eqn:EN; [|discriminate Hreq]. injection Hreq as <- <-.
    assert (Ik : In "light" kinds) by (simpl; auto 6).
    pose proof (body_kind_now position_mask_of wavelength_mask_of float_of d "light" yl O Ik Gl) as B. simpl in B. rewrite Eb in B.
    destruct (light_of yl) as [l|] eqn:Hl; [|discriminate B]. injection B as B.
    assert (CC : exists a y', ls_mask_direction l = Some (Mask (MCone (Some a))) /\
      set_at ["mask"; "direction"; "cone"; "half-angle"] (YScalar (Num x)) yl = Some y' /\ light_of y' = Some (set_cone (num x) l)).
    { assert (HC' : exists dd, child "direction" (child "mask" yl) = YMap dd /\ get "isotropic" dd = None /\ get "lambertian" dd = None).
      { destruct (child "direction" (child "mask" yl)) as [|z|dd]; try discriminate EN.
        exists dd. split; [reflexivity|]. destruct HC as [HC1 HC2].
        - simpl. unfold has. unfold child in EN. destruct (get "cone" dd); [reflexivity|discriminate EN].
        - split; apply has_get; assumption. }
      destruct HC' as (dd & HC1 & HC2 & HC3). clear HC.
      destruct (light_cone yl l x Hl EN) as [H|[(p & H)|[(mm & H & H2)|H]]]; [exfalso|exfalso|exfalso|exact H].
      all: revert Hl H; rewrite HC1 in EN; unfold InspectModel.light_of, mapping; destruct yl as [|z|ld]; try discriminate;
        destruct (entry real_of "wavelength" ld) as [w|]; try discriminate; unfold entry;
        unfold child in HC1; destruct (get "mask" ld) as [ym|]; try (injection HC1 as <-; discriminate EN);
        destruct ym as [|z|md]; try discriminate;
        destruct (match get "wavelength" md with Some y => option_map Some (wavelength_mask_of y) | None => Some None end) as [mw|]; try discriminate;
        destruct (match get "position" md with Some y => option_map Some (position_mask_of y) | None => Some None end) as [mp|]; try discriminate;
        destruct (get "direction" md) as [yd|]; try (injection HC1 as <-; discriminate EN); subst yd;
        unfold direction_mask_of, has; rewrite HC2, HC3; unfold child in EN; destruct (get "cone" dd) as [yc|]; try discriminate EN;
        destruct yc as [|z|cd]; try discriminate EN; unfold mapping, needed; destruct (get "half-angle" cd) as [ya|]; try discriminate EN;
        unfold numeric in EN; destruct ya as [[| |na|]| |]; try discriminate EN; simpl; intros Hl H; injection Hl as <-; simpl in H; try discriminate H;
        injection H as <-; exact (H2 _ eq_refl). }
    destruct CC as (a & y' & Ha & Hset1 & Hl').
    destruct (KE "light" yl ["mask"; "direction"; "cone"; "half-angle"] y' (light_body (set_cone (num x) l)) Ik Gl ltac:(discriminate) Hset1) as (n' & Hset & Hn').
    { cbn [String.eqb Ascii.eqb Bool.eqb]. rewrite Hl'. reflexivity. }
    exists ["light"; "mask"; "direction"; "cone"; "half-angle"], n'. eexists. split; [reflexivity|]. split; [discriminate|]. split; [exact Hset|]. split; [exact Hn'|].
    exists l, a. auto.
Qed.

(** What the fields of a component's form do.  The schema allows one of three kinds, and "builtin"
    with a text. *)
Definition component_kinds := ["absorber"; "scatterer"; "luminophore"].
Definition one_component (c : yaml) : Prop :=
  (forall j k, In j component_kinds -> In k component_kinds -> present j c = true -> present k c = true -> j = k) /\
  (forall k, present k c = true -> In k component_kinds \/ exists t, child k c = YScalar (Str t)).
Definition component_edited (e : component_edit) (s s' : component_spec) : Prop :=
  match e, s with
  | ECoefficient x, CAbsorber a => as_coefficient a <> None /\ s' = CAbsorber (AbsSpec (Some x) (as_hist a) (as_spectrum a))
  | ECoefficient x, CScatterer a => ss_coefficient a <> None /\ s' = CScatterer (ScaSpec (Some x) (ss_hist a) (ss_spectrum a) (ss_qy a))
  | ECoefficient x, CLuminophore _ => s' = s (* an entry that the parser does not read *)
  | EAbsorption x, CLuminophore l => exists c sp, ls_absorption l = Some (Some c, sp) /\
      s' = CLuminophore (LumSpec (ls_hist l) (Some (Some x, sp)) (ls_emission l))
  | EYield x, CLuminophore l => exists q sp, ls_emission l = Some (Some q, sp) /\
      s' = CLuminophore (LumSpec (ls_hist l) (ls_absorption l) (Some (Some (num x), sp)))
  | _, _ => False
  end.
Lemma numeric_child : forall k d, numeric (child k (YMap d)) = true -> exists n, get k d = Some (YScalar (Num n)).
Proof.
  intros k d H. unfold child in H. destruct (get k d) as [[[| |n|]|l|m]|]; try discriminate H. exists n. reflexivity.
Qed.
Lemma hist_other : forall k v d, String.eqb k "hist" = false -> hist_of (put k v d) = hist_of d.
Proof. intros k v d H. unfold hist_of. rewrite entry_other by exact H. reflexivity. Qed.
Lemma spectrum_other : forall t k v d, String.eqb k "spectrum" = false -> spectrum_of load t (put k v d) = spectrum_of load t d.
Proof. intros t k v d H. unfold spectrum_of. rewrite entry_other by exact H. reflexivity. Qed.

Lemma component_edit : forall y D name s e path v, document_of y = Some D -> get name (doc_components D) = Some s ->
  one_component (child name (child "components" y)) -> component_request y name e = Some (path, v) ->
  exists y' s', set_at path (yaml_of v) y = Some y' /\
    document_of y' = Some (Doc (Some (put name s' (doc_components D))) (d_nodes D) (d_recorders D)) /\
    component_edited e s s'.
Proof.
  intros y D name s e path v HD Hs O Hreq. destruct (component_update _ _ _ _ _ y D name s HD Hs) as (Hc & U).
  assert (Goal1 : exists rest n' s', path = "components" :: name :: rest /\ rest <> [] /\
     set_at rest (yaml_of v) (child name (child "components" y)) = Some n' /\ component_of n' = Some s' /\ component_edited e s s').
  2: { destruct Goal1 as (rest & n' & s' & -> & Hrest & Hset & Hn' & He).
       destruct (U rest (yaml_of v) n' s' Hrest Hset Hn') as (y' & Hy & Hd). exists y', s'. auto. }
  unfold component_request in Hreq. set (n := child name (child "components" y)) in *. clearbody n. clear U HD Hs.
  destruct (first_key n) as [t|] eqn:Et; [|discriminate Hreq].
  unfold InspectModel.component_of, mapping in Hc. destruct n as [|l|d]; try discriminate Hc.
  assert (Gt : exists yt, get t d = Some yt).
  { unfold first_key in Et. destruct d as [|[k yk] d]; [discriminate Et|]. injection Et as ->. exists yk. simpl. rewrite String.eqb_refl. reflexivity. }
  destruct Gt as (yt & Gt). assert (Ech : child t (YMap d) = yt) by (unfold child; rewrite Gt; reflexivity). rewrite Ech in Hreq. clear Ech Et.
  assert (TP : present t (YMap d) = true) by (simpl; unfold has; rewrite Gt; reflexivity).
  assert (F : In t component_kinds -> forall j, In j component_kinds -> j <> t -> get j d = None).
  { intros It j Ij N. apply has_get. destruct (has j d) eqn:E; [|reflexivity]. exfalso. apply N. exact (proj1 O j t Ij It E TP). }
  assert (YT : exists td, yt = YMap td).
  { destruct yt as [sc|l|td]; [| |eauto]; exfalso; destruct e; simpl in Hreq; try discriminate Hreq;
      destruct (String.eqb t "luminophore"); discriminate Hreq. }
  destruct YT as (td & ->).
  assert (It : In t component_kinds).
  { destruct (proj2 O t TP) as [It|(tx & It)]; [exact It|]. unfold child in It. rewrite Gt in It. discriminate It. }
  destruct e as [x|x|x].
  - destruct (numeric (child "coefficient" (YMap td))) eqn:EN; [|discriminate Hreq]. injection Hreq as <- <-.
    destruct (numeric_child _ _ EN) as (n0 & Gn).
    assert (Hset : set_at [t; "coefficient"] (YScalar (Num x)) (YMap d) = Some (YMap (put t (YMap (put "coefficient" (YScalar (Num x)) td)) d))).
    { cbn [set_at]. rewrite Gt. reflexivity. }
    exists [t; "coefficient"]. eexists. 
    pose proof (F It) as F'. simpl in It. destruct It as [<-|[<-|[<-|[]]]].
    + rewrite Gt in Hc. destruct (absorber_of load (YMap td)) as [a|] eqn:Ea; [|discriminate Hc]. injection Hc as <-.
      unfold absorber_of, mapping in Ea. destruct (entry number_of "coefficient" td) as [c0|] eqn:Ec0; [|discriminate Ea].
      destruct (hist_of td) as [h|] eqn:Eh; [|discriminate Ea]. destruct (spectrum_of load "absorption" td) as [sp|] eqn:Es; [|discriminate Ea]. injection Ea as <-.
      eexists. split; [reflexivity|]. split; [discriminate|]. split; [exact Hset|]. split; [|split; [|reflexivity]].
      * unfold InspectModel.component_of, mapping. rewrite !get_put. cbn [String.eqb Ascii.eqb Bool.eqb].
       unfold absorber_of, mapping. rewrite (entry_same _ _ _ _ _ x) by reflexivity. rewrite hist_other, spectrum_other, Eh, Es by reflexivity. reflexivity.
      * unfold entry in Ec0. rewrite Gn in Ec0. injection Ec0 as <-. discriminate.
    + rewrite (F' "absorber"), Gt in Hc by (simpl; auto || discriminate). destruct (scatterer_of load (YMap td)) as [a|] eqn:Ea; [|discriminate Hc]. injection Hc as <-.
      unfold scatterer_of, mapping in Ea. destruct (entry number_of "coefficient" td) as [c0|] eqn:Ec0; [|discriminate Ea].
      destruct (hist_of td) as [h|] eqn:Eh; [|discriminate Ea]. destruct (spectrum_of load "absorption" td) as [sp|] eqn:Es; [|discriminate Ea].
      destruct (entry real_of "quantum-yield" td) as [q|] eqn:Eq; [|discriminate Ea]. injection Ea as <-.
      eexists. split; [reflexivity|]. split; [discriminate|]. split; [exact Hset|]. split; [|split; [|reflexivity]].
      * unfold InspectModel.component_of, mapping. rewrite !get_put. cbn [String.eqb Ascii.eqb Bool.eqb]. rewrite (F' "absorber") by (simpl; auto || discriminate).
       unfold scatterer_of, mapping. rewrite (entry_same _ _ _ _ _ x) by reflexivity. rewrite hist_other, spectrum_other, entry_other, Eh, Es, Eq by reflexivity. reflexivity.
      * unfold entry in Ec0. rewrite Gn in Ec0. injection Ec0 as <-. discriminate.
    + rewrite (F' "absorber"), (F' "scatterer"), Gt in Hc by (simpl; auto || discriminate). destruct (luminophore_of load (YMap td)) as [a|] eqn:Ea; [|discriminate Hc]. injection Hc as <-.
      exists (CLuminophore a). split; [reflexivity|]. split; [discriminate|]. split; [exact Hset|]. split; [|reflexivity].
      unfold InspectModel.component_of, mapping. rewrite !get_put. cbn [String.eqb Ascii.eqb Bool.eqb].
      rewrite (F' "absorber"), (F' "scatterer") by (simpl; auto || discriminate).
      unfold luminophore_of, mapping in *. rewrite hist_other, !entry_other by reflexivity. rewrite Ea. reflexivity.
  - destruct (String.eqb t "luminophore") eqn:Et; [|discriminate Hreq]. apply String.eqb_eq in Et. subst t. cbn [andb] in Hreq.
    destruct (numeric (child "coefficient" (child "absorption" (YMap td)))) eqn:EN; [|discriminate Hreq]. injection Hreq as <- <-.
    pose proof (F It) as F'.
    rewrite (F' "absorber"), (F' "scatterer"), Gt in Hc by (simpl; auto || discriminate). destruct (luminophore_of load (YMap td)) as [a|] eqn:Ea; [|discriminate Hc]. injection Hc as <-.
    unfold luminophore_of, mapping in Ea. destruct (hist_of td) as [h|] eqn:Eh; [|discriminate Ea].
    unfold entry in Ea at 1. unfold child at 2 in EN. destruct (get "absorption" td) as [ya|] eqn:Ga; [|discriminate EN].
    destruct ya as [|l|ad]; try discriminate EN. destruct (numeric_child _ _ EN) as (n0 & Gn).
    unfold entry in Ea at 1. rewrite Gn in Ea. cbn [number_of option_map] in Ea.
    destruct (spectrum_of load "absorption" ad) as [sp|] eqn:Es; [|discriminate Ea]. cbn [option_map] in Ea.
    destruct (entry _ "emission" td) as [em|] eqn:Ee; [|discriminate Ea]. injection Ea as <-.
    exists ["luminophore"; "absorption"; "coefficient"]. eexists. eexists. split; [reflexivity|]. split; [discriminate|]. split.
    { cbn [set_at]. rewrite Gt, Ga. reflexivity. }
    split; [|exists n0, sp; split; [reflexivity|reflexivity]].
    unfold InspectModel.component_of, mapping. rewrite !get_put. cbn [String.eqb Ascii.eqb Bool.eqb].
    rewrite (F' "absorber"), (F' "scatterer") by (simpl; auto || discriminate).
    unfold luminophore_of, mapping. rewrite hist_other, Eh by reflexivity. rewrite (entry_same _ _ "absorption" _ _ (Some x, sp)).
    + rewrite entry_other by reflexivity. unfold mapping in Ee. rewrite Ee. reflexivity.
    + rewrite (entry_same _ _ _ _ _ x) by reflexivity. rewrite spectrum_other, Es by reflexivity. reflexivity.
  - destruct (String.eqb t "luminophore") eqn:Et; [|discriminate Hreq]. apply String.eqb_eq in Et. subst t. cbn [andb] in Hreq.
    destruct (numeric (child "quantum-yield" (child "emission" (YMap td)))) eqn:EN; [|discriminate Hreq]. injection Hreq as <- <-.
    pose proof (F It) as F'.
    rewrite (F' "absorber"), (F' "scatterer"), Gt in Hc by (simpl; auto || discriminate). destruct (luminophore_of load (YMap td)) as [a|] eqn:Ea; [|discriminate Hc]. injection Hc as <-.
    unfold luminophore_of, mapping in Ea. destruct (hist_of td) as [h|] eqn:Eh; [|discriminate Ea].
    destruct (entry _ "absorption" td) as [ab|] eqn:Eab; [|discriminate Ea].
    unfold entry in Ea at 1. unfold child at 2 in EN. destruct (get "emission" td) as [ya|] eqn:Ga; [|discriminate EN].
    destruct ya as [|l|ad]; try discriminate EN. destruct (numeric_child _ _ EN) as (n0 & Gn).
    unfold entry in Ea at 1. rewrite Gn in Ea. unfold real_of in Ea at 1. cbn [number_of option_map] in Ea.
    destruct (spectrum_of load "emission" ad) as [sp|] eqn:Es; [|discriminate Ea]. cbn [option_map] in Ea. injection Ea as <-.
    exists ["luminophore"; "emission"; "quantum-yield"]. eexists. eexists. split; [reflexivity|]. split; [discriminate|]. split.
    { cbn [set_at]. rewrite Gt, Ga. reflexivity. }
    split; [|exists (num n0), sp; split; [reflexivity|reflexivity]].
    unfold InspectModel.component_of, mapping. rewrite !get_put. cbn [String.eqb Ascii.eqb Bool.eqb].
    rewrite (F' "absorber"), (F' "scatterer") by (simpl; auto || discriminate).
    unfold luminophore_of, mapping. rewrite hist_other, Eh by reflexivity. rewrite entry_other by reflexivity. unfold mapping in Eab. rewrite Eab.
    rewrite (entry_same _ _ "emission" _ _ (Some (num x), sp)); [reflexivity|].
    rewrite (entry_same _ _ _ _ _ (num x)) by reflexivity. rewrite spectrum_other, Es by reflexivity. reflexivity.
Qed.

(** A document whose objects are all distinct, that is one without aliases: every field of the form
    of a node, and of a component, changes what it names and nothing else, for the server's edit of
    the loaded objects *)
Theorem C145_node_edit_partial : forall n h a y D name s e path v,
  tree_at n h a = Some y -> NoDup (objects_at n h a) ->
  document_of y = Some D -> get name (d_nodes D) = Some s ->
  one_kind (child name (child "nodes" y)) -> one_mask (child "direction" (child "mask" (child "light" (child name (child "nodes" y))))) ->
  node_request y name e = Some (path, v) ->
  exists h' m y' s', set_in_heap path v h a = Some h' /\ tree_at m h' a = Some y' /\ NoDup (objects_at m h' a) /\
    document_of y' = Some (Doc (d_components D) (put name s' (d_nodes D)) (d_recorders D)) /\
    node_edited D (light_of (child "light" (child name (child "nodes" y)))) e s s'.
Proof.
  intros n h a y D name s e path v T ND HD Hs O M Hreq.
  destruct (node_edit y D name s e path v HD Hs O Hreq M) as (y' & s' & Hset & HD' & He).
  pose proof (set_objects path v n h a y T ND) as H. destruct (set_in_heap path v h a) as [h'|]; [|rewrite H in Hset; discriminate Hset].
  destruct H as (y2 & m & H1 & H2 & H3 & _). rewrite Hset in H1. injection H1 as <-. exists h', m, y', s'. auto.
Qed.
Theorem C145_component_edit_partial : forall n h a y D name s e path v,
  tree_at n h a = Some y -> NoDup (objects_at n h a) ->
  document_of y = Some D -> get name (doc_components D) = Some s ->
  one_component (child name (child "components" y)) -> component_request y name e = Some (path, v) ->
  exists h' m y' s', set_in_heap path v h a = Some h' /\ tree_at m h' a = Some y' /\ NoDup (objects_at m h' a) /\
    document_of y' = Some (Doc (Some (put name s' (doc_components D))) (d_nodes D) (d_recorders D)) /\
    component_edited e s s'.
Proof.
  intros n h a y D name s e path v T ND HD Hs O Hreq.
  destruct (component_edit y D name s e path v HD Hs O Hreq) as (y' & s' & Hset & HD' & He).
  pose proof (set_objects path v n h a y T ND) as H. destruct (set_in_heap path v h a) as [h'|]; [|rewrite H in Hset; discriminate Hset].
  destruct H as (y2 & m & H1 & H2 & H3 & _). rewrite Hset in H1. injection H1 as <-. exists h', m, y', s'. auto.
Qed.

(** The fields show what the scene uses.  parse.py 450-452: an empty list for the location leaves the
    node at the origin. *)
Definition used_location (s : node_spec) : list R := match ns_location s with None | Some [] => [0; 0; 0]%R | Some l => l end.
Theorem C145_shown_partial : forall y D name s, document_of y = Some D -> get name (d_nodes D) = Some s ->
  one_kind (child name (child "nodes" y)) ->
  let node := child name (child "nodes" y) in
  (forall p, ns_parent s = Some p -> p <> "" -> shown_parent node = p) /\
  (ns_parent s = None -> shown_parent node = "world") /\
  (ns_location s <> Some [] -> shown_location node = used_location s) /\
  shown_record node = ns_record s /\
  (forall g m, ns_body s = Geometry g m -> exists k, geometry_key node = Some k /\ shown_index node k = ms_index m /\ attached node k = listed m) /\
  (geometry_key node = None -> exists l, light_of (child "light" node) = Some l /\ ns_body s = light_body l /\
     shown_wavelength node = match ls_wavelength l with Some x => x | None => 555%R end).
Proof.
  intros y D name s HD Hs O. destruct (node_update _ _ _ _ _ y D name s HD Hs) as (Hn & _). intros node. fold node in Hn, O.
  clearbody node. destruct (node_inv _ _ _ _ _ Hn) as (d & r & -> & Eb & Ep & El & Eq & Er & Hr).
  assert (GK : forall g y, In g kinds -> g <> "light" -> get g d = Some y -> geometry_key (YMap d) = Some g).
  { intros g yg Ig NL Gg. unfold geometry_key, present, has. assert (P : has g d = true) by (unfold has; rewrite Gg; reflexivity).
    pose proof (one_kind_only d g O Ig P) as F. simpl in Ig. destruct Ig as [<-|[<-|[<-|[<-|[<-|[]]]]]]; simpl; [| | | |contradiction].
    - rewrite Gg. reflexivity.
    - rewrite (F "box"), (F "sphere"), Gg by (simpl; auto || discriminate). reflexivity.
    - rewrite (F "box"), Gg by (simpl; auto || discriminate). reflexivity.
    - rewrite (F "box"), (F "sphere"), (F "cylinder"), Gg by (simpl; auto || discriminate). reflexivity. }
  split; [|split; [|split; [|split; [|split]]]].
  - intros p Hp Np. rewrite Hp in Ep. unfold parent_entry, entry in Ep. unfold shown_parent, child. destruct (get "parent" d) as [yp|]; [|discriminate Ep].
    destruct yp as [[| | |t]|l|m]; simpl in Ep; try discriminate Ep. injection Ep as ->. simpl. destruct p; [contradiction|reflexivity].
  - intros Hp. rewrite Hp in Ep. unfold parent_entry, entry in Ep. unfold shown_parent, child. destruct (get "parent" d) as [yp|]; [|reflexivity].
    destruct yp as [[| | |t]|l|m]; simpl in Ep; try discriminate Ep. reflexivity.
  - intros NE. unfold entry in El. unfold shown_location, child, used_location. destruct (get "location" d) as [yl|]; [|injection El as <-; reflexivity].
    destruct (list_of real_of yl) as [l|]; [|discriminate El]. injection El as El. rewrite <- El in *. destruct l; [exfalso; apply NE; reflexivity|reflexivity].
  - rewrite Hr. unfold entry in Er. unfold shown_record, child. destruct (get "record" d) as [yr|]; [|injection Er as <-; reflexivity].
    destruct (bool_of yr) as [b|]; [|discriminate Er]. injection Er as <-. reflexivity.
  - intros g m HB. rewrite HB in Eb.
    assert (C : exists k yk, In k kinds /\ k <> "light" /\ get k d = Some yk /\ geometry_of k yk = Some (Geometry g m)).
    { unfold body_of in Eb. unfold kinds. destruct (get "box" d) as [yk|] eqn:G1; [exists "box", yk; simpl; repeat split; auto; discriminate|].
      destruct (get "cylinder" d) as [yk|] eqn:G2; [exists "cylinder", yk; simpl; repeat split; auto; discriminate|].
      destruct (get "sphere" d) as [yk|] eqn:G3; [exists "sphere", yk; simpl; repeat split; auto; discriminate|].
      destruct (get "mesh" d) as [yk|] eqn:G4; [exists "mesh", yk; simpl; repeat split; auto; discriminate|].
      destruct (get "light" d) as [yk|]; [|discriminate Eb]. destruct (light_of yk); discriminate Eb. }
    destruct C as (k & yk & Ik & NL & Gk & Hg). exists k. split; [exact (GK k yk Ik NL Gk)|].
    destruct (geometry_inv _ _ _ Hg) as (gd & sh & m0 & -> & _ & Hm & E). injection E as <- <-.
    assert (Ech : child k (YMap d) = YMap gd) by (unfold child; rewrite Gk; reflexivity).
    split; [|unfold attached; rewrite Ech; apply listed_attached; exact Hm].
    unfold shown_index. rewrite Ech. unfold needed in Hm. unfold child at 2. destruct (get "material" gd) as [ym|]; [|discriminate Hm].
    destruct (material_inv _ _ Hm) as (md & -> & Hi & _). unfold needed in Hi. unfold child. destruct (get "refractive-index" md) as [yi|]; [|discriminate Hi].
    rewrite Hi. reflexivity.
  - intros GN. unfold body_of in Eb.
    assert (N : forall g, In g kinds -> g <> "light" -> get g d = None).
    { intros g Ig NL. destruct (get g d) as [yg|] eqn:Gg; [|reflexivity]. rewrite (GK g yg Ig NL Gg) in GN. discriminate GN. }
    rewrite (N "box"), (N "cylinder"), (N "sphere"), (N "mesh") in Eb by (simpl; auto || discriminate).
    destruct (get "light" d) as [yl|] eqn:Gl; [|discriminate Eb]. destruct (light_of yl) as [l|] eqn:Hl; [|discriminate Eb]. injection Eb as Eb.
    assert (Ech : child "light" (YMap d) = yl) by (unfold child; rewrite Gl; reflexivity).
    exists l. rewrite Ech. split; [exact Hl|]. split; [congruence|]. unfold shown_wavelength. rewrite Ech.
    destruct (light_inv _ _ Hl) as (ld & -> & Hw). unfold entry in Hw. unfold child. destruct (get "wavelength" ld) as [yw|]; [|injection Hw as <-; reflexivity].
    destruct (real_of yw) as [x|]; [|discriminate Hw]. injection Hw as <-. reflexivity.
Qed.
End Edits.

(** ** What the edited light emits *)
(** Without a mask for wavelengths, rays have the wavelength in the field; 0 gives no rays *)
Theorem C145_wavelength_partial : forall l x name L, ls_mask_wavelength l = None -> x <> 0%R -> parse_light l name = Some L ->
  exists L', parse_light (set_wavelength x l) name = Some L' /\ (forall u, call_wavelength (l_wavelength L') u = Some x) /\
    l_position L' = l_position L /\ l_direction L' = l_direction L /\ light_name L' = light_name L.
Proof.
  intros l x name L Hm Hx H. unfold parse_light in *. rewrite Hm in H. unfold set_wavelength. cbn [ls_wavelength ls_mask_wavelength ls_mask_position ls_mask_direction].
  rewrite Hm. destruct (Reqb x 0) eqn:E0; [apply Reqb_true in E0; contradiction|].
  destruct (match ls_mask_position l with None | Some (PointLike []) => Some PDefault | Some m => parse_position_mask m end) as [p|]; [|discriminate H].
  destruct (match ls_mask_direction l with None | Some (PointLike []) => Some DDefault | Some m => parse_direction_mask m end) as [q|]; [|discriminate H].
  injection H as <-. eexists. split; [reflexivity|]. repeat split; reflexivity.
Qed.
(** With a mask the field shows 555 or what was typed, and has no effect *)
Theorem C145_wavelength_refuted : exists l L, ls_mask_wavelength l = Some (NMask (MNanometers 450)) /\
  (forall x, parse_light (set_wavelength x l) 0 = Some L) /\ forall u, call_wavelength (l_wavelength L) u = Some 450%R.
Proof.
  exists (LightSpec None (Some (NMask (MNanometers 450))) None None), (mkLight (WConstant 450) PDefault DDefault 0).
  split; [reflexivity|]. split; [reflexivity|reflexivity].
Qed.
Theorem C145_cone : forall l a x name L, ls_mask_direction l = Some (Mask (MCone (Some a))) -> parse_light l name = Some L ->
  exists L', parse_light (set_cone x l) name = Some L' /\ l_direction L' = DCone (radians x) /\
    l_wavelength L' = l_wavelength L /\ l_position L' = l_position L /\ light_name L' = light_name L.
Proof.
  intros l a x name L Hm H. unfold parse_light in *. rewrite Hm in H. unfold set_cone. cbn [ls_wavelength ls_mask_wavelength ls_mask_position ls_mask_direction].
  cbn [parse_direction_mask] in *.
  match type of H with match ?w with _ => _ end = _ => destruct w as [w'|]; [|discriminate H] end.
  match type of H with match ?w with _ => _ end = _ => destruct w as [p'|]; [|discriminate H] end.
  injection H as <-. eexists. split; [reflexivity|]. repeat split; reflexivity.
Qed.

(** ** The parent field *)
(** The field offers every other node (app.js 676-679).  A node below the edited one is refused by
    the tree; for every other choice the scene is the same but for the parent. *)
Lemma map_put : forall A B (g : A -> B) k v (d : dict A), map (fun '(k, s) => (k, g s)) (put k v d) = put k (g v) (map (fun '(k, s) => (k, g s)) d).
Proof. intros A B g k v d. induction d as [|[k' v'] d IH]; [reflexivity|]. simpl. destruct (String.eqb k' k); [reflexivity|]. simpl. rewrite IH. reflexivity. Qed.
Lemma danc_of : forall declared f, keys f = keys declared -> (forall k dp, get k declared = Some dp -> get k f = Some (declared_parent k dp)) ->
  forall a b, anc f a b <-> danc declared a b.
Proof.
  intros d f K G a b. split; intros H; induction H as [k|k p a E H IH]; try constructor.
  - assert (Hin : In k (keys d)) by (rewrite <- K; eapply In_keys, get_In; exact E). destruct (keys_get _ _ _ Hin) as (dp & Hd).
    econstructor; [|exact IH]. exists dp. split; [exact Hd|]. unfold edge in E. rewrite (G _ _ Hd) in E. injection E as E. exact E.
  - destruct E as (dp & E1 & E2). econstructor; [|exact IH]. unfold edge. rewrite (G _ _ E1), E2. reflexivity.
Qed.
Lemma reparent : forall declared f name p, NoDup (keys declared) -> In "world" (keys declared) -> make_tree declared = Some f ->
  name <> "world" -> In name (keys declared) -> In p (keys declared) ->
  (make_tree (put name (Some p) declared) = None <-> anc f p name) /\
  (forall f', make_tree (put name (Some p) declared) = Some f' -> get name f' = Some (Some p) /\ forall k, k <> name -> get k f' = get k f).
Proof.
  intros d f name p N W H NW In_n In_p. destruct (make_tree_spec d f N W H) as (K & G & _ & R).
  set (d' := put name (Some p) d).
  assert (K' : keys d' = keys d) by (apply keys_put_old; exact In_n).
  assert (N' : NoDup (keys d')) by (rewrite K'; exact N). assert (W' : In "world" (keys d')) by (rewrite K'; exact W).
  assert (DR : forall k, In k (keys d) -> dreach d k) by (intros k Hk; apply (reaches_dreach d f K G), R; exact Hk).
  assert (DE : forall k q, k <> name -> dedge d' k q <-> dedge d k q).
  { intros k q Nk. unfold dedge, d'. rewrite get_put. destruct (String.eqb name k) eqn:E; [apply String.eqb_eq in E; congruence|]. reflexivity. }
  assert (DN : dedge d' name p).
  { exists (Some p). split; [unfold d'; rewrite get_put, String.eqb_refl; reflexivity|]. unfold declared_parent. rewrite (proj2 (String.eqb_neq name "world") NW). reflexivity. }
  assert (SP : forall f', make_tree d' = Some f' -> get name f' = Some (Some p) /\ forall k, k <> name -> get k f' = get k f).
  { intros f' H'. destruct (make_tree_spec d' f' N' W' H') as (Kf & Gf & _ & _). split.
    - rewrite (Gf name (Some p)) by (unfold d'; rewrite get_put, String.eqb_refl; reflexivity).
      unfold declared_parent. rewrite (proj2 (String.eqb_neq name "world") NW). reflexivity.
    - intros k Nk. destruct (get k d) as [dp|] eqn:Ek.
      + rewrite (Gf k dp), (G k dp Ek); [reflexivity|]. unfold d'. rewrite get_put.
        destruct (String.eqb name k) eqn:E; [apply String.eqb_eq in E; congruence|exact Ek].
      + apply get_None in Ek. assert (A : get k f = None) by (apply get_None; rewrite K; exact Ek).
        assert (B : get k f' = None) by (apply get_None; rewrite Kf, K'; exact Ek). rewrite A, B. reflexivity. }
  split; [|exact SP]. rewrite (danc_of d f K G p name). split.
  - intros HN.
    assert (DEC : forall x, dreach d x -> danc d x name \/ ~ danc d x name).
    { intros x Hx. induction Hx as [|x q E Hx IH].
      - right. intros C. inversion C as [|? q ? E]; subst; [contradiction|exact (dedge_world _ _ E)].
      - destruct (string_dec x name) as [->|Nx]; [left; constructor|]. destruct IH as [IH|IH]; [left; econstructor; eassumption|].
        right. intros C. inversion C as [|? q' ? E' C']; subst; [contradiction|]. rewrite (dedge_fun _ _ _ _ E' E) in C'. exact (IH C'). }
    destruct (DEC p (DR p In_p)) as [A|NA]; [exact A|]. exfalso.
    assert (RP : forall x, dreach d x -> ~ danc d x name -> dreach d' x).
    { intros x Hx. induction Hx as [|x q E Hx IH]; intros Nx; [constructor|].
      assert (x <> name) by (intros ->; apply Nx; constructor).
      apply (dreach_step _ x q); [apply DE; assumption|]. apply IH. intros C. apply Nx. econstructor; eassumption. }
    assert (RN : dreach d' name) by (econstructor; [exact DN|apply RP; [apply DR; exact In_p|exact NA]]).
    assert (RA : forall x, dreach d x -> dreach d' x).
    { intros x Hx. induction Hx as [|x q E Hx IH]; [constructor|]. destruct (string_dec x name) as [->|Nx]; [exact RN|].
      apply (dreach_step _ x q); [apply DE; assumption|exact IH]. }
    destruct (make_tree_total d' N' W') as (f' & Hf'); [intros k Hk; apply RA, DR; rewrite <- K'; exact Hk|]. fold d' in HN. congruence.
  - intros C. destruct (make_tree d') as [f'|] eqn:H'; [|reflexivity]. exfalso.
    destruct (make_tree_spec d' f' N' W' H') as (Kf & Gf & _ & Rf).
    assert (Rn : dreach d' name) by (apply (reaches_dreach d' f' Kf Gf), Rf; rewrite K'; exact In_n).
    apply (dreach_no_cycle d' name Rn p DN). clearbody d'. clear -C DE. induction C as [k|k q a E C IH]; [constructor|].
    destruct (string_dec k a) as [->|Nk]; [constructor|]. econstructor; [apply DE; eassumption|]. apply IH. exact DE.
Qed.
Lemma put_present : forall A k (v : A) d, get k d = Some v -> put k v d = d.
Proof.
  intros A k v d. induction d as [|[k' v'] d IH]; simpl; intros H; [discriminate|]. destruct (String.eqb k' k); [injection H as ->; reflexivity|].
  rewrite IH by exact H. reflexivity.
Qed.

Theorem C145_parent_partial : forall D P name s p, NoDup (keys (d_nodes D)) -> parse_document D = Some P -> get name (d_nodes D) = Some s ->
  name <> "world" -> In p (keys (d_nodes D)) ->
  let D' := Doc (d_components D) (put name (NodeSpec (ns_body s) (Some p) (ns_location s) (ns_direction s) (ns_record s)) (d_nodes D)) (d_recorders D) in
  (parse_document D' = None <-> anc (ps_parents P) p name) /\
  (forall P', parse_document D' = Some P' -> ps_nodes P' = ps_nodes P /\ ps_recorders P' = ps_recorders P /\
     get name (ps_parents P') = Some (Some p) /\ forall k, k <> name -> get k (ps_parents P') = get k (ps_parents P)).
Proof.
  intros D P name s p N H Hs NW Hp. cbv zeta. set (s' := NodeSpec (ns_body s) (Some p) (ns_location s) (ns_direction s) (ns_record s)).
  unfold parse_document in *. cbn [d_components d_nodes d_recorders].
  set (D' := Doc _ _ _).
  assert (In_n : In name (keys (d_nodes D))) by (eapply In_keys, get_In; exact Hs).
  destruct (has "world" (d_nodes D)) eqn:HW; [|discriminate H]. apply has_keys in HW.
  assert (KN : keys (put name s' (d_nodes D)) = keys (d_nodes D)) by (apply keys_put_old; exact In_n).
  assert (HW' : has "world" (put name s' (d_nodes D)) = true) by (apply has_keys; rewrite KN; exact HW). rewrite HW'. cbn [negb] in *.
  change (parse_components D') with (parse_components D).
  destruct (parse_components D) as [cm|]; [|discriminate H].
  assert (E1 : forall nodes, get name nodes = Some s -> map_opt (fun '(k, s) => match parse_node s cm with Some m => Some (k, m) | None => None end) (put name s' nodes) =
      map_opt (fun '(k, s) => match parse_node s cm with Some m => Some (k, m) | None => None end) nodes).
  { intros nodes. induction nodes as [|[k sk] nodes IH]; simpl; intros Hk; [discriminate Hk|]. destruct (String.eqb k name); simpl.
    - injection Hk as ->. reflexivity.
    - rewrite IH by exact Hk. reflexivity. }
  rewrite (E1 _ Hs). destruct (map_opt _ (d_nodes D)) as [nodes|]; [|discriminate H].
  set (declared := map (fun '(k, s) => (k, ns_parent s)) (d_nodes D)) in *.
  assert (E2 : map (fun '(k, s) => (k, ns_parent s)) (put name s' (d_nodes D)) = put name (Some p) declared) by apply (map_put _ _ ns_parent).
  rewrite E2. destruct (make_tree declared) as [f|] eqn:Ef; [|discriminate H].
  assert (KD : keys declared = keys (d_nodes D)) by apply keys_map_val.
  destruct (reparent declared f name p) as [RP1 RP2]; try assumption; try (rewrite KD; assumption).
  assert (E3 : all_recorders D' = all_recorders D).
  { unfold all_recorders, D'. cbn [d_nodes]. change (doc_recorders (Doc _ _ (d_recorders D))) with (doc_recorders D).
    assert (E : forall ns r, get name ns = Some s -> fold_left add_auto (put name s' ns) r = fold_left add_auto ns r).
    { intros ns. induction ns as [|[k sk] ns IH]; simpl; intros r Hk; [discriminate Hk|]. destruct (String.eqb k name); simpl.
      - injection Hk as ->. reflexivity.
      - apply IH. exact Hk. }
    apply E. exact Hs. }
  rewrite E3. destruct (all_recorders D) as [specs|]; [|discriminate H]. rewrite KN.
  destruct (map_opt _ specs) as [rs|]; [|discriminate H]. injection H as <-. cbn [ps_nodes ps_parents ps_recorders]. split.
  - rewrite <- RP1. destruct (make_tree (put name (Some p) declared)); split; intros E; discriminate || reflexivity.
  - intros P' HP. destruct (make_tree (put name (Some p) declared)) as [f'|]; [|discriminate HP]. injection HP as <-.
    cbn [ps_nodes ps_parents ps_recorders]. destruct (RP2 f' eq_refl) as [R1 R2]. auto.
Qed.

(** ** What is not so *)
Definition no_load : string -> yaml -> loaded := fun _ _ => None.
Definition no_recorders : yaml -> option (dict recorder_spec) := fun _ => Some [].
Definition no_position : yaml -> option (or_point position_mask) := fun _ => None.
Definition no_wavelength : yaml -> option (or_number wavelength_mask) := fun _ => None.
Definition no_float : string -> option R := fun _ => None.
Definition read := document_of no_load no_recorders no_position no_wavelength no_float.

(** nodes: {world: {sphere: {radius: 10, material: &m {refractive-index: 1}}}, ball: {sphere: {radius: 2, material: *m}}} *)
Definition aliased : heap :=
  [CMap [("nodes", 1)]; CMap [("world", 2); ("ball", 3)]; CMap [("sphere", 4)]; CMap [("sphere", 5)];
   CMap [("radius", 6); ("material", 7)]; CMap [("radius", 8); ("material", 7)]; CScalar (Num (Int 10));
   CMap [("refractive-index", 9)]; CScalar (Num (Int 2)); CScalar (Num (Int 1))].
Definition ball_document (radius : Z) (world ball : material_spec) : document :=
  Doc None [("world", NodeSpec (Geometry (SSphere (IZR radius)) world) None None None false);
            ("ball", NodeSpec (Geometry (SSphere 2) ball) None None None false)] None.
(** Editing the refractive index of the ball changes that of the world *)
Theorem C145_alias_refuted : exists h y path v h' y' D D',
  tree_at 6 h 0 = Some y /\ read y = Some D /\ node_request y "ball" (EIndex (Float (3 / 2))) = Some (path, v) /\
  set_in_heap path v h 0 = Some h' /\ tree_at 6 h' 0 = Some y' /\ read y' = Some D' /\
  (exists r c, option_map ns_body (get "world" (d_nodes D)) = Some (Geometry r (MatSpec 1 c))) /\
  (exists r c, option_map ns_body (get "world" (d_nodes D')) = Some (Geometry r (MatSpec (3 / 2) c))).
Proof.
  exists aliased. do 5 eexists. exists (ball_document 10 (MatSpec 1 None) (MatSpec 1 None)), (ball_document 10 (MatSpec (3 / 2) None) (MatSpec (3 / 2) None)).
  split; [reflexivity|]. split; [reflexivity|]. split; [reflexivity|]. split; [reflexivity|]. split; [reflexivity|]. split; [reflexivity|].
  split; eexists; eexists; reflexivity.
Qed.
(** The same document with the material written twice *)
Definition plain : heap :=
  [CMap [("nodes", 1)]; CMap [("world", 2); ("ball", 3)]; CMap [("sphere", 4)]; CMap [("sphere", 5)];
   CMap [("radius", 6); ("material", 7)]; CMap [("radius", 8); ("material", 10)]; CScalar (Num (Int 10));
   CMap [("refractive-index", 9)]; CScalar (Num (Int 2)); CScalar (Num (Int 1)); CMap [("refractive-index", 11)]; CScalar (Num (Int 1))].
Example C145_example : exists y path v h' y' D',
  tree_at 6 plain 0 = Some y /\ NoDup (objects_at 6 plain 0) /\ read y = Some (ball_document 10 (MatSpec 1 None) (MatSpec 1 None)) /\
  one_kind (child "ball" (child "nodes" y)) /\
  node_request y "ball" (EIndex (Float (3 / 2))) = Some (path, v) /\ set_in_heap path v plain 0 = Some h' /\ tree_at 6 h' 0 = Some y' /\
  read y' = Some D' /\ D' = ball_document 10 (MatSpec 1 None) (MatSpec (3 / 2) None).
Proof.
  do 6 eexists. split; [reflexivity|]. split; [simpl; repeat constructor; simpl; intuition discriminate|]. split; [reflexivity|].
  split; [|split; [reflexivity|split; [reflexivity|split; [reflexivity|split; [reflexivity|reflexivity]]]]].
  intros j k Hj Hk. simpl in Hj, Hk.
  destruct Hj as [<-|[<-|[<-|[<-|[<-|[]]]]]]; simpl; try discriminate; destruct Hk as [<-|[<-|[<-|[<-|[<-|[]]]]]]; simpl; try discriminate; reflexivity.
Qed.

(** The parent field offers the nodes below the edited one; that edit is refused *)
Definition offered_parents (doc : yaml) (name : string) : list string :=
  match child "nodes" doc with YMap d => filter (fun n => negb (String.eqb n name)) (keys d) | _ => [] end.
Definition sphere_yaml : yaml := YMap [("radius", YScalar (Num (Int 1))); ("material", YMap [("refractive-index", YScalar (Num (Int 1)))])].
Definition stacked : yaml := YMap [("nodes", YMap
  [("world", YMap [("sphere", sphere_yaml)]); ("a", YMap [("sphere", sphere_yaml)]); ("b", YMap [("sphere", sphere_yaml); ("parent", YScalar (Str "a"))])])].
Theorem C145_parent_refuted : exists y D P path v y' D', read y = Some D /\ parse_document D = Some P /\
  In "b" (offered_parents y "a") /\ node_request y "a" (EParent "b") = Some (path, v) /\ set_at path (yaml_of v) y = Some y' /\
  read y' = Some D' /\ parse_document D' = None.
Proof.
  exists stacked. do 6 eexists. split; [reflexivity|]. split; [reflexivity|]. split; [simpl; auto|]. split; [reflexivity|]. split; [reflexivity|].
  split; reflexivity.
Qed.

(** A component written with "builtin" first has no field for its coefficient; a node with an empty
    location, which stands at the origin, has no inputs for it *)
Theorem C145_field_refuted :
  (exists c x, component_of no_load (child "dye" (child "components" c)) = Some (CAbsorber (AbsSpec (Some (Float x)) false None)) /\
     forall z, component_request c "dye" (ECoefficient z) = None) /\
  (exists n s, node_of no_position no_wavelength no_float n = Some s /\ used_location s = [0; 0; 0]%R /\ shown_location n = []).
Proof.
  split.
  - exists (YMap [("components", YMap [("dye", YMap [("builtin", YScalar (Str "x")); ("absorber", YMap [("coefficient", YScalar (Num (Float 2)))])])])]), 2%R.
    split; [reflexivity|reflexivity].
  - exists (YMap [("sphere", sphere_yaml); ("location", YSeq [])]). eexists. split; [reflexivity|]. split; reflexivity.
Qed.
Example C145_component_example : exists y y' D',
  y = YMap [("nodes", YMap [("world", YMap [("sphere", sphere_yaml)])]); ("components", YMap [("dye", YMap [("absorber", YMap [("coefficient", YScalar (Num (Float 2)))])])])] /\
  component_request y "dye" (ECoefficient (Float 3)) = Some (["components"; "dye"; "absorber"; "coefficient"], One (Num (Float 3))) /\
  set_at ["components"; "dye"; "absorber"; "coefficient"] (yaml_of (One (Num (Float 3)))) y = Some y' /\
  read y' = Some D' /\ doc_components D' = [("dye", CAbsorber (AbsSpec (Some (Float 3)) false None))].
Proof. do 3 eexists. split; [reflexivity|]. split; [reflexivity|]. split; [reflexivity|]. split; reflexivity. Qed.

(** A document is accepted only if every light in it is one that parse_light accepts. *)
Theorem C145_light_checked : forall D P name s l, parse_document D = Some P -> get name (d_nodes D) = Some s -> ns_body s = light_body l ->
  exists L, parse_light l 0 = Some L.
Proof.
  intros D P name s l H Hs B. destruct (parse_light l 0) as [L|] eqn:E; [eauto|]. exfalso.
  apply parse_inv in H as (cmap & specs & [_ _ P3 _ _ _]).
  apply (proj1 (proj1 (parse_nodes_total _ _) (ex_intro _ _ P3) name s (get_In _ _ _ _ Hs))). rewrite B. unfold light_body. now rewrite E.
Qed.

Print Assumptions C145_node_edit_partial.
Print Assumptions C145_component_edit_partial.
Print Assumptions C145_shown_partial.
Print Assumptions C145_wavelength_partial.
Print Assumptions C145_wavelength_refuted.
Print Assumptions C145_cone.
Print Assumptions C145_parent_partial.
Print Assumptions C145_parent_refuted.
Print Assumptions C145_alias_refuted.
Print Assumptions C145_field_refuted.
Print Assumptions C145_light_checked.
