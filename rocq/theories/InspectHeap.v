(** The "set" command on objects (InspectModel.v): without aliases it does what it does on the tree. *)
From Coq Require Import Reals ZArith List Bool Arith String Lia.
From Verif Require Import Base SpecModel SpecProofs InspectModel InspectProofs.
Import ListNotations.
Open Scope list_scope.
Open Scope nat_scope.
Open Scope string_scope.
Notation length := List.length.

Lemma store_length : forall a c h, length (store a c h) = length h.
Proof. intros a c h. revert a. induction h as [|x h IH]; intros [|a]; simpl; auto. Qed.
Lemma store_same : forall a c h, a < length h -> nth_error (store a c h) a = Some c.
Proof. intros a c h. revert a. induction h as [|x h IH]; intros [|a] H; simpl in *; try lia; [reflexivity|]. apply IH. lia. Qed.
Lemma store_other : forall a b c h, a <> b -> nth_error (store a c h) b = nth_error h b.
Proof. intros a b c h. revert a b. induction h as [|x h IH]; intros [|a] [|b] H; simpl; try reflexivity; try congruence. apply IH. congruence. Qed.

Notation entry_tree n h := (valued (tree_at n h)).
Definition entry_objects (n : nat) (h : heap) (d : dict nat) : list nat := flat_map (fun kb => objects_at n h (snd kb)) d.

Lemma map_opt_same : forall A B (f g : A -> option B) l, (forall x, In x l -> f x = g x) -> map_opt f l = map_opt g l.
Proof.
  intros A B f g l. induction l as [|x l IH]; intros H; [reflexivity|]. simpl. rewrite (H x) by (left; reflexivity).
  rewrite IH; [reflexivity|]. intros z Hz. apply H. right. exact Hz.
Qed.
Lemma flat_map_same : forall A B (f g : A -> list B) l, (forall x, In x l -> f x = g x) -> flat_map f l = flat_map g l.
Proof.
  intros A B f g l. induction l as [|x l IH]; intros H; [reflexivity|]. simpl. rewrite (H x) by (left; reflexivity).
  rewrite IH; [reflexivity|]. intros z Hz. apply H. right. exact Hz.
Qed.

(** The tree depends on its objects only *)
Lemma frame : forall n h h' a, (forall c, In c (objects_at n h a) -> nth_error h' c = nth_error h c) ->
  tree_at n h' a = tree_at n h a /\ objects_at n h' a = objects_at n h a.
Proof.
  induction n as [|n IH]; intros h h' a H; [split; reflexivity|].
  simpl. rewrite (H a) by (left; reflexivity). simpl in H. destruct (nth_error h a) as [[s|l|d]|]; try (split; reflexivity).
  - assert (K : forall b, In b l -> tree_at n h' b = tree_at n h b /\ objects_at n h' b = objects_at n h b).
    { intros b Hb. apply IH. intros c Hc. apply H. right. apply in_flat_map. exists b. auto. }
    split; [f_equal; apply map_opt_same|f_equal; apply flat_map_same]; intros b Hb; apply K; exact Hb.
  - assert (K : forall b, In b d -> tree_at n h' (snd b) = tree_at n h (snd b) /\ objects_at n h' (snd b) = objects_at n h (snd b)).
    { intros b Hb. apply IH. intros c Hc. apply H. right. apply in_flat_map. exists b. auto. }
    split; [f_equal; apply map_opt_same|f_equal; apply flat_map_same]; intros b Hb; rewrite ?(proj1 (K b Hb)), ?(proj2 (K b Hb)); reflexivity.
Qed.
(** More fuel changes nothing *)
Lemma more : forall n m h a y, n <= m -> tree_at n h a = Some y -> tree_at m h a = Some y /\ objects_at m h a = objects_at n h a.
Proof.
  induction n as [|n IH]; intros m h a y L H; [discriminate H|]. destruct m as [|m]; [lia|]. simpl in *.
  destruct (nth_error h a) as [[s|l|d]|]; try (split; [exact H|reflexivity]).
  - destruct (map_opt (tree_at n h) l) as [ys|] eqn:E; [|discriminate H].
    assert (K : forall b, In b l -> exists yb, tree_at n h b = Some yb) by (apply map_opt_total; eauto).
    split.
    + rewrite <- H, <- E. f_equal. apply map_opt_same. intros b Hb. destruct (K b Hb) as (yb & Hy). rewrite Hy. apply (IH m); [lia|exact Hy].
    + f_equal. apply flat_map_same. intros b Hb. destruct (K b Hb) as (yb & Hy). apply (IH m _ _ yb); [lia|exact Hy].
  - destruct (map_opt _ d) as [ys|] eqn:E; [|discriminate H].
    assert (K : forall b, In b d -> exists yb, tree_at n h (snd b) = Some yb).
    { intros b Hb. destruct (proj1 (map_opt_total _ _ _ d) (ex_intro _ ys E) b Hb) as (z & Hz). simpl in Hz. destruct (tree_at n h (snd b)); [eauto|discriminate Hz]. }
    split.
    + rewrite <- H, <- E. f_equal. apply map_opt_same. intros b Hb. destruct (K b Hb) as (yb & Hy). rewrite Hy. rewrite (proj1 (IH m _ _ _ ltac:(lia) Hy)). reflexivity.
    + f_equal. apply flat_map_same. intros b Hb. destruct (K b Hb) as (yb & Hy). apply (IH m _ _ yb); [lia|exact Hy].
Qed.
Lemma inside : forall n h a y c, tree_at n h a = Some y -> In c (objects_at n h a) -> c < length h.
Proof.
  induction n as [|n IH]; intros h a y c H I; [discriminate H|]. simpl in H, I. destruct I as [<-|I].
  - apply nth_error_Some. destruct (nth_error h a); discriminate.
  - destruct (nth_error h a) as [[s|l|d]|]; try contradiction.
    + apply in_flat_map in I. destruct I as (b & Hb & I).
      destruct (map_opt (tree_at n h) l) as [ys|] eqn:E; [|discriminate H].
      destruct (proj1 (map_opt_total _ _ _ l) (ex_intro _ ys E) b Hb) as (z & Hz). exact (IH _ _ _ _ Hz I).
    + apply in_flat_map in I. destruct I as (b & Hb & I).
      destruct (map_opt _ d) as [ys|] eqn:E; [|discriminate H].
      destruct (proj1 (map_opt_total _ _ _ d) (ex_intro _ ys E) b Hb) as (z & Hz). simpl in Hz.
      destruct (tree_at n h (snd b)) as [yb|] eqn:Eb; [|discriminate Hz]. exact (IH _ _ _ _ Eb I).
Qed.

Lemma NoDup_app_inv : forall A (l m : list A), NoDup (l ++ m) -> NoDup l /\ NoDup m /\ forall x, In x l -> ~ In x m.
Proof.
  intros A l m. induction l as [|x l IH]; simpl; intros H; [repeat split; [constructor|exact H|intros ? []]|].
  inversion H as [|? ? H1 H2]; subst. destruct (IH H2) as (A1 & A2 & A3). repeat split; [|exact A2|].
  - constructor; [|exact A1]. intros I. apply H1. apply in_or_app. left. exact I.
  - intros z [<-|I] J; [|exact (A3 z I J)]. apply H1. apply in_or_app. right. exact J.
Qed.
Lemma NoDup_app_intro : forall A (l m : list A), NoDup l -> NoDup m -> (forall x, In x l -> ~ In x m) -> NoDup (l ++ m).
Proof.
  intros A l m. induction l as [|x l IH]; simpl; intros H1 H2 H3; [exact H2|]. inversion H1 as [|? ? H4 H5]; subst.
  constructor; [|apply IH; auto]. intros I. apply in_app_or in I. destruct I as [I|I]; [contradiction|]. exact (H3 x (or_introl eq_refl) I).
Qed.

(** Entries whose objects have not changed *)
Lemma entries_frame : forall p N h h' d dy, p <= N -> map_opt (entry_tree p h) d = Some dy ->
  (forall c, In c (entry_objects p h d) -> nth_error h' c = nth_error h c) ->
  map_opt (entry_tree N h') d = Some dy /\ entry_objects N h' d = entry_objects p h d.
Proof.
  intros p N h h' d. induction d as [|[k b] d IH]; intros dy L H F; [split; [exact H|reflexivity]|].
  simpl in H. unfold valued at 1 in H. simpl in H. destruct (tree_at p h b) as [yb|] eqn:Eb; [|discriminate H]. simpl in H.
  destruct (map_opt (entry_tree p h) d) as [dy'|] eqn:Ed; [|discriminate H]. injection H as <-.
  unfold entry_objects in *. simpl in F.
  destruct (frame p h h' b) as [T O]; [intros c Hc; apply F, in_or_app; left; exact Hc|].
  rewrite Eb in T. destruct (more p N h' b yb L T) as [T2 O2]. rewrite O in O2.
  destruct (IH dy' L eq_refl) as [T3 O3]; [intros c Hc; apply F, in_or_app; right; exact Hc|].
  simpl. unfold valued at 1. simpl. rewrite T2. simpl. rewrite T3, O2, O3. split; reflexivity.
Qed.
(** A new object under a key *)
Lemma entries_put : forall p N h h' a b t k d dy, p <= N -> map_opt (entry_tree p h) d = Some dy -> NoDup (entry_objects p h d) ->
  ~ In a (entry_objects p h d) -> (forall c, c < length h -> c <> a -> nth_error h' c = nth_error h c) ->
  tree_at N h' b = Some t -> NoDup (objects_at N h' b) -> (forall c, In c (objects_at N h' b) -> length h <= c) ->
  map_opt (entry_tree N h') (put k b d) = Some (put k t dy) /\ NoDup (entry_objects N h' (put k b d)) /\
  (forall c, In c (entry_objects N h' (put k b d)) -> In c (entry_objects p h d) \/ length h <= c).
Proof.
  intros p N h h' a b t k d. induction d as [|[k' b'] d IH]; intros dy L H ND NA F Tb NDb Gb.
  - injection H as <-. unfold entry_objects. simpl. unfold valued. simpl. rewrite Tb. simpl. rewrite app_nil_r. repeat split; [exact NDb|]. intros c Hc. right. exact (Gb c Hc).
  - assert (HB : forall c, In c (entry_objects p h ((k', b') :: d)) -> c < length h).
    { intros c Hc. unfold entry_objects in Hc. apply in_flat_map in Hc. destruct Hc as ((k2 & b2) & H2 & Hc).
      destruct (proj1 (map_opt_total _ _ _ _) (ex_intro _ dy H) _ H2) as (z & Hz). unfold valued in Hz. simpl in Hz, Hc.
      destruct (tree_at p h b2) as [y2|] eqn:E2; [|discriminate Hz]. exact (inside _ _ _ _ _ E2 Hc). }
    assert (HF : forall c, In c (entry_objects p h ((k', b') :: d)) -> nth_error h' c = nth_error h c).
    { intros c Hc. apply F; [exact (HB c Hc)|]. intros ->. exact (NA Hc). }
    simpl in H. unfold valued at 1 in H. simpl in H. destruct (tree_at p h b') as [yb|] eqn:Eb; [|discriminate H]. simpl in H.
    destruct (map_opt (entry_tree p h) d) as [dy'|] eqn:Ed; [|discriminate H]. injection H as <-.
    unfold entry_objects in ND, NA, HB, HF. simpl in ND, NA, HB, HF. destruct (NoDup_app_inv _ _ _ ND) as (N1 & N2 & N3).
    simpl. destruct (String.eqb k' k) eqn:Ek.
    + destruct (entries_frame p N h h' d dy' L Ed) as [T3 O3].
      { intros c Hc. apply HF, in_or_app. right. exact Hc. }
      simpl. unfold valued at 1. simpl. rewrite Tb. simpl. rewrite T3. split; [reflexivity|].
      unfold entry_objects in *. simpl. rewrite O3. split.
      * apply NoDup_app_intro; [exact NDb|exact N2|]. intros c H1 H2. apply Gb in H1. specialize (HB c (in_or_app _ _ _ (or_intror H2))). lia.
      * intros c Hc. apply in_app_or in Hc. destruct Hc as [Hc|Hc]; [right; exact (Gb c Hc)|left; apply in_or_app; right; exact Hc].
    + destruct (frame p h h' b') as [T O]; [intros c Hc; apply HF, in_or_app; left; exact Hc|].
      rewrite Eb in T. destruct (more p N h' b' yb L T) as [T2 O2]. rewrite O in O2.
      destruct (IH dy' L eq_refl N2) as (T3 & D3 & G3); try assumption; [intros I; apply NA, in_or_app; right; exact I|].
      simpl. unfold valued at 1. simpl. rewrite T2. simpl. rewrite T3. split; [reflexivity|].
      unfold entry_objects in *. simpl. rewrite O2. split.
      * apply NoDup_app_intro; [exact N1|exact D3|]. intros c H1 H2. apply G3 in H2. destruct H2 as [H2|H2]; [exact (N3 c H1 H2)|].
        specialize (HB c (in_or_app _ _ _ (or_introl H1))). lia.
      * intros c Hc. apply in_app_or in Hc. destruct Hc as [Hc|Hc]; [left; apply in_or_app; left; exact Hc|].
        destruct (G3 c Hc) as [G|G]; [left; apply in_or_app; right; exact G|right; exact G].
Qed.
(** An object under a key that has changed *)
Lemma entries_update : forall p N h h' b t k d dy, p <= N -> map_opt (entry_tree p h) d = Some dy -> NoDup (entry_objects p h d) ->
  get k d = Some b ->
  (forall c, c < length h -> ~ In c (objects_at p h b) -> nth_error h' c = nth_error h c) ->
  tree_at N h' b = Some t -> NoDup (objects_at N h' b) -> (forall c, In c (objects_at N h' b) -> In c (objects_at p h b) \/ length h <= c) ->
  map_opt (entry_tree N h') d = Some (put k t dy) /\ NoDup (entry_objects N h' d) /\
  (forall c, In c (entry_objects N h' d) -> In c (entry_objects p h d) \/ length h <= c) /\
  (forall c, In c (objects_at p h b) -> In c (entry_objects p h d)).
Proof.
  intros p N h h' b t k d. induction d as [|[k' b'] d IH]; intros dy L H ND G F Tb NDb Gb; [discriminate G|].
  assert (HB : forall c, In c (entry_objects p h ((k', b') :: d)) -> c < length h).
  { intros c Hc. unfold entry_objects in Hc. apply in_flat_map in Hc. destruct Hc as ((k2 & b2) & H2 & Hc).
    destruct (proj1 (map_opt_total _ _ _ _) (ex_intro _ dy H) _ H2) as (z & Hz). unfold valued in Hz. simpl in Hz, Hc.
    destruct (tree_at p h b2) as [y2|] eqn:E2; [|discriminate Hz]. exact (inside _ _ _ _ _ E2 Hc). }
  simpl in H. unfold valued at 1 in H. simpl in H. destruct (tree_at p h b') as [yb|] eqn:Eb; [|discriminate H]. simpl in H.
  destruct (map_opt (entry_tree p h) d) as [dy'|] eqn:Ed; [|discriminate H]. injection H as <-.
  unfold entry_objects in ND, HB. simpl in ND, HB. destruct (NoDup_app_inv _ _ _ ND) as (N1 & N2 & N3).
  simpl in G. simpl. destruct (String.eqb k' k) eqn:Ek.
  - injection G as ->.
    destruct (entries_frame p N h h' d dy' L Ed) as [T3 O3].
    { intros c Hc. apply F; [apply HB, in_or_app; right; exact Hc|]. intros I. exact (N3 c I Hc). }
    unfold valued at 1. simpl. rewrite Tb. simpl. rewrite T3. split; [reflexivity|].
    unfold entry_objects in *. simpl. rewrite O3. split; [|split].
    + apply NoDup_app_intro; [exact NDb|exact N2|]. intros c H1 H2. apply Gb in H1. destruct H1 as [H1|H1]; [exact (N3 c H1 H2)|].
      specialize (HB c (in_or_app _ _ _ (or_intror H2))). lia.
    + intros c Hc. apply in_app_or in Hc. destruct Hc as [Hc|Hc]; [|left; apply in_or_app; right; exact Hc].
      destruct (Gb c Hc) as [I|I]; [left; apply in_or_app; left; exact I|right; exact I].
    + intros c Hc. apply in_or_app. left. exact Hc.
  - destruct (IH dy' L eq_refl N2 G F Tb NDb Gb) as (T3 & D3 & G3 & S3).
    destruct (frame p h h' b') as [T O].
    { intros c Hc. apply F; [apply HB, in_or_app; left; exact Hc|]. intros I. exact (N3 c Hc (S3 c I)). }
    rewrite Eb in T. destruct (more p N h' b' yb L T) as [T2 O2]. rewrite O in O2.
    unfold valued at 1. simpl. rewrite T2. simpl. rewrite T3. split; [reflexivity|].
    unfold entry_objects in *. simpl. rewrite O2. split; [|split].
    + apply NoDup_app_intro; [exact N1|exact D3|]. intros c H1 H2. apply G3 in H2. destruct H2 as [H2|H2]; [exact (N3 c H1 H2)|].
      specialize (HB c (in_or_app _ _ _ (or_introl H1))). lia.
    + intros c Hc. apply in_app_or in Hc. destruct Hc as [Hc|Hc]; [left; apply in_or_app; left; exact Hc|].
      destruct (G3 c Hc) as [I|I]; [left; apply in_or_app; right; exact I|right; exact I].
    + intros c Hc. apply in_or_app. right. exact (S3 c Hc).
Qed.
(** A value from the page is made of new objects *)
Lemma allocate_new : forall v h h1 b, allocate v h = (h1, b) -> length h <= length h1 /\
  (forall c, c < length h -> nth_error h1 c = nth_error h c) /\
  forall h', (forall c, length h <= c -> nth_error h' c = nth_error h1 c) ->
  tree_at 2 h' b = Some (yaml_of v) /\ NoDup (objects_at 2 h' b) /\ forall c, In c (objects_at 2 h' b) -> length h <= c.
Proof.
  intros v h h1 b H. destruct v as [s|l]; simpl in H; injection H as <- <-.
  - split; [rewrite app_length; lia|]. split; [intros c Hc; apply nth_error_app1; exact Hc|].
    intros h' F. simpl. rewrite (F (length h)) by lia. rewrite nth_error_app2, Nat.sub_diag by lia. simpl.
    split; [reflexivity|]. split; [constructor; [intros []|constructor]|]. intros c [<-|[]]. lia.
  - split; [rewrite !app_length; lia|]. split; [intros c Hc; apply nth_error_app1; exact Hc|].
    intros h' F.
    assert (B : nth_error h' (length h + length l) = Some (CSeq (seq (length h) (length l)))).
    { rewrite F by lia. rewrite nth_error_app2 by lia. replace (length h + length l - length h) with (length (map CScalar l)) by (rewrite map_length; lia).
      rewrite nth_error_app2 by lia. rewrite Nat.sub_diag. reflexivity. }
    assert (E : forall i, i < length l -> nth_error h' (length h + i) = option_map CScalar (nth_error l i)).
    { intros i Hi. rewrite F by lia. rewrite nth_error_app2 by lia. replace (length h + i - length h) with i by lia.
      rewrite nth_error_app1 by (rewrite map_length; exact Hi). apply nth_error_map. }
    assert (S : forall i m, i + length m = length l -> (forall j, j < length m -> nth_error m j = nth_error l (i + j)) ->
      map_opt (tree_at 1 h') (seq (length h + i) (length m)) = Some (map YScalar m) /\
      flat_map (objects_at 1 h') (seq (length h + i) (length m)) = seq (length h + i) (length m)).
    { intros i m. revert i. induction m as [|x m IH]; intros i Hi Hm; [split; reflexivity|]. simpl in Hi.
      pose proof (Hm 0 ltac:(simpl; lia)) as H0. simpl in H0. rewrite Nat.add_0_r in H0.
      cbn [length seq map_opt flat_map]. replace (S (length h + i)) with (length h + S i) by lia.
      destruct (IH (S i)) as [I1 I2]; [lia| |].
      { intros j Hj. replace (S i + j) with (i + S j) by lia. rewrite <- (Hm (S j)) by (simpl; lia). reflexivity. }
      rewrite I1, I2. simpl. rewrite E, <- H0 by lia. simpl. split; reflexivity. }
    destruct (S 0 l eq_refl ltac:(intros; reflexivity)) as [S1 S2]. rewrite Nat.add_0_r in S1, S2.
    cbn [tree_at objects_at]. rewrite B.
    change (map_opt _ (seq (length h) (length l))) with (map_opt (tree_at 1 h') (seq (length h) (length l))).
    change (flat_map _ (seq (length h) (length l))) with (flat_map (objects_at 1 h') (seq (length h) (length l))).
    rewrite S1, S2. split; [reflexivity|]. split.
    + constructor; [|apply seq_NoDup]. rewrite in_seq. lia.
    + intros c [<-|Hc]; [lia|]. rewrite in_seq in Hc. lia.
Qed.

(** The main lemma *)
Lemma set_objects : forall path v n h a y, tree_at n h a = Some y -> NoDup (objects_at n h a) ->
  match set_in_heap path v h a with
  | Some h' => exists y' m, set_at path (yaml_of v) y = Some y' /\ tree_at m h' a = Some y' /\ NoDup (objects_at m h' a) /\
      (forall c, In c (objects_at m h' a) -> In c (objects_at n h a) \/ length h <= c) /\
      (forall c, c < length h -> ~ In c (objects_at n h a) -> nth_error h' c = nth_error h c) /\ length h <= length h'
  | None => set_at path (yaml_of v) y = None
  end.
Proof.
  induction path as [|k rest IH]; intros v n h a y T ND; [reflexivity|].
  assert (La : a < length h) by (eapply inside; [exact T|destruct n; [discriminate T|left; reflexivity]]).
  destruct n as [|n]; [discriminate T|]. cbn [tree_at objects_at] in T, ND. cbn [objects_at].
  cbn [set_in_heap]. destruct (nth_error h a) as [[s|l|d]|] eqn:Ea.
  - injection T as <-. reflexivity.
  - destruct (map_opt (tree_at n h) l); [|discriminate T]. injection T as <-. reflexivity.
  - change (map_opt _ d) with (map_opt (entry_tree n h) d) in T. change (flat_map _ d) with (entry_objects n h d) in *.
    destruct (map_opt (entry_tree n h) d) as [dy|] eqn:Ed; [|discriminate T]. injection T as <-.
    inversion ND as [|? ? NA NDd]; subst.
    assert (GY : match get k d with Some b => exists yb, get k dy = Some yb /\ tree_at n h b = Some yb | None => get k dy = None end).
    { pose proof (valued_get _ _ _ k _ _ Ed) as G. destruct (get k dy) as [w|]; [destruct G as (b & -> & G); eauto|rewrite G; reflexivity]. }
    destruct rest as [|k2 rest].
    + destruct (allocate v h) as [h1 b] eqn:Eal. destruct (allocate_new _ _ _ _ Eal) as (L1 & F1 & N1).
      set (h' := store a (CMap (put k b d)) h1).
      assert (F' : forall c, c <> a -> nth_error h' c = nth_error h1 c) by (intros c Hc; apply store_other; congruence).
      destruct (N1 h') as (Tb & Db & Gb); [intros c Hc; apply F'; lia|].
      destruct (more 2 (n + 2) h' b _ ltac:(lia) Tb) as [Tb2 Ob2].
      destruct (entries_put n (n + 2) h h' a b (yaml_of v) k d dy ltac:(lia) Ed NDd NA) as (T3 & D3 & G3); try assumption.
      { intros c Hc Nc. rewrite F' by exact Nc. apply F1. exact Hc. }
      { rewrite Ob2. exact Db. } { rewrite Ob2. exact Gb. }
      exists (YMap (put k (yaml_of v) dy)), (S (n + 2)). split; [reflexivity|].
      assert (Ea' : nth_error h' a = Some (CMap (put k b d))) by (apply store_same; lia).
      cbn [tree_at objects_at]. rewrite Ea'. change (map_opt _ (put k b d)) with (map_opt (entry_tree (n + 2) h') (put k b d)).
      change (flat_map _ (put k b d)) with (entry_objects (n + 2) h' (put k b d)). rewrite T3.
      split; [reflexivity|]. split; [|split; [|split]].
      * constructor; [|exact D3]. intros I. destruct (G3 a I) as [I2|I2]; [exact (NA I2)|lia].
      * intros c [<-|Hc]; [left; left; reflexivity|]. destruct (G3 c Hc) as [I|I]; [left; right; exact I|right; exact I].
      * intros c Hc I. rewrite F'; [apply F1; exact Hc|]. intros ->. apply I. left. reflexivity.
      * unfold h'. rewrite store_length. exact L1.
    + destruct (get k d) as [b|] eqn:Gk.
      * destruct GY as (yb & Gy & Tb). 
        assert (NDb : NoDup (objects_at n h b)).
        { apply get_In in Gk. unfold entry_objects in NDd. clear -NDd Gk. induction d as [|x d IH]; [contradiction|]. simpl in NDd.
          destruct (NoDup_app_inv _ _ _ NDd) as (A1 & A2 & _). destruct Gk as [->|Gk]; [exact A1|exact (IH A2 Gk)]. }
        pose proof (IH v n h b yb Tb NDb) as I. cbn [set_at]. rewrite Gy.
        destruct (set_in_heap (k2 :: rest) v h b) as [h'|] eqn:Es.
        -- destruct I as (t & m & St & Tm & Dm & Gm & Fm & Lm).
           destruct (more m (m + n) h' b _ ltac:(lia) Tm) as [Tm2 Om2].
           destruct (entries_update n (m + n) h h' b t k d dy ltac:(lia) Ed NDd Gk Fm Tm2) as (T3 & D3 & G3 & S3).
           { rewrite Om2. exact Dm. } { rewrite Om2. exact Gm. }
           exists (YMap (put k t dy)), (S (m + n)).
           split; [cbn [set_at] in St; rewrite St; reflexivity|].
           assert (Ea' : nth_error h' a = Some (CMap d)) by (rewrite Fm; [exact Ea|exact La|intros I2; exact (NA (S3 a I2))]).
           cbn [tree_at objects_at]. rewrite Ea'. change (map_opt _ d) with (map_opt (entry_tree (m + n) h') d).
           change (flat_map _ d) with (entry_objects (m + n) h' d). rewrite T3.
           split; [reflexivity|]. split; [|split; [|split]].
           ++ constructor; [|exact D3]. intros I2. destruct (G3 a I2) as [I3|I3]; [exact (NA I3)|lia].
           ++ intros c [<-|Hc]; [left; left; reflexivity|]. destruct (G3 c Hc) as [I2|I2]; [left; right; exact I2|right; exact I2].
           ++ intros c Hc I2. apply Fm; [exact Hc|]. intros I3. apply I2. right. exact (S3 c I3).
           ++ exact Lm.
        -- cbn [set_at] in I. rewrite I. reflexivity.
      * rename GY into Gy. cbn [set_at]. rewrite Gy.
        set (h1 := store a (CMap (put k (length h) d)) (h ++ [CMap []])%list).
        assert (L1 : length h1 = S (length h)) by (unfold h1; rewrite store_length, app_length; simpl; lia).
        assert (E1 : nth_error h1 (length h) = Some (CMap [])).
        { unfold h1. rewrite store_other by lia. rewrite nth_error_app2, Nat.sub_diag by lia. reflexivity. }
        assert (I := IH v 1 h1 (length h) (YMap [])). cbn [tree_at objects_at] in I. rewrite E1 in I.
        specialize (I eq_refl ltac:(constructor; [intros []|constructor])).
        destruct (set_in_heap (k2 :: rest) v h1 (length h)) as [h'|] eqn:Es.
        -- destruct I as (t & m & St & Tm & Dm & Gm & Fm & Lm). simpl in Gm, Fm.
           destruct (more m (m + n) h' _ _ ltac:(lia) Tm) as [Tm2 Om2].
           assert (Fh : forall c, c < length h -> c <> a -> nth_error h' c = nth_error h c).
           { intros c Hc Nc. rewrite Fm by lia. unfold h1. rewrite store_other by congruence. apply nth_error_app1. exact Hc. }
           destruct (entries_put n (m + n) h h' a (length h) t k d dy ltac:(lia) Ed NDd NA Fh Tm2) as (T3 & D3 & G3).
           { rewrite Om2. exact Dm. } { rewrite Om2. intros c Hc. destruct (Gm c Hc) as [[<-|[]]|I2]; lia. }
           exists (YMap (put k t dy)), (S (m + n)).
           split; [cbn [set_at] in St; rewrite St; reflexivity|].
           assert (Ea' : nth_error h' a = Some (CMap (put k (length h) d))).
           { rewrite Fm by lia. unfold h1. apply store_same. rewrite app_length. simpl. lia. }
           cbn [tree_at objects_at]. rewrite Ea'. change (map_opt _ (put k (length h) d)) with (map_opt (entry_tree (m + n) h') (put k (length h) d)).
           change (flat_map _ (put k (length h) d)) with (entry_objects (m + n) h' (put k (length h) d)). rewrite T3.
           split; [reflexivity|]. split; [|split; [|split]].
           ++ constructor; [|exact D3]. intros I2. destruct (G3 a I2) as [I3|I3]; [exact (NA I3)|lia].
           ++ intros c [<-|Hc]; [left; left; reflexivity|]. destruct (G3 c Hc) as [I2|I2]; [left; right; exact I2|right; exact I2].
           ++ intros c Hc I2. apply Fh; [exact Hc|]. intros ->. apply I2. left. reflexivity.
           ++ lia.
        -- cbn [set_at] in I. rewrite I. reflexivity.
  - discriminate T.
Qed.
