(** Lemmas about scene documents: dicts, parent assignment, recorders. *)
From Coq Require Import Reals ZArith List Bool Arith String Ascii Lra Lia DecimalString DecimalNat Decimal.
From Verif Require Import Base Vec Interp DistModel MaterialModel KernelModel TallyModel SpecModel.
Import ListNotations.
Open Scope string_scope.
Open Scope nat_scope.
Open Scope list_scope.

(** ** Dicts *)
Lemma mem_str_In : forall k l, mem_str k l = true <-> In k l.
Proof.
  intros k l. unfold mem_str. rewrite existsb_exists. split.
  - intros (x & H & E). apply String.eqb_eq in E. subst. exact H.
  - intro H. exists k. split; [exact H|apply String.eqb_refl].
Qed.
Lemma mem_str_not : forall k l, mem_str k l = false <-> ~ In k l.
Proof.
  intros k l. rewrite <- mem_str_In. destruct (mem_str k l); split; intro H; try reflexivity; try discriminate; try congruence.
Qed.
Lemma get_In : forall A k (v : A) d, get k d = Some v -> In (k, v) d.
Proof.
  intros A k v d. induction d as [|[k' v'] d IH]; simpl; [discriminate|].
  destruct (String.eqb k' k) eqn:E; intro H.
  - apply String.eqb_eq in E. injection H as H. subst. left. reflexivity.
  - right. apply IH. exact H.
Qed.
Lemma In_keys : forall A k (v : A) d, In (k, v) d -> In k (keys d).
Proof. intros A k v d H. apply (in_map fst) in H. exact H. Qed.
Lemma get_None : forall A k (d : dict A), get k d = None <-> ~ In k (keys d).
Proof.
  intros A k d. induction d as [|[k' v'] d IH]; simpl; [split; [intros _ []|reflexivity]|].
  destruct (String.eqb k' k) eqn:E.
  - apply String.eqb_eq in E. split; [discriminate|]. intro H. exfalso. apply H. left. exact E.
  - apply String.eqb_neq in E. rewrite IH. split; intro H; [intros [H1|H1]; [exact (E H1)|exact (H H1)]|].
    intro H1. apply H. right. exact H1.
Qed.
Lemma In_get : forall A k (v : A) d, NoDup (keys d) -> In (k, v) d -> get k d = Some v.
Proof.
  intros A k v d. induction d as [|[k' v'] d IH]; simpl; [intros _ []|]. intros N H. inversion N as [|? ? N1 N2]; subst.
  destruct H as [H|H].
  - injection H as H1 H2. subst. rewrite String.eqb_refl. reflexivity.
  - destruct (String.eqb k' k) eqn:E; [|apply IH; assumption].
    apply String.eqb_eq in E. subst. exfalso. apply N1. eapply In_keys. exact H.
Qed.
Lemma keys_get : forall A k (d : dict A), In k (keys d) -> exists v, get k d = Some v.
Proof. intros A k d H. destruct (get k d) eqn:E; [eauto|]. exfalso. apply get_None in E. exact (E H). Qed.
Lemma has_keys : forall A k (d : dict A), has k d = true <-> In k (keys d).
Proof.
  intros A k d. unfold has. destruct (get k d) eqn:E; split; intro H; try reflexivity; try discriminate.
  - eapply In_keys, get_In. exact E.
  - exfalso. apply get_None in E. exact (E H).
Qed.
Lemma has_not : forall A k (d : dict A), has k d = false <-> ~ In k (keys d).
Proof.
  intros A k d. rewrite <- has_keys. destruct (has k d); split; intro H; try reflexivity; try discriminate; try congruence.
Qed.
Lemma get_put : forall A k j (v : A) d, get j (put k v d) = if String.eqb k j then Some v else get j d.
Proof.
  intros A k j v d. induction d as [|[k' v'] d IH]; simpl.
  - destruct (String.eqb k j); reflexivity.
  - destruct (String.eqb k' k) eqn:E; simpl.
    + apply String.eqb_eq in E. subst. destruct (String.eqb k j); reflexivity.
    + destruct (String.eqb k' j) eqn:E2; [|exact IH].
      destruct (String.eqb k j) eqn:E3; [|reflexivity].
      apply String.eqb_eq in E2, E3. apply String.eqb_neq in E. congruence.
Qed.
Lemma keys_put_new : forall A k (v : A) d, ~ In k (keys d) -> put k v d = d ++ [(k, v)].
Proof.
  intros A k v d. induction d as [|[k' v'] d IH]; simpl; intro H; [reflexivity|].
  destruct (String.eqb k' k) eqn:E; [apply String.eqb_eq in E; exfalso; apply H; left; exact E|].
  rewrite IH; [reflexivity|]. intro H1. apply H. right. exact H1.
Qed.
Lemma keys_put_old : forall A k (v : A) d, In k (keys d) -> keys (put k v d) = keys d.
Proof.
  intros A k v d. induction d as [|[k' v'] d IH]; simpl; [intros []|]. intro H.
  destruct (String.eqb k' k) eqn:E; simpl; [reflexivity|].
  apply String.eqb_neq in E. destruct H as [H|H]; [contradiction|]. unfold keys in *. rewrite IH; [reflexivity|exact H].
Qed.
Lemma keys_app : forall A (d e : dict A), keys (d ++ e) = keys d ++ keys e.
Proof. intros. apply map_app. Qed.
Lemma NoDup_put : forall A k (v : A) d, NoDup (keys d) -> NoDup (keys (put k v d)).
Proof.
  intros A k v d N. destruct (in_dec string_dec k (keys d)) as [H|H].
  - rewrite keys_put_old; assumption.
  - rewrite keys_put_new by assumption. rewrite keys_app.
    simpl. induction (keys d) as [|x l IH]; simpl; [constructor; [intros []|constructor]|].
    inversion N as [|? ? N1 N2]; subst. constructor.
    + rewrite in_app_iff. intros [H1|[H1|[]]]; [exact (N1 H1)|]. apply H. left. symmetry. exact H1.
    + apply IH; [exact N2|]. intro H1. apply H. right. exact H1.
Qed.
Lemma keys_filter_incl : forall A f (d : dict A) k, In k (keys (filter f d)) -> In k (keys d).
Proof.
  intros A f d k H. unfold keys in *. apply in_map_iff in H. destruct H as (x & E & H). apply filter_In in H.
  apply in_map_iff. exists x. tauto.
Qed.
Lemma NoDup_filter_keys : forall A f (d : dict A), NoDup (keys d) -> NoDup (keys (filter f d)).
Proof.
  intros A f d. induction d as [|[k v] d IH]; simpl; intro N; [constructor|]. inversion N as [|? ? N1 N2]; subst.
  destruct (f (k, v)); simpl; [|apply IH; exact N2]. constructor; [|apply IH; exact N2].
  intro H. apply N1. eapply keys_filter_incl. exact H.
Qed.
Lemma keys_remove : forall A k j (d : dict A), In j (keys (remove_key k d)) <-> In j (keys d) /\ j <> k.
Proof.
  intros A k j d. unfold remove_key, keys. rewrite !in_map_iff. split.
  - intros (x & E & H). apply filter_In in H. destruct H as [H1 H2]. subst. split; [eauto|].
    apply negb_true_iff, String.eqb_neq in H2. exact H2.
  - intros [(x & E & H) N]. exists x. split; [exact E|]. apply filter_In. split; [exact H|].
    apply negb_true_iff, String.eqb_neq. congruence.
Qed.
Lemma In_remove : forall A k j (v : A) d, In (j, v) (remove_key k d) <-> In (j, v) d /\ j <> k.
Proof.
  intros A k j v d. unfold remove_key. rewrite filter_In. simpl. rewrite negb_true_iff, String.eqb_neq. reflexivity.
Qed.

Lemma map_opt_some : forall A B (f : A -> option B) l ys, map_opt f l = Some ys <-> Forall2 (fun x y => f x = Some y) l ys.
Proof.
  intros A B f l. induction l as [|x l IH]; intro ys; simpl.
  - split; intro H; [injection H as H; subst; constructor|inversion H; reflexivity].
  - split; intro H.
    + destruct (f x) eqn:E; [|discriminate]. destruct (map_opt f l) eqn:E2; [|discriminate].
      injection H as H. subst. constructor; [exact E|]. apply IH. reflexivity.
    + inversion H as [|? ? ? ? H1 H2]; subst. rewrite H1. apply IH in H2. rewrite H2. reflexivity.
Qed.
Lemma map_opt_total : forall A B (f : A -> option B) l, (exists ys, map_opt f l = Some ys) <-> (forall x, In x l -> exists y, f x = Some y).
Proof.
  intros A B f l. induction l as [|x l IH]; simpl.
  - split; [intros _ ? []|]. intros _. eauto.
  - split.
    + intros (ys & H). destruct (f x) eqn:E; [|discriminate]. destruct (map_opt f l) eqn:E2; [|discriminate].
      intros z [H1|H1]; [subst; eauto|]. apply (proj1 IH); eauto.
    + intro H. destruct (H x (or_introl eq_refl)) as (y & E). rewrite E.
      destruct (proj2 IH (fun z Hz => H z (or_intror Hz))) as (ys & E2). rewrite E2. eauto.
Qed.
Lemma Forall2_In_l : forall A B (P : A -> B -> Prop) l ys x, Forall2 P l ys -> In x l -> exists y, In y ys /\ P x y.
Proof.
  intros A B P l ys x H. induction H as [|a b l ys H1 H2 IH]; [intros []|]. intros [E|E].
  - subst. exists b. split; [left; reflexivity|exact H1].
  - destruct (IH E) as (y & Hy & Py). exists y. split; [right; exact Hy|exact Py].
Qed.
Lemma Forall2_In_r : forall A B (P : A -> B -> Prop) l ys y, Forall2 P l ys -> In y ys -> exists x, In x l /\ P x y.
Proof.
  intros A B P l ys y H. induction H as [|a b l ys H1 H2 IH]; [intros []|]. intros [E|E].
  - subst. exists a. split; [left; reflexivity|exact H1].
  - destruct (IH E) as (x & Hx & Px). exists x. split; [right; exact Hx|exact Px].
Qed.

(** ** Parents *)
Definition edge (f : forest) (k p : string) : Prop := get k f = Some (Some p).
Inductive anc (f : forest) : string -> string -> Prop :=
| anc_refl : forall k, anc f k k
| anc_step : forall k p a, edge f k p -> anc f p a -> anc f k a.
Definition acyclic (f : forest) : Prop := forall k p, edge f k p -> ~ anc f p k.

Lemma anc_trans : forall f a b c, anc f a b -> anc f b c -> anc f a c.
Proof. intros f a b c H. induction H; [auto|]. intro H1. eapply anc_step; [eassumption|]. apply IHanc. exact H1. Qed.
Lemma anc_one : forall f a b, edge f a b -> anc f a b.
Proof. intros f a b H. eapply anc_step; [exact H|constructor]. Qed.

Inductive chain (f : forest) : nat -> string -> string -> list string -> Prop :=
| chain_0 : forall k, chain f 0 k k []
| chain_S : forall n k p a l, edge f k p -> chain f n p a l -> chain f (S n) k a (k :: l).
Lemma anc_chain : forall f k a, anc f k a -> exists n l, chain f n k a l.
Proof.
  intros f k a H. induction H as [k|k p a H1 H2 (n & l & IH)]; [exists 0, []; constructor|].
  exists (S n), (k :: l). econstructor; eassumption.
Qed.
Lemma chain_anc : forall f n k a l, chain f n k a l -> anc f k a.
Proof. intros f n k a l H. induction H; [constructor|econstructor; eassumption]. Qed.
Lemma chain_len : forall f n k a l, chain f n k a l -> List.length l = n.
Proof. intros f n k a l H. induction H; simpl; congruence. Qed.
Lemma chain_mem : forall f n k a l x, chain f n k a l -> In x l -> anc f k x.
Proof.
  intros f n k a l x H. induction H as [|n k p a l H1 H2 IH]; [intros []|]. intros [E|E]; [subst; constructor|].
  eapply anc_step; [exact H1|]. apply IH. exact E.
Qed.
Lemma chain_keys : forall f n k a l x, chain f n k a l -> In x l -> In x (keys f).
Proof.
  intros f n k a l x H. induction H as [|n k p a l H1 H2 IH]; [intros []|]. intros [E|E]; [|apply IH; exact E].
  subst. eapply In_keys, get_In. exact H1.
Qed.
Lemma chain_NoDup : forall f n k a l, acyclic f -> chain f n k a l -> NoDup l.
Proof.
  intros f n k a l A H. induction H as [|n k p a l H1 H2 IH]; [constructor|]. constructor; [|exact IH].
  intro H. exact (A k p H1 (chain_mem _ _ _ _ _ _ H2 H)).
Qed.
Lemma keys_length : forall A (d : dict A), List.length (keys d) = List.length d.
Proof. intros. apply map_length. Qed.
Lemma chain_bound : forall f n k a l, acyclic f -> chain f n k a l -> n <= List.length f.
Proof.
  intros f n k a l A H. rewrite <- (chain_len _ _ _ _ _ H), <- keys_length.
  apply NoDup_incl_length; [eapply chain_NoDup; eassumption|]. intros x Hx. eapply chain_keys; eassumption.
Qed.
Lemma chain_path : forall f n k a l fuel, chain f n k a l -> n <= fuel -> In a (path_up fuel f k).
Proof.
  intros f n k a l fuel H. revert fuel. induction H as [|n k p a l H1 H2 IH]; intros fuel Hle.
  - destruct fuel; simpl; left; reflexivity.
  - destruct fuel as [|fuel]; [lia|]. simpl. right. unfold edge in H1. rewrite H1. apply IH. lia.
Qed.
Lemma path_anc : forall f fuel k a, In a (path_up fuel f k) -> anc f k a.
Proof.
  intros f fuel. induction fuel as [|fuel IH]; intros k a H; simpl in H.
  - destruct H as [H|[]]. subst. constructor.
  - destruct H as [H|H]; [subst; constructor|]. destruct (get k f) as [[p|]|] eqn:E; [|destruct H|destruct H].
    eapply anc_step; [exact E|]. apply IH. exact H.
Qed.
(** The loop check of anytree sees every ancestor. *)
Lemma path_up_iff : forall f p k, acyclic f -> mem_str k (path_up (List.length f) f p) = true <-> anc f p k.
Proof.
  intros f p k A. rewrite mem_str_In. split; [apply path_anc|]. intro H.
  destruct (anc_chain _ _ _ H) as (n & l & C). eapply chain_path; [exact C|]. eapply chain_bound; eassumption.
Qed.

Lemma edge_put : forall f k p a b, edge (put k (Some p) f) a b -> (a = k /\ b = p) \/ (a <> k /\ edge f a b).
Proof.
  intros f k p a b. unfold edge. rewrite get_put. destruct (String.eqb k a) eqn:E; intro H.
  - apply String.eqb_eq in E. injection H as H. left. split; congruence.
  - apply String.eqb_neq in E. right. split; [congruence|exact H].
Qed.
Lemma anc_put : forall f k p a b, ~ anc f p k -> anc (put k (Some p) f) a b -> anc f a b \/ (anc f a k /\ anc f p b).
Proof.
  intros f k p a b N H. induction H as [x|x c b H1 H2 IH]; [left; constructor|].
  apply edge_put in H1. destruct H1 as [[E1 E2]|[E1 E2]].
  - subst. right. split; [constructor|]. destruct IH as [IH|[IH _]]; [exact IH|contradiction].
  - destruct IH as [IH|[IH1 IH2]]; [left; econstructor; eassumption|right; split; [econstructor; eassumption|exact IH2]].
Qed.
Lemma acyclic_put : forall f k p, acyclic f -> ~ anc f p k -> acyclic (put k (Some p) f).
Proof.
  intros f k p A N x c H1 H2. apply edge_put in H1. apply anc_put in H2; [|exact N].
  destruct H1 as [[E1 E2]|[E1 E2]].
  - subst. destruct H2 as [H2|[H2 _]]; contradiction.
  - destruct H2 as [H2|[H2 H3]]; [exact (A _ _ E2 H2)|]. apply N. eapply anc_trans; [exact H3|]. eapply anc_step; eassumption.
Qed.
Lemma acyclic_put_None : forall f k, acyclic f -> acyclic (put k None f).
Proof.
  intros f k A.
  assert (E : forall a b, edge (put k None f) a b -> edge f a b)
    by (intros a b; unfold edge; rewrite get_put; destruct (String.eqb k a); [discriminate|auto]).
  assert (E2 : forall a b, anc (put k None f) a b -> anc f a b)
    by (intros a b H; induction H; [constructor|econstructor; [apply E; eassumption|assumption]]).
  intros a b H1 H2. exact (A _ _ (E _ _ H1) (E2 _ _ H2)).
Qed.

(** The parent a document declares: world for the others without one, none for world *)
Definition declared_parent (k : string) (declared : option string) : option string :=
  if String.eqb k "world" then None else Some (match declared with Some p => p | None => "world" end).
Lemma parent_of_spec : forall names k dp v, parent_of names k dp = Some v ->
  v = declared_parent k dp /\ (forall p, v = Some p -> In p names).
Proof.
  intros names k dp v. unfold parent_of, declared_parent. destruct (String.eqb k "world").
  - intro H. injection H as H. subst. split; [reflexivity|discriminate].
  - destruct dp as [p|].
    + destruct (mem_str p names) eqn:E; [|discriminate]. intro H. injection H as H. subst.
      split; [reflexivity|]. intros q Hq. injection Hq as Hq. subst. apply mem_str_In. exact E.
    + destruct (mem_str "world" names) eqn:E; [|discriminate]. intro H. injection H as H. subst.
      split; [reflexivity|]. intros q Hq. injection Hq as Hq. subst. apply mem_str_In. exact E.
Qed.
Lemma parent_of_some : forall names k dp, (forall p, declared_parent k dp = Some p -> In p names) ->
  parent_of names k dp = Some (declared_parent k dp).
Proof.
  intros names k dp. unfold parent_of, declared_parent. destruct (String.eqb k "world"); [reflexivity|].
  intro H. destruct dp as [p|]; rewrite (proj2 (mem_str_In _ _) (H _ eq_refl)); reflexivity.
Qed.
Lemma set_parent_fresh : forall f k v, get k f = Some None -> acyclic f ->
  (forall f', set_parent f k v = Some f' -> f' = put k v f /\ acyclic f') /\
  (set_parent f k v = None <-> exists p, v = Some p /\ anc f p k).
Proof.
  intros f k v Hk A. unfold set_parent. destruct v as [p|].
  - rewrite Hk. destruct (String.eqb p k) eqn:E.
    + apply String.eqb_eq in E. subst. split; [discriminate|]. split; [intros _|reflexivity]. exists k. split; [reflexivity|constructor].
    + destruct (mem_str k (path_up (List.length f) f p)) eqn:E2.
      * apply path_up_iff in E2; [|exact A]. split; [discriminate|]. split; [intros _|reflexivity]. eauto.
      * assert (N : ~ anc f p k) by (intro H; apply path_up_iff in H; [congruence|exact A]).
        split; [|split; [discriminate|intros (q & Hq & H); injection Hq as Hq; subst; contradiction]].
        intros f' H. injection H as H. subst. split; [reflexivity|]. apply acyclic_put; assumption.
  - split; [|split; [discriminate|intros (q & Hq & _); discriminate]].
    intros f' H. injection H as H. subst. split; [reflexivity|]. apply acyclic_put_None. exact A.
Qed.

(** State after assigning a prefix of the nodes *)
Lemma assign_parents_spec : forall names todo f f',
  assign_parents names todo f = Some f' -> NoDup (keys todo) -> (forall k, In k (keys todo) -> get k f = Some None) -> acyclic f ->
  acyclic f' /\ keys f' = keys f /\
  (forall k dp, In (k, dp) todo -> get k f' = Some (declared_parent k dp) /\ forall p, declared_parent k dp = Some p -> In p names) /\
  (forall k, ~ In k (keys todo) -> get k f' = get k f).
Proof.
  intros names todo. induction todo as [|[k dp] todo IH]; intros f f' H N F A; simpl in H.
  - injection H as H. subst. split; [exact A|]. split; [reflexivity|]. split; [intros ? ? []|reflexivity].
  - inversion N as [|? ? N1 N2]; subst.
    destruct (parent_of names k dp) as [v|] eqn:E; [|discriminate].
    apply parent_of_spec in E. destruct E as [Ev Ein].
    destruct (set_parent f k v) as [f1|] eqn:E; [|discriminate].
    assert (Fk : get k f = Some None) by (apply F; left; reflexivity).
    destruct (proj1 (set_parent_fresh f k v Fk A) f1 E) as [E1 A1].
    destruct (IH f1 f' H N2) as (A2 & K & D & O).
    + intros j Hj. subst f1. rewrite get_put. destruct (String.eqb k j) eqn:E2; [apply String.eqb_eq in E2; subst; contradiction|].
      apply F. right. exact Hj.
    + exact A1.
    + split; [exact A2|]. split; [|split].
      * rewrite K, E1. apply keys_put_old. eapply In_keys, get_In. exact Fk.
      * intros j dq [Hj|Hj]; [|apply D; exact Hj]. injection Hj as H1 H2. subst j dq.
        split; [|intros p Hp; apply Ein; congruence]. rewrite (O k N1), E1, get_put, String.eqb_refl. congruence.
      * intros j Hj. rewrite O by (intro H2; apply Hj; right; exact H2). rewrite E1, get_put.
        destruct (String.eqb k j) eqn:E2; [apply String.eqb_eq in E2; exfalso; apply Hj; left; exact E2|reflexivity].
Qed.

(** When assignment succeeds *)
Definition dedge (declared : dict (option string)) (k p : string) : Prop :=
  exists dp, get k declared = Some dp /\ declared_parent k dp = Some p.
Inductive dreach (declared : dict (option string)) : string -> Prop :=
| dreach_world : dreach declared "world"
| dreach_step : forall k p, dedge declared k p -> dreach declared p -> dreach declared k.
Inductive danc (declared : dict (option string)) : string -> string -> Prop :=
| danc_refl : forall k, danc declared k k
| danc_step : forall k p a, dedge declared k p -> danc declared p a -> danc declared k a.
Lemma danc_trans : forall f a b c, danc f a b -> danc f b c -> danc f a c.
Proof. intros f a b c H. induction H; [auto|]. intro H1. eapply danc_step; [eassumption|]. apply IHdanc. exact H1. Qed.
Lemma dedge_fun : forall d k p q, dedge d k p -> dedge d k q -> p = q.
Proof. intros d k p q (a & H1 & H2) (b & H3 & H4). congruence. Qed.
Lemma dedge_world : forall d p, ~ dedge d "world" p.
Proof. intros d p (a & _ & H). discriminate H. Qed.
Lemma dreach_no_cycle : forall d k, dreach d k -> forall p, dedge d k p -> ~ danc d p k.
Proof.
  intros d k H. induction H as [|k q E H IH]; intros p Ep C; [exact (dedge_world _ _ Ep)|].
  rewrite <- (dedge_fun _ _ _ _ E Ep) in C. clear Ep p.
  (* q leads to k which leads to q *)
  inversion C as [|? r ? E2 C2]; subst.
  - exact (IH _ E C).
  - apply (IH _ E2). eapply danc_trans; [exact C2|]. eapply danc_step; [exact E|constructor].
Qed.

Lemma assign_parents_total : forall names declared todo f,
  NoDup (keys todo) -> (forall k, In k (keys todo) -> get k f = Some None) -> acyclic f ->
  (forall k dp, In (k, dp) todo -> get k declared = Some dp) ->
  (forall k p, edge f k p -> dedge declared k p) ->
  (forall k dp, In (k, dp) todo -> forall p, declared_parent k dp = Some p -> In p names) ->
  (forall k dp, In (k, dp) todo -> dreach declared k) ->
  exists f', assign_parents names todo f = Some f'.
Proof.
  intros names declared todo. induction todo as [|[k dp] todo IH]; intros f N F A T E P R; simpl; [eauto|].
  inversion N as [|? ? N1 N2]; subst.
  assert (I0 : In (k, dp) ((k, dp) :: todo)) by (left; reflexivity).
  rewrite (parent_of_some names k dp (P k dp I0)).
  assert (Fk : get k f = Some None) by (apply F; left; reflexivity).
  destruct (set_parent f k (declared_parent k dp)) as [f1|] eqn:E1.
  - destruct (proj1 (set_parent_fresh f k _ Fk A) f1 E1) as [E2 A1]. apply IH; try assumption.
    + intros j Hj. subst f1. rewrite get_put. destruct (String.eqb k j) eqn:E2; [apply String.eqb_eq in E2; subst; contradiction|].
      apply F. right. exact Hj.
    + intros j dq Hj. apply T. right. exact Hj.
    + intros j p Hj. subst f1. unfold edge in Hj. rewrite get_put in Hj. destruct (String.eqb k j) eqn:E2; [|apply E; exact Hj].
      apply String.eqb_eq in E2. subst j. injection Hj as Hj. exists dp. split; [apply T; exact I0|exact Hj].
    + intros j dq Hj. apply P. right. exact Hj.
    + intros j dq Hj. eapply R. right. exact Hj.
  - exfalso. apply (proj2 (set_parent_fresh f k _ Fk A)) in E1. destruct E1 as (p & Hp & C).
    assert (C2 : danc declared p k) by (clear -C E; induction C; [constructor|econstructor; [apply E; eassumption|assumption]]).
    refine (dreach_no_cycle declared k (R _ _ I0) p _ C2). exists dp. split; [apply T; exact I0|exact Hp].
Qed.

(** Following parents in a finite acyclic forest ends *)
Inductive reaches (f : forest) : string -> Prop :=
| reaches_world : get "world" f = Some None -> reaches f "world"
| reaches_step : forall k p, edge f k p -> reaches f p -> reaches f k.

Lemma chain_extend : forall f n k a l p, chain f n k a l -> edge f a p -> exists l', chain f (S n) k p l'.
Proof.
  intros f n k a l p H E. induction H as [k|n k q a l H1 H2 IH].
  - exists [k]. econstructor; [exact E|constructor].
  - destruct (IH E) as (l' & C). exists (k :: l'). econstructor; eassumption.
Qed.
Lemma acyclic_reaches : forall f, acyclic f ->
  (forall k, In k (keys f) -> k <> "world" -> exists p, edge f k p /\ In p (keys f)) ->
  get "world" f = Some None -> forall k, In k (keys f) -> reaches f k.
Proof.
  intros f A P W.
  assert (G : forall n k a l, chain f n k a l -> In a (keys f) -> forall fuel, List.length f - n < fuel -> reaches f a).
  { intros n k a l C Ha fuel. revert n k a l C Ha. induction fuel as [|fuel IH]; intros n k a l C Ha Hf; [lia|].
    destruct (string_dec a "world") as [->|Na]; [constructor; exact W|].
    destruct (P a Ha Na) as (p & Ep & Hp). eapply reaches_step; [exact Ep|].
    destruct (chain_extend _ _ _ _ _ _ C Ep) as (l' & C'). pose proof (chain_bound _ _ _ _ _ A C').
    eapply (IH (S n)); [exact C'|exact Hp|lia]. }
  intros k Hk. eapply (G 0 k k []); [constructor|exact Hk|apply Nat.lt_succ_diag_r].
Qed.

Definition declared_of (nodes : dict node_spec) : dict (option string) := map (fun '(k, s) => (k, ns_parent s)) nodes.
Lemma keys_map_val : forall A B (g : A -> B) (d : dict A), keys (map (fun '(k, s) => (k, g s)) d) = keys d.
Proof. intros. unfold keys. rewrite map_map. apply map_ext. intros [? ?]. reflexivity. Qed.
Lemma get_map_val : forall A B (g : A -> B) (d : dict A) k, get k (map (fun '(k, s) => (k, g s)) d) = option_map g (get k d).
Proof.
  intros A B g d k. induction d as [|[k' v] d IH]; simpl; [reflexivity|]. destruct (String.eqb k' k); [reflexivity|exact IH].
Qed.
Lemma In_map_val : forall A B (g : A -> B) (d : dict A) k y, In (k, y) (map (fun '(k, s) => (k, g s)) d) <-> exists s, In (k, s) d /\ y = g s.
Proof.
  intros. rewrite in_map_iff. split.
  - intros ([k' s] & E & H). injection E as E1 E2. subst. eauto.
  - intros (s & H & E). exists (k, s). subst. auto.
Qed.

Definition blank (declared : dict (option string)) : forest := map (fun kv => (fst kv, None)) declared.
Lemma blank_keys : forall d, keys (blank d) = keys d.
Proof. intro d. unfold keys, blank. rewrite map_map. reflexivity. Qed.
Lemma blank_get : forall d k, In k (keys d) -> get k (blank d) = Some None.
Proof.
  induction d as [|[k' v] d IH]; intros k H; [destruct H|]. simpl. destruct (String.eqb k' k) eqn:E; [reflexivity|].
  apply String.eqb_neq in E. destruct H as [H|H]; [contradiction|apply IH; exact H].
Qed.
Lemma blank_edge : forall d k p, ~ edge (blank d) k p.
Proof.
  intros d k p. unfold edge. induction d as [|[k' v] d IH]; simpl; [discriminate|]. destruct (String.eqb k' k); [discriminate|exact IH].
Qed.
Lemma blank_acyclic : forall d, acyclic (blank d).
Proof. intros d k p H. exfalso. exact (blank_edge _ _ _ H). Qed.

Lemma make_tree_spec : forall declared f, NoDup (keys declared) -> In "world" (keys declared) -> make_tree declared = Some f ->
  keys f = keys declared /\
  (forall k dp, get k declared = Some dp -> get k f = Some (declared_parent k dp)) /\
  (forall k p, edge f k p -> In p (keys declared)) /\
  (forall k, In k (keys declared) -> reaches f k).
Proof.
  intros d f N W H. unfold make_tree in H.
  destruct (assign_parents_spec _ _ _ _ H N (fun k Hk => blank_get d k Hk) (blank_acyclic d)) as (A & K & D & O).
  change (map (fun kv : string * option string => (fst kv, None)) d) with (blank d) in *. rewrite blank_keys in K.
  assert (G : forall k dp, get k d = Some dp -> get k f = Some (declared_parent k dp)) by (intros k dp Hk; apply D; apply get_In; exact Hk).
  assert (E : forall k p, edge f k p -> In p (keys d)).
  { intros k p Hk. assert (Hin : In k (keys d)) by (rewrite <- K; eapply In_keys, get_In; exact Hk).
    destruct (keys_get _ _ _ Hin) as (dp & Hd). destruct (D k dp (get_In _ _ _ _ Hd)) as [D1 D2].
    apply D2. unfold edge in Hk. congruence. }
  split; [exact K|]. split; [exact G|]. split; [exact E|].
  intros k Hk. apply acyclic_reaches; [exact A| | |rewrite K; exact Hk].
  - intros j Hj Nj. rewrite K in *. destruct (keys_get _ _ _ Hj) as (dp & Hd). pose proof (G _ _ Hd) as Gj.
    unfold declared_parent in Gj. rewrite (proj2 (String.eqb_neq j "world") Nj) in Gj.
    eexists. split; [exact Gj|]. eapply E. exact Gj.
  - destruct (keys_get _ _ _ W) as (dp & Hd). apply (G _ _ Hd).
Qed.
Lemma make_tree_total : forall declared, NoDup (keys declared) -> In "world" (keys declared) ->
  (forall k, In k (keys declared) -> dreach declared k) -> exists f, make_tree declared = Some f.
Proof.
  intros d N W R. unfold make_tree. apply (assign_parents_total _ d).
  - exact N.
  - intros k Hk. apply blank_get. exact Hk.
  - apply blank_acyclic.
  - intros k dp Hk. apply In_get; assumption.
  - intros k p Hk. exfalso. exact (blank_edge _ _ _ Hk).
  - intros k dp Hk p Hp. pose proof (R k (In_keys _ _ _ _ Hk)) as Rk.
    inversion Rk as [|? q (dq & Eq & Dq) Rq]; subst; [discriminate Hp|].
    rewrite (In_get _ _ _ _ N Hk) in Eq. injection Eq as Eq. subst dq. rewrite Hp in Dq. injection Dq as Dq. subst q.
    inversion Rq as [|? q (dq & Eq & _) _]; subst; [exact W|]. eapply In_keys, get_In. exact Eq.
  - intros k dp Hk. apply R. eapply In_keys. exact Hk.
Qed.
Lemma reaches_dreach : forall declared f, keys f = keys declared -> (forall k dp, get k declared = Some dp -> get k f = Some (declared_parent k dp)) ->
  forall k, reaches f k -> dreach declared k.
Proof.
  intros d f K G k H. induction H as [|k p E H IH]; [constructor|]. econstructor; [|exact IH].
  assert (Hin : In k (keys d)) by (rewrite <- K; eapply In_keys, get_In; exact E).
  destruct (keys_get _ _ _ Hin) as (dp & Hd). exists dp. split; [exact Hd|]. unfold edge in E. rewrite (G _ _ Hd) in E. injection E as E. exact E.
Qed.

(** ** Automatic recorders *)
Fixpoint no_dash (s : string) : bool :=
  match s with EmptyString => true | String c s => negb (Ascii.eqb c "-"%char) && no_dash s end.
Lemma no_dash_app : forall a b, no_dash (a ++ String "-" b)%string = false.
Proof. induction a as [|c a IH]; intro b; simpl; [reflexivity|]. rewrite IH. apply andb_false_r. Qed.
Lemma recorder_name_inj : forall n l n' l', no_dash l = true -> no_dash l' = true ->
  recorder_name n l = recorder_name n' l' -> n = n' /\ l = l'.
Proof.
  unfold recorder_name. intros n l n' l' Hl Hl'. revert n'. induction n as [|c n IH]; intros n' H; simpl in H.
  - destruct n' as [|c' n']; simpl in H; injection H as H; [auto|]. exfalso. subst.
    rewrite no_dash_app in Hl. discriminate Hl.
  - destruct n' as [|c' n']; simpl in H; injection H as H1 H2.
    + exfalso. subst. rewrite no_dash_app in Hl'. discriminate Hl'.
    + destruct (IH _ H2) as [E1 E2]. subst. auto.
Qed.
Definition auto_labels : list string := ["lost"; "top"; "bottom"; "east"; "west"; "north"; "south"; "escaping"].
Lemma auto_labels_no_dash : forall l, In l auto_labels -> no_dash l = true.
Proof. intros l H. simpl in H. repeat (destruct H as [H|H]; [subst; reflexivity|]). destruct H. Qed.

Lemma face_axes : forall z, z <> 0%R ->
  face_axis [z; 0%R; 0%R] = 0 /\ face_axis [0%R; z; 0%R] = 1 /\ face_axis [0%R; 0%R; z] = 2.
Proof.
  intros z Hz. unfold face_axis. rewrite (proj2 (Reqb_false z 0) Hz), (proj2 (Reqb_true 0 0) eq_refl). auto.
Qed.
Definition face_hist (u v : nat) (su sv : R) : hist_spec :=
  HPosition (axis_name u) (axis_name v) (- (su / 2), su / 2, auto_bins su)%R (- (sv / 2), sv / 2, auto_bins sv)%R.
Lemma face_position_eq : forall a b c rest,
  let size := a :: b :: c :: rest in
  forall z, z <> 0%R ->
  face_position size [z; 0%R; 0%R] = Some (face_hist 1 2 b c) /\
  face_position size [0%R; z; 0%R] = Some (face_hist 0 2 a c) /\
  face_position size [0%R; 0%R; z] = Some (face_hist 0 1 a b).
Proof.
  intros a b c rest size z Hz. destruct (face_axes z Hz) as (E0 & E1 & E2). unfold face_position.
  rewrite E0, E1, E2. repeat split.
Qed.
(** The six faces of a box with three sizes *)
Definition box_faces (a b c : R) : list (string * list R * hist_spec) :=
  [("top", [0; 0; 1]%R, face_hist 0 1 a b); ("bottom", [0; 0; -1]%R, face_hist 0 1 a b);
   ("east", [1; 0; 0]%R, face_hist 1 2 b c); ("west", [-1; 0; 0]%R, face_hist 1 2 b c);
   ("north", [0; 1; 0]%R, face_hist 0 2 a c); ("south", [0; -1; 0]%R, face_hist 0 2 a c)].
Lemma faces_map : forall B (g : string -> list R -> hist_spec -> B) a b c rest,
  map_opt (fun '(label, facet) => match face_position (a :: b :: c :: rest) facet with Some p => Some (g label facet p) | None => None end) faces
  = Some (map (fun '(label, facet, p) => g label facet p) (box_faces a b c)).
Proof.
  intros B g a b c rest. assert (H1 : 1%R <> 0%R) by lra. assert (H2 : (-1)%R <> 0%R) by lra.
  destruct (face_position_eq a b c rest 1 H1) as (A0 & A1 & A2). destruct (face_position_eq a b c rest (-1) H2) as (B0 & B1 & B2).
  unfold faces. cbn [map_opt]. rewrite A0, A1, A2, B0, B1, B2. reflexivity.
Qed.
Lemma faces_map_short : forall B (g : string -> list R -> hist_spec -> B) size, List.length size < 3 ->
  map_opt (fun '(label, facet) => match face_position size facet with Some p => Some (g label facet p) | None => None end) faces = None.
Proof.
  intros B g size H. assert (H1 : 1%R <> 0%R) by lra. destruct (face_axes 1 H1) as (E0 & E1 & E2).
  match goal with |- ?t = None => destruct t as [ys|] eqn:E; [|reflexivity] end. exfalso.
  assert (T := proj1 (map_opt_total _ _ _ _) (ex_intro _ ys E)).
  destruct (T ("top", [0; 0; 1]%R)) as (y1 & Y1); [simpl; tauto|].
  destruct (T ("east", [1; 0; 0]%R)) as (y2 & Y2); [simpl; tauto|].
  unfold face_position in Y1, Y2. rewrite E2 in Y1. rewrite E0 in Y2. cbn [other_axes] in Y1, Y2.
  destruct size as [|a [|b [|c rest]]]; cbn [nth_error List.length] in *; try discriminate; lia.
Qed.
Definition lost_recorder (node : string) : string * recorder_spec :=
  (recorder_name node "lost", RecSpec node Lost None None [auto_wavelength]).
Lemma auto_box : forall node size m l, auto_recorders node (Geometry (SBox size) m) = Some l <->
  exists a b c rest, size = a :: b :: c :: rest /\
  l = lost_recorder node :: map (fun '(label, facet, p) => (recorder_name node label, RecSpec node Escaping (Some facet) None [auto_wavelength; auto_angle; p])) (box_faces a b c).
Proof.
  intros node size m l. unfold auto_recorders.
  destruct (le_lt_dec 3 (List.length size)) as [H|H].
  - destruct size as [|a [|b [|c rest]]]; simpl in H; try lia.
    rewrite (faces_map _ (fun label facet p => (recorder_name node label, RecSpec node Escaping (Some facet) None [auto_wavelength; auto_angle; p])) a b c rest).
    split; intro E.
    + injection E as E. exists a, b, c, rest. split; [reflexivity|]. symmetry. exact E.
    + destruct E as (a' & b' & c' & rest' & E1 & E2). injection E1 as -> -> -> ->. rewrite E2. reflexivity.
  - rewrite (faces_map_short _ (fun label facet p => (recorder_name node label, RecSpec node Escaping (Some facet) None [auto_wavelength; auto_angle; p])) size H).
    split; [discriminate|]. intros (a & b & c & rest & E & _). subst. simpl in H. lia.
Qed.
Lemma auto_entries : forall node b l n r, auto_recorders node b = Some l -> In (n, r) l ->
  rs_node r = node /\ exists label, In label auto_labels /\ n = recorder_name node label.
Proof.
  intros node b l n r H I.
  assert (G : (exists size m, b = Geometry (SBox size) m) \/
              l = [lost_recorder node; (recorder_name node "escaping", RecSpec node Escaping None None [auto_wavelength; auto_angle])]).
  { destruct b as [[size| | |] m|ok]; [left; eauto|..]; right; simpl in H; injection H as H; symmetry; exact H. }
  destruct G as [(size & m & G)|G].
  - subst. apply auto_box in H. destruct H as (a & b & c & rest & E1 & E2). subst. simpl in I.
    repeat (destruct I as [I|I]; [injection I as I1 I2; subst; split; [reflexivity|]; eexists; split; [|reflexivity]; simpl; tauto|]). destruct I.
  - subst. simpl in I.
    repeat (destruct I as [I|I]; [injection I as I1 I2; subst; split; [reflexivity|]; eexists; split; [|reflexivity]; simpl; tauto|]). destruct I.
Qed.
Lemma NoDup_map_inj : forall A B (g : A -> B) l, (forall x y, In x l -> In y l -> g x = g y -> x = y) -> NoDup l -> NoDup (map g l).
Proof.
  intros A B g l. induction l as [|x l IH]; simpl; intros I N; [constructor|]. inversion N as [|? ? N1 N2]; subst.
  constructor; [|apply IH; [intros; apply I; auto|exact N2]].
  intro H. apply in_map_iff in H. destruct H as (y & E & Hy). apply N1. rewrite (I x y); auto.
Qed.
Lemma auto_names_distinct : forall node b l, auto_recorders node b = Some l -> NoDup (keys l).
Proof.
  intros node b l H.
  assert (G : exists labels, keys l = map (recorder_name node) labels /\ incl labels auto_labels /\ NoDup labels).
  { destruct b as [[size| | |] m|ok].
    - apply auto_box in H. destruct H as (a & b & c & rest & E1 & E2). subst.
      exists ["lost"; "top"; "bottom"; "east"; "west"; "north"; "south"]. split; [reflexivity|]. split; [intros x Hx; simpl in *; tauto|].
      repeat constructor; simpl; intuition discriminate.
    - simpl in H; injection H as H; subst. exists ["lost"; "escaping"]. split; [reflexivity|]. split; [intros x Hx; simpl in *; tauto|].
      repeat constructor; simpl; intuition discriminate.
    - simpl in H; injection H as H; subst. exists ["lost"; "escaping"]. split; [reflexivity|]. split; [intros x Hx; simpl in *; tauto|].
      repeat constructor; simpl; intuition discriminate.
    - simpl in H; injection H as H; subst. exists ["lost"; "escaping"]. split; [reflexivity|]. split; [intros x Hx; simpl in *; tauto|].
      repeat constructor; simpl; intuition discriminate.
    - simpl in H; injection H as H; subst. exists ["lost"; "escaping"]. split; [reflexivity|]. split; [intros x Hx; simpl in *; tauto|].
      repeat constructor; simpl; intuition discriminate. }
  destruct G as (labels & E & I & N). rewrite E. apply NoDup_map_inj; [|exact N].
  intros x y Hx Hy Exy. apply (recorder_name_inj node x node y); [apply auto_labels_no_dash, I; exact Hx|apply auto_labels_no_dash, I; exact Hy|exact Exy].
Qed.
Lemma auto_names_across : forall k1 b1 l1 k2 b2 l2 n, auto_recorders k1 b1 = Some l1 -> auto_recorders k2 b2 = Some l2 ->
  In n (keys l1) -> In n (keys l2) -> k1 = k2.
Proof.
  intros k1 b1 l1 k2 b2 l2 n H1 H2 I1 I2. apply keys_get in I1, I2. destruct I1 as (r1 & I1), I2 as (r2 & I2). apply get_In in I1, I2.
  destruct (auto_entries _ _ _ _ _ H1 I1) as (_ & a & A1 & A2). destruct (auto_entries _ _ _ _ _ H2 I2) as (_ & c & C1 & C2).
  apply (recorder_name_inj k1 a k2 c); [apply auto_labels_no_dash; exact A1|apply auto_labels_no_dash; exact C1|congruence].
Qed.

(** ** Merging explicit and automatic recorders *)
Lemma In_set_default : forall A k (v : A) d n r, In (n, r) (set_default k v d) <-> In (n, r) d \/ (~ In k (keys d) /\ n = k /\ r = v).
Proof.
  intros A k v d n r. unfold set_default. destruct (has k d) eqn:E.
  - apply has_keys in E. split; [auto|]. intros [H|(H & _)]; [exact H|contradiction].
  - apply has_not in E. rewrite in_app_iff. simpl. split.
    + intros [H|[H|[]]]; [auto|]. injection H as H1 H2. auto.
    + intros [H|(_ & H1 & H2)]; [auto|]. right. left. congruence.
Qed.
Lemma NoDup_set_default : forall A k (v : A) d, NoDup (keys d) -> NoDup (keys (set_default k v d)).
Proof.
  intros A k v d N. unfold set_default. destruct (has k d) eqn:E; [exact N|]. apply has_not in E.
  rewrite <- keys_put_new by exact E. apply NoDup_put. exact N.
Qed.
Definition merge {A} (d l : dict A) : dict A := fold_left (fun d nr => set_default (fst nr) (snd nr) d) l d.
Lemma merge_spec : forall A (l d : dict A), NoDup (keys l) -> NoDup (keys d) ->
  NoDup (keys (merge d l)) /\
  (forall n r, In (n, r) (merge d l) <-> In (n, r) d \/ (~ In n (keys d) /\ In (n, r) l)).
Proof.
  intros A l. induction l as [|[k v] l IH]; intros d Nl Nd; unfold merge in *; simpl.
  - split; [exact Nd|]. intros n r. tauto.
  - inversion Nl as [|? ? N1 N2]; subst.
    destruct (IH (set_default k v d) N2 (NoDup_set_default _ k v d Nd)) as [M1 M2].
    split; [exact M1|]. intros n r. rewrite M2, In_set_default. split.
    + intros [[H|(H1 & H2 & H3)]|[H1 H2]]; [auto|subst; right; split; [exact H1|left; reflexivity]|].
      right. split; [|right; exact H2]. intro H. apply H1. apply keys_get in H. destruct H as (w & H). apply get_In in H.
      eapply In_keys. apply In_set_default. left. exact H.
    + intros [H|[H1 [H2|H2]]]; [auto|injection H2 as H2 H3; subst; auto|].
      right. split; [|exact H2]. intro H. apply keys_get in H. destruct H as (w & H). apply get_In in H. apply In_set_default in H.
      destruct H as [H|(_ & H & _)]; [apply H1; eapply In_keys; exact H|]. subst. apply N1. eapply In_keys. exact H2.
Qed.
(** Automatic recorders of a list of nodes *)
Definition auto_of (nodes : dict node_spec) (n : string) (r : recorder_spec) : Prop :=
  exists k s l, In (k, s) nodes /\ ns_record s = true /\ auto_recorders k (ns_body s) = Some l /\ In (n, r) l.
Lemma fold_auto_none : forall nodes, fold_left add_auto nodes None = None.
Proof. induction nodes as [|[k s] nodes IH]; simpl; [reflexivity|exact IH]. Qed.
Lemma fold_auto_some : forall nodes d, (exists l, fold_left add_auto nodes (Some d) = Some l) <->
  (forall k s, In (k, s) nodes -> ns_record s = true -> exists l, auto_recorders k (ns_body s) = Some l).
Proof.
  induction nodes as [|[k s] nodes IH]; intro d; simpl.
  - split; [intros _ ? ? []|eauto].
  - destruct (ns_record s) eqn:R.
    + destruct (auto_recorders k (ns_body s)) as [l|] eqn:E.
      * rewrite IH. split; intros H j t.
        { intros [I|I]; [injection I as I1 I2; subst; eauto|apply H; exact I]. }
        { intros I. apply H. right. exact I. }
      * rewrite fold_auto_none. split; [intros (? & ?); discriminate|]. intro H.
        destruct (H k s (or_introl eq_refl) R) as (l & E2). congruence.
    + rewrite IH. split; intros H j t.
      { intros [I|I]; [injection I as I1 I2; subst; congruence|apply H; exact I]. }
      { intros I. apply H. right. exact I. }
Qed.
Lemma fold_auto_spec : forall nodes d l, NoDup (keys nodes) -> NoDup (keys d) -> fold_left add_auto nodes (Some d) = Some l ->
  NoDup (keys l) /\ (forall n r, In (n, r) l <-> In (n, r) d \/ (~ In n (keys d) /\ auto_of nodes n r)).
Proof.
  induction nodes as [|[k s] nodes IH]; intros d l Nn Nd H; simpl in H.
  - injection H as H. subst. split; [exact Nd|]. intros n r. split; [auto|]. intros [H|[_ (k & s & ? & [] & _)]]. exact H.
  - inversion Nn as [|? ? N1 N2]; subst. destruct (ns_record s) eqn:R.
    + destruct (auto_recorders k (ns_body s)) as [la|] eqn:E; [|rewrite fold_auto_none in H; discriminate].
      destruct (merge_spec _ la d (auto_names_distinct _ _ _ E) Nd) as [M1 M2].
      destruct (IH (merge d la) l N2 M1 H) as [L1 L2]. split; [exact L1|]. intros n r. rewrite L2, M2. split.
      * intros [[H1|[H1 H2]]|[H1 (j & t & lj & H2 & H3 & H4 & H5)]].
        { left. exact H1. }
        { right. split; [exact H1|]. exists k, s, la. split; [left; reflexivity|auto]. }
        { right. split.
          - intro Hd. apply H1. apply keys_get in Hd. destruct Hd as (w & Hd). apply get_In in Hd. eapply In_keys. apply M2. left. exact Hd.
          - exists j, t, lj. split; [right; exact H2|auto]. }
      * intros [H1|[H1 (j & t & lj & [H2|H2] & H3 & H4 & H5)]].
        { left. left. exact H1. }
        { injection H2 as H2 H2'. subst j t. left. right. split; [exact H1|]. congruence. }
        { right. split; [|exists j, t, lj; auto]. intro Hm. apply keys_get in Hm. destruct Hm as (w & Hm). apply get_In, M2 in Hm.
          destruct Hm as [Hm|[_ Hm]]; [apply H1; eapply In_keys; exact Hm|].
          apply N1. rewrite (auto_names_across k _ la j _ lj n E H4 (In_keys _ _ _ _ Hm) (In_keys _ _ _ _ H5)).
          eapply In_keys. exact H2. }
    + destruct (IH d l N2 Nd H) as [L1 L2]. split; [exact L1|]. intros n r. rewrite L2. split.
      * intros [H1|[H1 (j & t & lj & H2 & H3)]]; [auto|]. right. split; [exact H1|]. exists j, t, lj. split; [right; exact H2|exact H3].
      * intros [H1|[H1 (j & t & lj & [H2|H2] & H3 & H4)]]; [auto|injection H2 as H2 H2'; subst; congruence|].
        right. split; [exact H1|]. exists j, t, lj. auto.
Qed.

(** ** Histograms and recorders *)
Definition prop_names : list string := ["wavelength"; "angle"; "duration"; "pathlength"; "x"; "y"; "z"].
Definition range_valid (r : range) : Prop := let '(a, b, n) := r in (a < b)%R /\ (1 <= n)%Z.
Definition hist_valid (h : hist_spec) : Prop :=
  match h with
  | HProp p r => In p prop_names /\ range_valid r
  | HPosition p q ra rb => (In p prop_names /\ range_valid ra) /\ (In q prop_names /\ range_valid rb)
  | HMalformed => False
  end.
(** The histogram object [x] is the one specified *)
Definition histogram_means (p : string) (r : range) (x : histogram) : Prop :=
  prop_name (h_prop x) = p /\ (h_start x, h_stop x, Z.of_nat (h_bins x)) = r.
Definition hist_means (h : hist_spec) (x : hspec) : Prop :=
  match h, x with
  | HProp p r, H1 x => histogram_means p r x
  | HPosition p q ra rb, H2 a b => histogram_means p ra a /\ histogram_means q rb b
  | _, _ => False
  end.
Lemma prop_of_name_spec : forall s, match prop_of_name s with Some p => prop_name p = s | None => ~ In s prop_names end.
Proof.
  intro s. unfold prop_of_name. destruct (find _ _) as [p|] eqn:E.
  - apply find_some in E. destruct E as [_ E]. apply String.eqb_eq in E. exact E.
  - intro H. simpl in H.
    repeat (destruct H as [H|H]; [subst; discriminate E|]). destruct H.
Qed.
Lemma prop_name_known : forall p, In (prop_name p) prop_names.
Proof. intros []; simpl; tauto. Qed.
Lemma prop_name_inj : forall p q, prop_name p = prop_name q -> p = q.
Proof. intros [] []; simpl; congruence. Qed.
Lemma mk_histogram_spec : forall p r, match mk_histogram p r with
  | Some x => In p prop_names /\ range_valid r /\ histogram_means p r x
  | None => ~ (In p prop_names /\ range_valid r) end.
Proof.
  intros p [[a b] n]. unfold mk_histogram. pose proof (prop_of_name_spec p) as P. destruct (prop_of_name p) as [q|]; [|tauto].
  destruct (Rltb a b) eqn:E; simpl.
  - apply Rltb_true in E. destruct (n <? 1)%Z eqn:E2; simpl.
    + apply Z.ltb_lt in E2. intros (_ & _ & H). lia.
    + apply Z.ltb_ge in E2. split; [rewrite <- P; apply prop_name_known|]. split; [split; assumption|].
      split; [exact P|]. simpl. rewrite Z2Nat.id by lia. reflexivity.
  - apply Rltb_false in E. intros (_ & H & _). lra.
Qed.
Lemma mk_hist_spec : forall h, match mk_hist h with Some x => hist_valid h /\ hist_means h x | None => ~ hist_valid h end.
Proof.
  intros [p r|p q ra rb|]; cbn [mk_hist hist_valid hist_means]; [| |tauto].
  - pose proof (mk_histogram_spec p r) as H. destruct (mk_histogram p r); tauto.
  - pose proof (mk_histogram_spec p ra) as Ha. pose proof (mk_histogram_spec q rb) as Hb.
    destruct (mk_histogram p ra), (mk_histogram q rb); cbn [hist_means]; clear - Ha Hb; tauto.
Qed.
Lemma mk_hists_spec : forall hs, match map_opt mk_hist hs with
  | Some xs => Forall hist_valid hs /\ Forall2 hist_means hs xs
  | None => ~ Forall hist_valid hs end.
Proof.
  induction hs as [|h hs IH]; simpl; [split; constructor|]. pose proof (mk_hist_spec h) as H.
  destruct (mk_hist h).
  - destruct (map_opt mk_hist hs); [split; constructor; tauto|]. intro F. inversion F; tauto.
  - intro F. inversion F; tauto.
Qed.
Lemma histogram_means_fun : forall p r x y, histogram_means p r x -> histogram_means p r y -> x = y.
Proof.
  intros p r [p1 a1 b1 n1] [p2 a2 b2 n2] [H1 H2] [H3 H4]. simpl in *. subst r. injection H4 as E1 E2 E3.
  assert (p1 = p2) by (apply prop_name_inj; congruence). assert (n1 = n2) by lia. congruence.
Qed.
Lemma hist_means_fun : forall h x y, hist_means h x -> hist_means h y -> x = y.
Proof.
  intros [p r|p q ra rb|] [x|xa xb] [y|ya yb]; simpl; try tauto; intros H1 H2.
  - f_equal. eapply histogram_means_fun; eassumption.
  - destruct H1, H2. f_equal; eapply histogram_means_fun; eassumption.
Qed.
Lemma hists_means_fun : forall hs xs ys, Forall2 hist_means hs xs -> Forall2 hist_means hs ys -> xs = ys.
Proof.
  intros hs xs ys H. revert ys. induction H as [|h x hs xs H1 H2 IH]; intros ys H; inversion H; subst; [reflexivity|].
  f_equal; [eapply hist_means_fun; eassumption|auto].
Qed.

(** The recorder object [m] named [n] is the one specified by [r] *)
Definition recorder_means (n : string) (r : recorder_spec) (m : made_recorder) : Prop :=
  mr_name m = n /\ mr_event m = rs_event r /\ mr_facet m = rs_facet r /\
  mr_atol m = (match rs_atol r with Some a => a | None => / 10 ^ 6 end)%R /\ Forall2 hist_means (rs_hists r) (mr_hists m).
Definition recorder_valid (names : list string) (r : recorder_spec) : Prop := In (rs_node r) names /\ Forall hist_valid (rs_hists r).
Lemma parse_recorder_spec : forall names n r, match parse_recorder names n r with
  | Some (k, m) => recorder_valid names r /\ k = rs_node r /\ recorder_means n r m
  | None => ~ recorder_valid names r end.
Proof.
  intros names n r. unfold parse_recorder, recorder_valid. destruct (mem_str (rs_node r) names) eqn:E.
  - apply mem_str_In in E. pose proof (mk_hists_spec (rs_hists r)) as H. destruct (map_opt mk_hist (rs_hists r)); [|tauto].
    destruct H. unfold recorder_means. simpl. auto 10.
  - apply mem_str_not in E. tauto.
Qed.
Lemma recorder_means_fun : forall n r x y, recorder_means n r x -> recorder_means n r y -> x = y.
Proof.
  intros n r [] [] (A1 & A2 & A3 & A4 & A5) (B1 & B2 & B3 & B4 & B5). simpl in *. f_equal; try congruence.
  eapply hists_means_fun; eassumption.
Qed.

(** ** Acceptance of a document *)
Inductive to_world (nodes : dict node_spec) : string -> Prop :=
| at_world : to_world nodes "world"
| up_to_world : forall k s, get k nodes = Some s -> k <> "world" ->
    to_world nodes (match ns_parent s with Some p => p | None => "world" end) -> to_world nodes k.
Definition material_names (s : node_spec) : list string :=
  match ns_body s with Geometry _ m => match ms_components m with Some l => l | None => [] end | LightBody _ => [] end.
(** The recorders of a document: the explicit ones, and the automatic ones whose name is free *)
Definition source (d : document) (n : string) (r : recorder_spec) : Prop :=
  In (n, r) (doc_recorders d) \/ (~ In n (keys (doc_recorders d)) /\ auto_of (d_nodes d) n r).
Record acceptable (d : document) : Prop := {
  acc_world : In "world" (keys (d_nodes d));
  acc_components : forall k c, In (k, c) (doc_components d) -> parse_component c <> None;
  acc_materials : forall k s c, In (k, s) (d_nodes d) -> In c (material_names s) -> In c (keys (doc_components d));
  acc_lights : forall k s, In (k, s) (d_nodes d) -> ns_body s <> LightBody false;
  acc_parents : forall k, In k (keys (d_nodes d)) -> to_world (d_nodes d) k;
  acc_auto : forall k s, In (k, s) (d_nodes d) -> ns_record s = true -> auto_recorders k (ns_body s) <> None;
  acc_recorders : forall n r, source d n r -> recorder_valid (keys (d_nodes d)) r }.

Lemma to_world_dreach : forall nodes k, to_world nodes k <-> dreach (declared_of nodes) k.
Proof.
  intros nodes k. split; intro H.
  - induction H as [|k s G N H IH]; [constructor|]. eapply dreach_step; [|exact IH].
    exists (ns_parent s). split; [unfold declared_of; rewrite get_map_val, G; reflexivity|].
    unfold declared_parent. rewrite (proj2 (String.eqb_neq _ _) N). reflexivity.
  - induction H as [|k p (dp & G & E) H IH]; [constructor|]. unfold declared_of in G. rewrite get_map_val in G.
    destruct (get k nodes) as [s|] eqn:Gs; [|discriminate]. simpl in G. injection G as G. subst dp.
    unfold declared_parent in E. destruct (String.eqb k "world") eqn:Ek; [discriminate|]. apply String.eqb_neq in Ek.
    injection E as E. subst p. eapply up_to_world; eassumption.
Qed.

Lemma parse_components_keys : forall d m, parse_components d = Some m -> keys m = keys (doc_components d) /\
  (forall k c, In (k, c) (doc_components d) -> exists p, parse_component c = Some p /\ In (k, p) m).
Proof.
  intros d m H. unfold parse_components in H. apply map_opt_some in H. split.
  - unfold keys. induction H as [|[k c] [k' p] l ys H1 H2 IH]; [reflexivity|]. simpl in *.
    destruct (parse_component c); [|discriminate]. injection H1 as H1 _. congruence.
  - intros k c I. destruct (Forall2_In_l _ _ _ _ _ _ H I) as ([k' p] & I2 & E). simpl in E.
    destruct (parse_component c) as [q|]; [|discriminate]. injection E as E1 E2. subst. eauto.
Qed.
Lemma parse_components_total : forall d, (exists m, parse_components d = Some m) <->
  (forall k c, In (k, c) (doc_components d) -> parse_component c <> None).
Proof.
  intro d. unfold parse_components. etransitivity; [apply map_opt_total|]. split.
  - intros H k c I E. destruct (H _ I) as (y & Ey). simpl in Ey. rewrite E in Ey. discriminate.
  - intros H [k c] I. specialize (H k c I). destruct (parse_component c); [eauto|congruence].
Qed.
Lemma parse_material_total : forall m cmap, (exists l, parse_material m cmap = Some l) <->
  (forall c, In c (match ms_components m with Some l => l | None => [] end) -> In c (keys cmap)).
Proof.
  intros m cmap. unfold parse_material. set (names := match ms_components m with Some l => l | None => [] end). split.
  - intros (l & H) c I. destruct (forallb _ names) eqn:E; [|discriminate]. rewrite forallb_forall in E.
    apply has_keys. apply E. exact I.
  - intro H. rewrite (proj2 (forallb_forall _ _)) by (intros c I; apply has_keys, H, I).
    apply map_opt_total. intros c I. apply keys_get. apply H, I.
Qed.
Lemma parse_material_spec : forall m cmap l, parse_material m cmap = Some l ->
  Forall2 (fun c p => get c cmap = Some p) (match ms_components m with Some l => l | None => [] end) l.
Proof.
  intros m cmap l. unfold parse_material. destruct (forallb _ _); [|discriminate]. intro H. apply map_opt_some in H. exact H.
Qed.
Lemma parse_nodes_total : forall (nodes : dict node_spec) (cmap : dict parsed_component),
  (exists l : list (string * option (list parsed_component)), map_opt (fun '(k, s) => match parse_node s cmap with Some m => Some (k, m) | None => None end) nodes = Some l) <->
  (forall k s, In (k, s) nodes -> ns_body s <> LightBody false /\ forall c, In c (material_names s) -> In c (keys cmap)).
Proof.
  intros nodes cmap. rewrite map_opt_total. split.
  - intros H k s I. destruct (H _ I) as (y & E). simpl in E. unfold parse_node, material_names in *.
    destruct (ns_body s) as [sh m|[]]; [|split; [discriminate|intros ? []]|discriminate].
    split; [discriminate|]. apply parse_material_total. destruct (parse_material m cmap); [eauto|discriminate].
  - intros H [k s] I. destruct (H k s I) as [H1 H2]. unfold parse_node, material_names in *.
    destruct (ns_body s) as [sh m|[]]; [|eauto|congruence].
    apply parse_material_total in H2. destruct H2 as (l & E). rewrite E. eauto.
Qed.

Record parsed (d : document) (s : parsed_scene) (cmap : dict parsed_component) (specs : dict recorder_spec) : Prop := {
  pd_world : In "world" (keys (d_nodes d));
  pd_components : parse_components d = Some cmap;
  pd_nodes : map_opt (fun '(k, s) => match parse_node s cmap with Some m => Some (k, m) | None => None end) (d_nodes d) = Some (ps_nodes s);
  pd_tree : make_tree (declared_of (d_nodes d)) = Some (ps_parents s);
  pd_specs : all_recorders d = Some specs;
  pd_recorders : map_opt (fun '(name, r) => parse_recorder (keys (d_nodes d)) name r) specs = Some (ps_recorders s) }.
Lemma parse_inv : forall d s, parse_document d = Some s <-> exists cmap specs, parsed d s cmap specs.
Proof.
  intros d s. unfold parse_document. split.
  - destruct (has "world" (d_nodes d)) eqn:W; simpl; [|discriminate]. apply has_keys in W.
    destruct (parse_components d) as [cmap|] eqn:C; [|discriminate].
    destruct (map_opt _ (d_nodes d)) as [nodes|] eqn:N; [|discriminate].
    change (map (fun '(k, s) => (k, ns_parent s)) (d_nodes d)) with (declared_of (d_nodes d)).
    destruct (make_tree _) as [f|] eqn:T; [|discriminate].
    destruct (all_recorders d) as [specs|] eqn:A; [|discriminate].
    destruct (map_opt _ specs) as [recs|] eqn:Rr; [|discriminate].
    intro H. injection H as H. subst s. exists cmap, specs. constructor; assumption.
  - intros (cmap & specs & [W C N T A Rr]). rewrite (proj2 (has_keys _ _ _) W). simpl. rewrite C, N.
    change (map (fun '(k, s) => (k, ns_parent s)) (d_nodes d)) with (declared_of (d_nodes d)). rewrite T, A, Rr.
    destruct s; reflexivity.
Qed.
Lemma declared_keys : forall nodes, keys (declared_of nodes) = keys nodes.
Proof. intro nodes. apply keys_map_val. Qed.

Lemma all_recorders_spec : forall d specs, wf_doc d -> all_recorders d = Some specs ->
  NoDup (keys specs) /\ forall n r, In (n, r) specs <-> source d n r.
Proof. intros d specs (_ & Nn & Nr) H. apply fold_auto_spec; assumption. Qed.

(** A document parses exactly when it is acceptable. *)
Lemma parse_acceptable : forall d, wf_doc d -> (exists s, parse_document d = Some s) <-> acceptable d.
Proof.
  intros d W. destruct W as (Wc & Wn & Wr). split.
  - intros (s & H). apply parse_inv in H. destruct H as (cmap & specs & [P1 P2 P3 P4 P5 P6]).
    destruct (parse_components_keys _ _ P2) as [K _].
    pose proof (proj1 (parse_nodes_total _ _) (ex_intro _ _ P3)) as PN.
    assert (ND : NoDup (keys (declared_of (d_nodes d)))) by (rewrite declared_keys; exact Wn).
    assert (WD : In "world" (keys (declared_of (d_nodes d)))) by (rewrite declared_keys; exact P1).
    destruct (make_tree_spec _ _ ND WD P4) as (T1 & T2 & T3 & T4).
    destruct (all_recorders_spec d specs (conj Wc (conj Wn Wr)) P5) as [_ A].
    constructor.
    + exact P1.
    + apply parse_components_total. eauto.
    + intros k n c I1 I2. rewrite <- K. exact (proj2 (PN k n I1) c I2).
    + intros k n I. exact (proj1 (PN k n I)).
    + intros k I. apply to_world_dreach. eapply reaches_dreach; [exact T1|exact T2|]. apply T4. rewrite declared_keys. exact I.
    + intros k n I R E. destruct (proj1 (fold_auto_some _ _) (ex_intro _ _ P5) k n I R) as (l & El). congruence.
    + intros n r S. apply A in S. destruct (Forall2_In_l _ _ _ _ _ _ (proj1 (map_opt_some _ _ _ _ _) P6) S) as ([k m] & _ & E).
      pose proof (parse_recorder_spec (keys (d_nodes d)) n r) as PR. rewrite E in PR. tauto.
  - intros [A1 A2 A3 A4 A5 A6 A7].
    destruct (proj2 (parse_components_total d) A2) as (cmap & C). destruct (parse_components_keys _ _ C) as [K _].
    destruct (proj2 (parse_nodes_total (d_nodes d) cmap)) as (nodes & N).
    { intros k n I. split; [exact (A4 k n I)|]. intros c Ic. rewrite K. exact (A3 k n c I Ic). }
    destruct (make_tree_total (declared_of (d_nodes d))) as (f & T).
    { rewrite declared_keys. exact Wn. }
    { rewrite declared_keys. exact A1. }
    { intros k I. rewrite declared_keys in I. apply to_world_dreach. apply A5. exact I. }
    destruct (proj2 (fold_auto_some (d_nodes d) (doc_recorders d))) as (specs & S).
    { intros k n I R. destruct (auto_recorders k (ns_body n)) eqn:E; [eauto|]. exfalso. exact (A6 k n I R E). }
    change (all_recorders d = Some specs) in S.
    destruct (all_recorders_spec d specs (conj Wc (conj Wn Wr)) S) as [_ As].
    destruct (proj2 (map_opt_total _ _ (fun '(name, r) => parse_recorder (keys (d_nodes d)) name r) specs)) as (recs & Rr).
    { intros [n r] I. apply As in I. specialize (A7 n r I). pose proof (parse_recorder_spec (keys (d_nodes d)) n r) as PR.
      destruct (parse_recorder (keys (d_nodes d)) n r); [eauto|contradiction]. }
    exists (PScene nodes f recs). apply parse_inv. exists cmap, specs. constructor; assumption.
Qed.
