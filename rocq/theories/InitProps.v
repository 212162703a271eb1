(** C155: the kernel reads no slot of its scratch arrays that it has not filled before. *)
From Coq Require Import ZArith List Bool Lia String.
From Verif Require Import MemModel MemLayoutModel MemProofs MemProps.
Import ListNotations.
Open Scope Z_scope.

Definition on_stackb (a : array) : bool :=
  match a with hit_t | hit_node | node_hits | node_min_t | ts | cand | rseen => true | _ => false end.

Section Logic.
(** the arrays looked at *)
Variable loc : array -> bool.
Hypothesis loc_stack : forall a, loc a = true -> on_stackb a = true.
Definition wr (l : list access) (a : array) (i : Z) : Prop := In (Access true a i) l.
(** the newest access comes first *)
Fixpoint filled (l : list access) : Prop :=
  match l with
  | [] => True
  | x :: before => (x_write x = false -> loc (x_array x) = true -> wr before (x_array x) (x_index x)) /\ filled before
  end.
Definition ok {A} (l : list access) (m : prog A) (Q : A -> list access -> Prop) : Prop :=
  filled l -> forall o k, let r := m o (l, k) in filled (fst (snd r)) /\ incl l (fst (snd r)) /\ Q (fst r) (fst (snd r)).

Lemma wr_incl l l' a i : incl l l' -> wr l a i -> wr l' a i.
Proof. intros H. apply H. Qed.
Lemma ok_ret {A} l (a : A) (Q : A -> list access -> Prop) : Q a l -> ok l (ret a) Q.
Proof. intros H F o k. split; [exact F|]. split; [apply incl_refl|exact H]. Qed.
Lemma ok_bind {A B} l (m : prog A) (f : A -> prog B) (Q : A -> list access -> Prop) (P : B -> list access -> Prop) :
  ok l m Q -> (forall a log, incl l log -> Q a log -> ok log (f a) P) -> ok l (bind m f) P.
Proof.
  intros Hm Hf F o k. unfold bind. specialize (Hm F o k). destruct (m o (l, k)) as [a [l' k']]. cbn in Hm. destruct Hm as (F' & I & HQ).
  specialize (Hf a l' I HQ F' o k'). cbn in *. destruct (f a o (l', k')) as [b [l2 k2]]. cbn in *. destruct Hf as (F2 & I2 & HP).
  split; [exact F2|]. split; [eapply incl_tran; eassumption|exact HP].
Qed.
Lemma ok_weak {A} l (m : prog A) (Q P : A -> list access -> Prop) : ok l m Q -> (forall a l', incl l l' -> Q a l' -> P a l') -> ok l m P.
Proof. intros H W F o k. destruct (H F o k) as (F' & I & HQ). cbn. split; [exact F'|]. split; [exact I|]. now apply W. Qed.
Lemma ok_true {A} l (m : prog A) (Q : A -> list access -> Prop) : ok l m Q -> ok l m (fun _ _ => True).
Proof. intros H. eapply ok_weak; [exact H|]. auto. Qed.
Lemma ok_touch l a i : (loc a = true -> wr l a i) -> ok l (touch a i) (fun _ _ => True).
Proof. intros H F o k. cbn. split; [split; [auto|exact F]|]. split; [apply incl_tl, incl_refl|exact I]. Qed.
Lemma ok_store l a i : ok l (store a i) (fun _ l' => wr l' a i).
Proof. intros F o k. cbn. split; [split; [discriminate|exact F]|]. split; [apply incl_tl, incl_refl|now left]. Qed.
Lemma ok_ask l : ok l ask (fun _ _ => True).
Proof. intros F o k. cbn. split; [exact F|]. split; [apply incl_refl|exact I]. Qed.
Lemma ok_cast l : ok l cast (fun _ _ => True).
Proof. intros F o k. cbn. split; [exact F|]. split; [apply incl_refl|exact I]. Qed.
Lemma ok_table mem l a i : on_stackb a = false -> ok l (read mem a i) (fun _ _ => True).
Proof. intros H. eapply ok_bind; [apply ok_touch; intros E; apply loc_stack in E; congruence|]. intros _ l' _ _. now apply ok_ret. Qed.
Lemma ok_touch_table l a i : on_stackb a = false -> ok l (touch a i) (fun _ _ => True).
Proof. intros H. apply ok_touch. intros E. apply loc_stack in E. congruence. Qed.
Lemma ok_if {A} l (c : bool) (m1 m2 : prog A) (Q : A -> list access -> Prop) : (c = true -> ok l m1 Q) -> (c = false -> ok l m2 Q) -> ok l (if c then m1 else m2) Q.
Proof. destruct c; auto. Qed.
(** [Inv done b l]: after the passes for [done] *)
Lemma ok_for {A B} (xs : list A) (f : A -> B -> prog B) (Inv : list A -> B -> list access -> Prop) : forall rest d b l,
  xs = d ++ rest -> Inv d b l ->
  (forall d x r b l', xs = d ++ x :: r -> incl l l' -> Inv d b l' -> ok l' (f x b) (Inv (d ++ [x]))) ->
  ok l (for_each rest f b) (Inv xs).
Proof.
  induction rest as [|x rest IH]; intros d b l E H S; cbn [for_each].
  - apply ok_ret. rewrite app_nil_r in E. now subst d.
  - eapply ok_bind; [eapply S; [exact E|apply incl_refl|exact H]|]. intros b' l' I H'. apply IH with (d := d ++ [x]); [now rewrite <- app_assoc|exact H'|].
    intros d2 y r b2 l2 E2 I2. apply S with (r := r); [exact E2|]. eapply incl_tran; eassumption.
Qed.
Lemma ok_loop {A B} (xs : list A) (f : A -> B -> prog B) (Inv : B -> list access -> Prop) b l :
  Inv b l -> (forall x b l', In x xs -> incl l l' -> Inv b l' -> ok l' (f x b) Inv) -> ok l (for_each xs f b) Inv.
Proof.
  intros H S. apply (ok_for xs f (fun _ => Inv) xs [] b l eq_refl H). intros d x r b' l' E I HI. apply S; auto. rewrite E, in_app_iff. right. now left.
Qed.
Lemma ok_quiet_loop {A B} (xs : list A) (f : A -> B -> prog B) b l :
  (forall x b l', incl l l' -> ok l' (f x b) (fun _ _ => True)) -> ok l (for_each xs f b) (fun _ _ => True).
Proof. intros H. apply ok_loop; auto. Qed.
Lemma ok_stores l a xs : ok l (stores a xs) (fun _ l' => Forall (wr l' a) xs).
Proof.
  apply (ok_for xs _ (fun d _ l' => Forall (wr l' a) d) xs [] tt l eq_refl); [constructor|].
  intros d x r b l' _ _ H. eapply ok_weak; [apply ok_store|]. intros [] l2 I Hx. apply Forall_app. split; [|constructor; [exact Hx|constructor]].
  eapply Forall_impl; [|exact H]. intros i. now apply wr_incl.
Qed.
Lemma ok_touches l a xs : on_stackb a = false -> ok l (touches a xs) (fun _ _ => True).
Proof. intros H. apply ok_quiet_loop. intros. now apply ok_touch_table. Qed.

Ltac incls :=
  first [assumption | apply incl_refl
        | match goal with |- incl ?x ?z => match goal with H : incl ?y z |- _ => apply incl_tran with y; [incls|exact H] end end].
Ltac ostep :=
  match goal with
  | |- ok _ (bind ask _) _ => eapply ok_bind; [apply ok_ask|intros ? ? ? _]
  | |- ok _ (bind cast _) _ => eapply ok_bind; [apply ok_cast|intros ? ? ? _]
  | |- ok _ (bind (read _ _ _) _) _ => eapply ok_bind; [apply ok_table; reflexivity|intros ? ? ? _]
  | |- ok _ (bind (touch _ _) _) _ => eapply ok_bind; [first [apply ok_touch_table; first [reflexivity|assumption]|apply ok_touch]|intros ? ? ? _]
  | |- ok _ (bind (store _ _) _) _ => eapply ok_bind; [apply ok_store|intros ? ? ? ?]
  | |- ok _ (bind (touches _ _) _) _ => eapply ok_bind; [apply ok_touches; first [reflexivity|assumption]|intros ? ? ? _]
  | |- ok _ (bind (stores _ _) _) _ => eapply ok_bind; [apply ok_stores|intros ? ? ? ?]
  | |- ok _ (ret _) _ => apply ok_ret
  | |- ok _ (touch _ _) _ => first [apply ok_touch_table; first [reflexivity|assumption]|apply ok_touch]
  | |- ok _ (store _ _) _ => first [apply ok_store|eapply ok_true; apply ok_store]
  | |- ok _ (touches _ _) _ => apply ok_touches; first [reflexivity|assumption]
  | |- ok _ (read _ _ _) _ => apply ok_table; reflexivity
  | |- ok _ ask _ => apply ok_ask
  | |- ok _ (if _ then _ else _) _ => apply ok_if; intros ?
  end.
Ltac bif := match goal with |- context [if ?c then _ else _] => destruct c end.
Ltac quiet := repeat (ostep; try exact I).

Lemma ok_search xs p : on_stackb xs = false -> forall fuel lo hi l, ok l (search fuel xs p lo hi) (fun _ _ => True).
Proof. intros H. induction fuel as [|f IH]; intros lo hi l; cbn [search]; quiet; apply IH. Qed.
Lemma ok_interp xs ys p n l : on_stackb xs = false -> on_stackb ys = false -> ok l (interp_clamped xs ys p n) (fun _ _ => True).
Proof. intros H1 H2. unfold interp_clamped. quiet. eapply ok_bind; [now apply ok_search|]. intros [lo hi] ? ? _. quiet. Qed.
Lemma ok_point a node l : on_stackb a = false -> ok l (transform_point a node) (fun _ _ => True).
Proof. intros H. unfold transform_point. quiet. Qed.
Lemma ok_vector a node l : on_stackb a = false -> ok l (transform_vector a node) (fun _ _ => True).
Proof. intros H. unfold transform_vector. quiet. Qed.
Lemma ok_normal mem node l : ok l (local_normal mem node) (fun _ _ => True).
Proof. unfold local_normal. quiet. Qed.
Lemma ok_record s base count l : ok l (record s base count) (fun _ _ => True).
Proof. unfold record. quiet. Qed.
Lemma ok_coefficient mem c l : ok l (coefficient mem c) (fun _ _ => True).
Proof. unfold coefficient. quiet. now apply ok_interp. Qed.
Lemma ok_tally_row mem s tid h l : ok l (tally_row mem s tid h) (fun _ _ => True).
Proof. unfold tally_row. quiet. Qed.

Definition seen_ok (s : setting) (l : list access) : Prop := loc rseen = true -> forall r, 0 <= r < n_recorders s -> wr l rseen r.
Lemma seen_incl s l l' : incl l l' -> seen_ok s l -> seen_ok s l'.
Proof. intros I H E r Hr. apply I, H; auto. Qed.
Lemma ok_tally mem s tid facet l : seen_ok s l -> ok l (tally mem s tid facet) (fun _ _ => True).
Proof.
  intros H. unfold tally. apply ok_loop; auto. intros r [] l' Hr HI _. apply in_range in Hr. apply (seen_incl _ _ _ HI) in H. clear l HI.
  unfold tally_recorder. ostep. ostep. ostep. ostep; [quiet|]. ostep. ostep.
  eapply ok_bind with (Q := fun _ _ => True). { ostep; [ostep|]; quiet. }
  intros off l5 I5 _. ostep; [quiet|]. ostep. ostep. { intros E. eapply wr_incl; [|now apply H]; incls. }
  ostep. ostep; [quiet|]. ostep. ostep. ostep. ostep. ostep. apply ok_quiet_loop. intros. apply ok_tally_row.
Qed.

(** slots 0 .. n - 1 are filled *)
Definition upto (l : list access) (a : array) (n : Z) : Prop := forall i, 0 <= i < n -> wr l a i.
Lemma upto_incl l l' a n : incl l l' -> upto l a n -> upto l' a n.
Proof. intros I H i Hi. apply I. now apply H. Qed.
Lemma ok_push a n l : upto l a n -> ok l (push a n) (fun m l' => upto l' a m).
Proof.
  intros H. unfold push. ostep. ostep.
  - ostep. apply ok_ret. intros i Hi. destruct (Z.eq_dec i n) as [->|Hne]; [assumption|]. eapply wr_incl; [|apply H; lia]. incls.
  - apply ok_ret. eapply upto_incl; eassumption.
Qed.
Lemma upto0 l a : upto l a 0.
Proof. intros i Hi. lia. Qed.
Lemma ok_intersect_node mem node l : ok l (intersect_node mem node) (fun n l' => upto l' ts n).
Proof.
  unfold intersect_node. ostep. ostep; [|ostep].
  - unfold intersect_box. ostep. ostep. ostep; [ostep; apply upto0|]. ostep. ostep; [ostep; apply upto0|].
    eapply ok_bind; [apply ok_push, upto0|]. intros n l' _ Hn. now apply ok_push.
  - unfold intersect_sphere. ostep. ostep. ostep; [ostep; apply upto0|].
    eapply ok_bind; [apply ok_push, upto0|]. intros n l' _ Hn. now apply ok_push.
  - unfold intersect_cylinder. ostep. ostep. ostep.
    eapply ok_bind with (Q := fun n l' => upto l' cand n).
    { ostep; [|ostep; apply upto0]. ostep. ostep; [|ostep; apply upto0]. eapply ok_bind; [apply ok_push, upto0|]. intros n l' _ Hn. now apply ok_push. }
    intros n l' _ Hn. ostep. eapply ok_bind with (Q := fun n l' => upto l' cand n).
    { ostep; [|ostep; eapply upto_incl; eassumption]. eapply ok_bind; [apply ok_push; eapply upto_incl; eassumption|]. intros m l2 _ Hm. now apply ok_push. }
    intros m l3 _ Hm. eapply ok_weak with (Q := fun n l' => upto l' ts n /\ incl l3 l'); [|now intros ? ? ? []].
    apply ok_loop; [split; [apply upto0|apply incl_refl]|]. intros i n' l4 Hi I4 [Hts _]. apply in_range in Hi. ostep.
    { intros _. apply I4. now apply Hm. }
    eapply ok_weak; [apply ok_push; eapply upto_incl; eassumption|]. intros a' l6 I6 Ha. split; [exact Ha|]. do 2 (eapply incl_tran; [eassumption|]). exact I6.
Qed.

Definition nodes_filled (l : list access) (ns : list Z) : Prop := forall n, In n ns -> wr l node_hits n /\ wr l node_min_t n.
Lemma nodes_incl l l' ns : incl l l' -> nodes_filled l ns -> nodes_filled l' ns.
Proof. intros I H n Hn. destruct (H n Hn). split; now apply I. Qed.
Definition hits_filled (l : list access) (hits : list Z) : Prop :=
  upto l hit_t (Z.of_nat (List.length hits)) /\ upto l hit_node (Z.of_nat (List.length hits)).
Lemma hits_incl l l' h : incl l l' -> hits_filled l h -> hits_filled l' h.
Proof. intros I [H1 H2]. split; eapply upto_incl; eassumption. Qed.
Lemma ok_find_hits mem s l : ok l (find_hits mem s)
  (fun r l' => hits_filled l' (fst r) /\ nodes_filled l' (range 0 (n_nodes s))).
Proof.
  unfold find_hits.
  apply (ok_for (range 0 (n_nodes s)) _ (fun d (r : list Z * (Z -> Z)) l' => hits_filled l' (fst r) /\ nodes_filled l' d) (range 0 (n_nodes s)) []); [reflexivity| |].
  { split; [split; apply upto0|]. intros n []. }
  intros d node r [hits0 nh0] l0 _ _ [Hh Hd]. cbn [fst] in Hh.
  eapply ok_bind; [apply ok_store|]. intros ? l1 I1 N1. eapply ok_bind; [apply ok_store|]. intros ? l2 I2 N2. apply (wr_incl _ _ _ _ I2) in N1.
  eapply ok_bind; [now apply ok_point|]. intros _ l3 I3 _. eapply ok_bind; [now apply ok_vector|]. intros _ l4 I4 _.
  eapply ok_bind; [apply ok_intersect_node|]. intros nlocal l5 I5 Hts.
  assert (I05 : incl l0 l5) by (incls).
  assert (M1 : wr l5 node_hits node) by (apply I5, I4, I3, N1). assert (M2 : wr l5 node_min_t node) by (apply I5, I4, I3, N2).
  eapply ok_weak with (Q := fun r l' => hits_filled l' (fst r) /\ incl l5 l').
  { apply ok_loop; [split; [eapply hits_incl; eassumption|apply incl_refl]|]. intros k [hits nh] l6 Hk I6 [Hh6 _]. cbn [fst] in Hh6. apply in_range in Hk.
    assert (T : forall l', incl l6 l' -> wr l' ts k) by (intros l' I'; apply I', I6, Hts, Hk).
    eapply ok_bind with (Q := fun h l' => hits_filled l' h).
    { ostep; [|ostep; exact Hh6]. ostep. { intros _. apply T, incl_refl. }
      eapply ok_bind; [apply ok_store|]. intros ? la Ia C1. eapply ok_bind; [apply ok_store|]. intros ? lb Ib C2. apply (wr_incl _ _ _ _ Ib) in C1. ostep. destruct Hh6 as [A B].
      assert (I6b : incl l6 lb) by (incls).
      split; intros i Hi; rewrite app_length in Hi; cbn [List.length] in Hi; (destruct (Z.eq_dec i (Z.of_nat (List.length hits))) as [->|Hne]; [assumption|]); apply I6b.
      - apply A. lia.
      - apply B. lia. }
    intros h l7 I7 Hh7.
    assert (I57 : incl l5 l7) by (eapply incl_tran; eassumption).
    ostep. { intros _. apply I57, M1. }
    ostep. ostep. { intros _. eapply wr_incl; [|now apply Hts]; incls. }
    ostep. { intros _. eapply wr_incl; [|exact M2]; incls. }
    ostep. eapply ok_bind with (Q := fun _ _ => True); [ostep; [ostep|now ostep]|]. intros _ l8 I8 _. ostep. cbn [fst].
    match goal with |- hits_filled ?lz _ /\ _ => assert (I7z : incl l7 lz) by (incls) end.
    split; [eapply hits_incl; eassumption|eapply incl_tran; eassumption]. }
  intros rr l6 I6 [A _]. split; [exact A|]. intros n Hn. apply in_app_iff in Hn as [Hn|[<-|[]]].
  - destruct (Hd n Hn). split; apply I6, I05; assumption.
  - split; apply I6; assumption.
Qed.
Lemma ok_find_first n l : 0 < n -> upto l hit_t n -> ok l (find_first n) (fun f _ => 0 <= f < n).
Proof.
  intros Hn H. unfold find_first. apply ok_loop; [lia|]. intros i f l' Hi HI Hf. cbv beta in Hf. apply in_range in Hi.
  ostep. { intros _. apply HI, H. lia. } ostep. { intros _. eapply wr_incl; [|apply H; lia]; incls. } ostep. ostep. bif; lia.
Qed.
Lemma ok_find_second n f l : 0 <= f < n -> upto l hit_t n -> ok l (find_second n f) (fun x _ => x < n /\ (2 <= n -> 0 <= x)).
Proof.
  intros Hf H. unfold find_second.
  eapply ok_weak with (Q := fun x _ => -1 <= x < n /\ ((exists i, In i (range 0 n) /\ i <> f) -> 0 <= x)).
  - apply (ok_for (range 0 n) _ (fun d x _ => -1 <= x < n /\ ((exists i, In i d /\ i <> f) -> 0 <= x)) (range 0 n) []); [reflexivity| |].
    { split; [lia|]. intros (i & [] & _). }
    intros d i r b l' E HI [Hb1 Hb2]. assert (Hi : 0 <= i < n) by (apply in_range; rewrite E, in_app_iff; right; now left).
    destruct (i =? f) eqn:Ei.
    + ostep. split; [exact Hb1|]. intros (j & Hj & Hne). apply Z.eqb_eq in Ei. apply in_app_iff in Hj as [Hj|[<-|[]]]; [|congruence]. apply Hb2. eauto.
    + ostep; [ostep; split; [lia|]; intros _; lia|]. match goal with K : (_ <? 0) = false |- _ => apply Z.ltb_ge in K end.
      ostep. { intros _. apply HI, H. lia. } ostep. { intros _. eapply wr_incl; [|apply H; lia]; incls. } ostep. ostep.
      split; [bif; lia|]. intros _. bif; lia.
  - intros x l' _ (K1 & K2). split; [lia|]. intros Hn. apply K2. exists (if f =? 0 then 1 else 0).
    split; [apply in_range|]; destruct (f =? 0) eqn:E; (apply Z.eqb_eq in E || apply Z.eqb_neq in E); lia.
Qed.
Lemma ok_find_container s nh l : nodes_filled l (range 0 (n_nodes s)) -> ok l (find_container s nh) (fun _ _ => True).
Proof.
  intros H. unfold find_container. apply ok_loop; [exact I|]. intros node c l' Hn HI _. destruct (H node Hn) as [A B].
  ostep. { intros _. apply HI, A. } ostep; [|now ostep]. ostep. { intros _. eapply wr_incl; [|exact B]; incls. }
  ostep. ostep; [|now ostep]. ostep. { intros _. eapply wr_incl; [|exact B]; incls. } now ostep.
Qed.
Lemma ok_absorbed_before mem cbase ccount l : ok l (absorbed_before mem cbase ccount) (fun _ _ => True).
Proof.
  unfold absorbed_before. eapply ok_bind; [apply ok_quiet_loop; intros; apply ok_coefficient|]. intros _ l' _ _.
  eapply ok_bind with (Q := fun _ _ => True); [quiet|]. intros b l2 _ _. quiet.
Qed.
Lemma ok_select mem cbase ccount l : ok l (select_component mem cbase ccount) (fun _ _ => True).
Proof.
  unfold select_component. eapply ok_bind with (Q := fun _ _ => True); [|intros; quiet].
  apply ok_quiet_loop. intros x [c found] l' _. ostep; [quiet|]. eapply ok_bind; [apply ok_coefficient|]. intros _ l2 _ _. quiet.
Qed.
Lemma ok_tally_at mem s tid (c : bool) (m : prog unit) facet l : seen_ok s l -> (forall l', ok l' m (fun _ _ => True)) ->
  ok l (if c then m ;;; tally mem s tid facet else ret tt) (fun _ _ => True).
Proof.
  intros H Hm. ostep; [|now ostep]. eapply ok_bind; [apply Hm|]. intros _ l' HI _. apply ok_tally. eapply seen_incl; eassumption.
Qed.
Lemma seen_post {A} s l (m : prog A) Q : seen_ok s l -> ok l m Q -> ok l m (fun _ l' => seen_ok s l').
Proof. intros H K. eapply ok_weak; [exact K|]. intros a l' HI _. eapply seen_incl; eassumption. Qed.
Lemma ok_absorb mem s tid base container cbase ccount nevents l : seen_ok s l ->
  ok l (absorb mem s tid base container cbase ccount nevents) (fun _ _ => True).
Proof.
  intros H. unfold absorb. eapply ok_bind; [apply ok_select|]. intros comp l1 I1 _. eapply ok_bind; [apply ok_record|]. intros n l2 I2 _. ostep.
  eapply ok_bind with (Q := fun _ _ => True); [quiet|]. intros rad l3 I3 _. ostep.
  - ostep. ostep. eapply ok_bind with (Q := fun _ _ => True).
    { ostep; [|now ostep]. ostep. ostep. eapply ok_bind with (Q := fun _ _ => True); [ostep; [now ostep|now apply ok_interp]|]. intros _ l7 _ _.
      eapply ok_bind; [now apply ok_interp|]. intros _ l8 _ _. quiet. }
    intros _ l9 _ _. eapply ok_bind; [apply ok_record|]. intros m l10 _ _. now ostep.
  - ostep. ostep. eapply ok_bind with (Q := fun _ _ => True); [quiet|]. intros _ l7 I7 _. eapply ok_bind; [apply ok_record|]. intros _ l8 I8 _.
    eapply ok_bind; [apply ok_tally_at|intros; now ostep].
    + eapply seen_incl; [|exact H]. repeat (eapply incl_tran; [eassumption|]). apply incl_refl.
    + intros. now apply ok_point.
Qed.
Lemma ok_surface mem s tid base hit container adjacent nevents l : seen_ok s l ->
  ok l (surface mem s tid base hit container adjacent nevents) (fun _ _ => True).
Proof.
  intros H. unfold surface. ostep. { eapply ok_bind; [apply ok_record|]. intros _ l1 _ _. now ostep. }
  eapply ok_bind; [now apply ok_point|]. intros _ l1 I1 _. eapply ok_bind; [apply ok_normal|]. intros _ l2 I2 _. eapply ok_bind; [now apply ok_vector|]. intros _ l3 I3 _. ostep.
  eapply ok_bind with (Q := fun _ _ => True); [quiet|]. intros _ l4 I4 _. ostep. ostep.
  - eapply ok_bind; [apply ok_record|]. intros n l5 I5 _. eapply ok_bind with (Q := fun _ _ => True); [|intros; now ostep].
    ostep; [|now ostep]. apply ok_tally. eapply seen_incl; [|exact H]. repeat (eapply incl_tran; [eassumption|]). apply incl_refl.
  - ostep. eapply ok_bind; [apply ok_record|]. intros n l5 I5 _. eapply ok_bind with (Q := fun _ _ => True); [|intros; now ostep].
    ostep; [|now ostep]. apply ok_tally. eapply seen_incl; [|exact H]. repeat (eapply incl_tran; [eassumption|]). apply incl_refl.
Qed.
Lemma ok_pass mem s tid base count nevents l : seen_ok s l -> ok l (pass mem s tid base count nevents) (fun _ _ => True).
Proof.
  intros H. unfold pass. eapply ok_bind; [apply ok_find_hits|]. intros [hits nh] l1 I1 [[H1 H2] H3]. cbn [fst] in H1, H2. cbv zeta.
  set (n := Z.of_nat (List.length hits)) in *. ostep; [now ostep|]. match goal with E : (_ =? 0) = false |- _ => apply Z.eqb_neq in E end.
  assert (Hn : 0 < n) by lia.
  eapply ok_bind; [now apply ok_find_first|]. intros first l2 I2 Hf. cbv beta in Hf.
  eapply ok_bind; [apply ok_find_second; [exact Hf|eapply upto_incl; eassumption]|]. intros second l3 I3 [Hs1 Hs2].
  ostep. { intros _. apply I3, I2, H2, Hf. } ostep. { intros _. eapply wr_incl; [|apply H1, Hf]; incls. }
  eapply ok_bind with (Q := fun _ _ => True).
  { ostep; [now ostep|]. match goal with E : (_ =? 1) = false |- _ => apply Z.eqb_neq in E end.
    eapply ok_bind; [apply ok_find_container; eapply nodes_incl; [|exact H3]; incls|].
    intros c l6 I6 _. ostep; [|now ostep]. ostep; [|now ostep]. intros _. eapply wr_incl; [|apply H2; lia]; incls. }
  intros [container adjacent] l7 I7 _.
  assert (S7 : seen_ok s l7) by (eapply seen_incl; [|exact H]; incls). clear - S7 loc_stack.
  ostep.
  { eapply ok_bind; [eapply seen_post; [exact S7|apply ok_record]|]. intros ? l8 _ S8. eapply ok_bind; [apply ok_tally_at; [exact S8|intros; now apply ok_point]|]. intros; now ostep. }
  ostep. ostep.
  { eapply ok_bind; [eapply seen_post; [eapply seen_incl; eassumption|apply ok_record]|]. intros ? l8 _ S8.
    eapply ok_bind with (Q := fun _ _ => True); [|intros; now ostep]. ostep; [|now ostep].
    eapply ok_bind; [now apply ok_point|]. intros _ l9 I9 _. eapply ok_bind; [apply ok_normal|]. intros _ l10 I10 _. eapply ok_bind; [now apply ok_vector|]. intros _ l11 I11 _.
    apply ok_tally. eapply seen_incl; [|exact S8]. repeat (eapply incl_tran; [eassumption|]). apply incl_refl. }
  ostep. ostep. eapply ok_bind; [apply ok_absorbed_before|]. intros b l8 I8 _.
  assert (S8 : seen_ok s l8) by (eapply seen_incl; [|exact S7]; incls).
  ostep; [now apply ok_absorb|now apply ok_surface].
Qed.
Lemma ok_trace_loop mem s tid base fuel : forall count nevents l, seen_ok s l -> ok l (loop fuel mem s tid base count nevents) (fun _ _ => True).
Proof.
  induction fuel as [|f IH]; intros count nevents l H; cbn [loop]; [now ostep|]. ostep; [apply ok_record|].
  eapply ok_bind; [eapply seen_post; [exact H|now apply ok_pass]|]. intros [m|] l' _ S; [now apply IH|now ostep].
Qed.
Lemma ok_trace_ray fuel mem s tid i l : ok l (trace_ray fuel mem s tid i) (fun _ _ => True).
Proof.
  unfold trace_ray. cbv zeta. ostep. ostep. ostep. eapply ok_bind with (Q := fun _ _ => True); [|intros; quiet].
  unfold trace_one. eapply ok_bind; [apply ok_stores|]. intros ? l2 I2 F. rewrite Forall_forall in F.
  assert (S2 : seen_ok s l2) by (intros _ r Hr; apply F, in_range, Hr).
  eapply ok_bind; [eapply seen_post; [exact S2|apply ok_record]|]. intros n l3 _ S3. eapply ok_true. now apply ok_trace_loop.
Qed.

Lemma filled_split l : filled l -> forall later x earlier, l = later ++ x :: earlier -> x_write x = false -> loc (x_array x) = true ->
  In (Access true (x_array x) (x_index x)) earlier.
Proof.
  induction l as [|y l IH]; intros F later x earlier E W L; [now destruct later|]. destruct F as [F1 F2].
  destruct later as [|z later]; cbn in E; injection E as -> ->; [now apply F1|]. now apply (IH F2 later x earlier).
Qed.
End Logic.

(** In the accesses of a program that starts with nothing noted (newest first), each read of one
    of the arrays [as_] comes after a write to the same slot. *)
Definition writes_before_reads (as_ : list array) (l : list access) : Prop :=
  forall later x earlier, l = later ++ x :: earlier -> x_write x = false -> In (x_array x) as_ ->
  In (Access true (x_array x) (x_index x)) earlier.

Definition is_in (as_ : list array) (a : array) : bool := if in_dec (fun x y : array => ltac:(decide equality)) a as_ then true else false.
Lemma from_logic {A} as_ (m : prog A) Q : (forall a, In a as_ -> on_stackb a = true) ->
  (forall loc, (forall a, loc a = true -> on_stackb a = true) -> (forall a, loc a = true -> In a as_) -> ok loc [] m Q) ->
  forall o k, writes_before_reads as_ (fst (snd (m o ([], k)))) /\ Q (fst (m o ([], k))) (fst (snd (m o ([], k)))).
Proof.
  intros S H o k. specialize (H (is_in as_)).
  assert (L : forall a, is_in as_ a = true <-> In a as_) by (intros a; unfold is_in; destruct (in_dec _ a as_); split; auto; discriminate).
  destruct (H ltac:(intros a Ha; apply S, L, Ha) (fun a => proj1 (L a)) I o k) as (F & _ & HQ). split; [|exact HQ].
  intros later x earlier E W Hx. eapply filled_split; [exact F|exact E|exact W|]. now apply L.
Qed.

(** The whole ray, for any tables at all *)
Theorem C155_ray : forall mem s fuel tid i o,
  writes_before_reads [hit_t; hit_node; node_hits; node_min_t; ts; cand; rseen] (accesses mem s fuel tid i o).
Proof.
  intros. unfold accesses. apply (from_logic _ (trace_ray fuel mem s tid i) (fun _ _ => True)).
  - intros a Ha. repeat (destruct Ha as [<-|Ha]; [reflexivity|]). destruct Ha.
  - intros loc L _. now apply ok_trace_ray.
Qed.
Print Assumptions C155_ray.

(** What a program notes does not depend on what was noted before. *)
Definition framed {A} (m : prog A) : Prop :=
  forall o l k, m o (l, k) = (fst (m o ([], k)), (fst (snd (m o ([], k))) ++ l, snd (snd (m o ([], k))))).
Lemma framed_ret {A} (a : A) : framed (ret a).
Proof. intros o l k. reflexivity. Qed.
Lemma framed_bind {A B} (m : prog A) (f : A -> prog B) : framed m -> (forall a, framed (f a)) -> framed (bind m f).
Proof.
  intros Hm Hf o l k. unfold bind. rewrite Hm. destruct (m o ([], k)) as [a [l1 k1]]. cbn. rewrite (Hf a o (l1 ++ l) k1), (Hf a o l1 k1). cbn. now rewrite app_assoc.
Qed.
Lemma framed_for {A B} (l : list A) (f : A -> B -> prog B) : (forall x b, framed (f x b)) -> forall b, framed (for_each l f b).
Proof. intros H. induction l as [|x l IH]; intros b; cbn [for_each]; [apply framed_ret|apply framed_bind; auto]. Qed.
Lemma framed_search xs p : forall fuel lo hi, framed (search fuel xs p lo hi).
Proof.
  induction fuel as [|f IH]; intros lo hi; cbn [search]; [apply framed_ret|]. destruct (1 <? hi - lo); [|apply framed_ret].
  apply framed_bind; [now intros ? ? ?|]. intros _. apply framed_bind; [now intros ? ? ?|]. intros []; apply IH.
Qed.
Ltac fr :=
  repeat match goal with
  | |- framed (bind _ _) => apply framed_bind; [|intros ?]
  | |- framed (ret _) => apply framed_ret
  | |- framed (touch _ _) => now intros ? ? ?
  | |- framed (store _ _) => now intros ? ? ?
  | |- framed ask => now intros ? ? ?
  | |- framed cast => now intros ? ? ?
  | |- framed (for_each _ _ _) => apply framed_for; intros ? ?
  | |- framed (search _ _ _ _ _) => apply framed_search
  | |- framed (if ?c then _ else _) => destruct c
  | |- framed (let '(_, _) := ?c in _) => destruct c
  | |- framed (match ?c with (_, _) => _ end) => destruct c
  end.
Lemma framed_intersect mem node : framed (intersect_node mem node).
Proof. unfold intersect_node, intersect_box, intersect_sphere, intersect_cylinder, push, read, touches. fr. Qed.
Lemma framed_record s base count : framed (record s base count).
Proof. unfold record, stores. fr. Qed.
Lemma framed_tally mem s tid facet : framed (tally mem s tid facet).
Proof. unfold tally, tally_recorder, tally_row, read, touches, stores. fr. Qed.
Lemma framed_coefficient mem c : framed (coefficient mem c).
Proof. unfold coefficient, interp_clamped, read. fr. Qed.
Lemma framed_pass mem s tid base count nevents : framed (pass mem s tid base count nevents).
Proof.
  pose proof (framed_record s) as R. pose proof (framed_tally mem s tid) as T. pose proof (framed_coefficient mem) as C. pose proof (framed_intersect mem) as N.
  unfold pass, find_hits, find_first, find_second, find_container, absorbed_before, absorb, select_component, surface, local_normal, transform_point, transform_vector, interp_clamped, read, touches.
  repeat (fr; auto; cbv zeta).
Qed.

(** One pass of the loop, wherever it starts, uses nothing that an earlier pass left behind. *)
Theorem C155_pass : forall mem s tid base count nevents o before k, exists added,
  fst (snd (pass mem s tid base count nevents o (before, k))) = added ++ before /\
  writes_before_reads [hit_t; hit_node; node_hits; node_min_t; ts; cand] added.
Proof.
  intros. rewrite framed_pass. cbn [fst snd]. eexists. split; [reflexivity|]. apply (from_logic _ (pass mem s tid base count nevents) (fun _ _ => True)).
  - intros a Ha. repeat (destruct Ha as [<-|Ha]; [reflexivity|]). destruct Ha.
  - intros loc L Hin. apply ok_pass; [exact L|]. intros E. apply Hin in E. repeat (destruct E as [E|E]; [discriminate|]). destruct E.
Qed.
Print Assumptions C155_pass.

(** One call of intersect_node uses no candidate of an earlier call, and fills every distance that
    it reports. *)
Theorem C155_intersect : forall mem node o before k, exists added,
  fst (snd (intersect_node mem node o (before, k))) = added ++ before /\ writes_before_reads [cand; ts] added /\
  forall i, 0 <= i < fst (intersect_node mem node o (before, k)) -> In (Access true ts i) added.
Proof.
  intros mem node o before k. rewrite framed_intersect. cbn [fst snd]. eexists. split; [reflexivity|].
  apply (from_logic [cand; ts] (intersect_node mem node) (fun n l => forall i, 0 <= i < n -> In (Access true ts i) l)).
  - intros a Ha. repeat (destruct Ha as [<-|Ha]; [reflexivity|]). destruct Ha.
  - intros loc L _. now apply ok_intersect_node.
Qed.
Print Assumptions C155_intersect.

(** a ray that leaves the world: its only hit, the number of hits and the mark of the recorder are
    read, each after it was written *)
Example C155_example_ray : exists mem s, trace_bundle open_world [(0%nat, leaving)] (Call 5 1000 128 0 2 3) = Some (mem, s) /\
  exists l1 l2 l3, accesses mem s 9 1 3 leaves = l1 ++ Access false rseen 0 :: l2 ++ Access false hit_node 0 :: l3 /\
    In (Access true rseen 0) l3 /\ In (Access true hit_node 0) l3.
Proof.
  unfold trace_bundle. rewrite open_world_compiles. eexists. eexists. split; [reflexivity|].
  set (l := accesses _ _ _ _ _ _). vm_compute in l.
  match goal with l := ?v |- _ => 
    let rec cut1 v acc := lazymatch v with Access false rseen 0 :: ?r => constr:((acc, r)) | ?x :: ?r => cut1 r (acc ++ [x]) end in
    let rec cut2 v acc := lazymatch v with Access false hit_node 0 :: ?r => constr:((acc, r)) | ?x :: ?r => cut2 r (acc ++ [x]) end in
    let p1 := cut1 v (@nil access) in lazymatch p1 with (?a, ?b) => let p2 := cut2 b (@nil access) in lazymatch p2 with (?c, ?d) => exists a, c, d end end end.
  split; [reflexivity|]. split; repeat (try (left; reflexivity); right).
Qed.
(** a cylinder whose side and caps are all hit: four candidates, four distances *)
Example C155_example_cylinder : let r := intersect_node (Memory (fun _ => 8) (fun _ _ => 2)) 0 (Oracle (fun _ => true) (fun _ => 0)) ([], 0%nat) in
  fst r = 4 /\ In (Access false cand 3) (fst (snd r)) /\ In (Access true ts 3) (fst (snd r)).
Proof. vm_compute. repeat split; repeat (try (left; reflexivity); right). Qed.
