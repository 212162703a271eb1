(** C135: when the studio is idle the editor, the viewport and the scene that is traced belong to one text. *)
From Coq Require Import List Bool Arith Lia.
From Verif Require Import SyncModel.
Import ListNotations.

Lemma nth_replace {A} (a : list A) m b r : replace_nth (List.length a) r (a ++ m :: b) = a ++ r :: b.
Proof. induction a as [|x a IH]; cbn; [reflexivity|now rewrite IH]. Qed.

Section Orderly.
Context {text op : Type} (blank loads : text -> bool) (edit : text -> op -> option text).
Hypothesis blank_refused : forall t, blank t = true -> loads t = false.
Notation message := (message text op).
Notation state := (state text op).
Notation event := (event text op).

(** ** Orderly use *)
Definition is_reply (m : message) : bool := match m with Got _ | Did _ _ | Patched _ | Lived | Saved _ => true | _ => false end.
(** a reply to this message may replace the text of the editor or change the file *)
Definition barrier (m : message) : bool :=
  match m with Put _ ThenSave | Did _ ThenSave => true | Put _ _ | Did _ _ => false | _ => true end.
Definition idle (s : state) : Prop := wire s = [] /\ timer (pg s) = false.
(** Requests are handled in order, replies arrive in order; the page is reactive while the user types;
    typing, apply and save wait for the reply of an edit, of a save and of the first load; an edit
    waits until the studio is idle and the text of the editor is the document; nothing is dragged in real time. *)
Definition orderly (s : state) (e : event) : Prop :=
  match e with
  | Type_ _ => reactive (pg s) = true /\ forallb (fun m => negb (barrier m)) (wire s) = true
  | Timer | ClickApply | ClickSave => forallb (fun m => negb (barrier m)) (wire s) = true
  | Edit _ => idle s /\ editor (pg s) = document (sv s)
  | DragLive _ => False
  | Handle i => forallb is_reply (firstn i (wire s)) = true
  | Deliver i => i = 0
  | Tick _ => True
  end.
Fixpoint all_orderly (s : state) (es : list event) : Prop :=
  match es with [] => True | e :: es' => orderly s e /\ forall s', step blank loads edit s e = Some s' -> all_orderly s' es' end.

(** ** Invariant *)
Notation put := (fun q : text * then_ => @Put text op (fst q) (snd q)).
Notation did := (fun r : option text * then_ => @Did text op (fst r) (snd r)).
Definition seen (v : option text) (r : option text * then_) : option text := match fst r with Some t => Some t | None => v end.
(** what the document status promises once nothing is under way *)
Definition promised (s : state) : Prop :=
  let p := pg s in let d := document (sv s) in
  match doc_status p with
  | SceneOk => editor p = d /\ (blank d = true \/ scene (sv s) = Some d)
  | SavedOk => editor p = d /\ scene (sv s) = Some d /\ file (sv s) = Some d
  | Error => True
  end.
Definition settled (s : state) (rs : list (option text * then_)) (qs : list (text * then_)) : Prop :=
  let p := pg s in
  match rev qs, rev rs with
  | (t, _) :: _, _ => t = editor p
  | [], (Some t, _) :: _ => t = editor p /\ document (sv s) = t /\ scene (sv s) = Some t
  | [], (None, _) :: _ => True
  | [], [] => promised s
  end.
Definition not_save (k : then_) : bool := match k with ThenSave => false | _ => true end.
Definition kinds (rs : list (option text * then_)) (qs : list (text * then_)) : list then_ := map snd rs ++ map snd qs.
Inductive Inv (s : state) : Prop :=
| ILoad : (wire s = [Get] \/ wire s = [Got (document (sv s))]) -> timer (pg s) = false ->
    viewport (pg s) = None -> doc_status (pg s) = SceneOk ->
    scene (sv s) = (if loads (document (sv s)) then Some (document (sv s)) else None) -> Inv s
| IPuts rs qs : wire s = map did rs ++ map put qs ->
    (fold_left seen rs (viewport (pg s)) = scene (sv s) \/
     (rs = [] /\ (exists k qs', qs = (document (sv s), k) :: qs') /\ loads (document (sv s)) = true /\ scene (sv s) = Some (document (sv s)))) ->
    forallb not_save (removelast (kinds rs qs)) = true ->
    ((timer (pg s) = true /\ forallb not_save (kinds rs qs) = true) \/ settled s rs qs) ->
    (forall t, scene (sv s) = Some t -> t = document (sv s)) -> Inv s
| ISave : (wire s = [Save] \/ (wire s = [Saved true] /\ file (sv s) = Some (document (sv s))) \/ wire s = [Saved false]) ->
    editor (pg s) = document (sv s) -> viewport (pg s) = scene (sv s) -> scene (sv s) = Some (document (sv s)) -> Inv s
| IPatch : ((exists o, wire s = [Patch o]) \/ wire s = [Patched None]) ->
    timer (pg s) = false -> editor (pg s) = document (sv s) -> viewport (pg s) = scene (sv s) ->
    (forall t, scene (sv s) = Some t -> t = document (sv s)) -> Inv s
| IPatched t o : wire s = [Patched (Some t)] -> edit (editor (pg s)) o = Some t -> timer (pg s) = false ->
    document (sv s) = t -> scene (sv s) = Some t -> Inv s.

Lemma started_inv empty t has_file : Inv (started loads empty t has_file).
Proof. apply ILoad; try reflexivity. now left. Qed.

Lemma first_request rs : forall qs i m, forallb is_reply (firstn i (map did rs ++ map put qs)) = true ->
  nth_error (map did rs ++ map put qs) i = Some m -> is_reply m = false ->
  i = List.length (map did rs) /\ exists t k qs', qs = (t, k) :: qs' /\ m = Put t k.
Proof.
  induction rs as [|r rs IH]; intros qs i m F N R.
  - cbn [map app] in *. destruct qs as [|[t k] qs]; [destruct i; discriminate|]. destruct i as [|i].
    + cbn in N. injection N as <-. split; [reflexivity|]. eauto 6.
    + cbn in F. discriminate.
  - cbn [map app] in *. destruct i as [|i].
    + cbn in N. injection N as <-. discriminate.
    + cbn [firstn forallb] in F. apply andb_prop in F. destruct F as [_ F]. cbn in N. destruct (IH qs i m F N R) as (-> & X).
      split; [reflexivity|exact X].
Qed.
Lemma request_handled m s r : handle loads edit m s = Some r -> is_reply m = false.
Proof. destruct m; cbn; intros H; try discriminate; reflexivity. Qed.
Lemma no_barrier_kinds rs qs : forallb (fun m => negb (barrier m)) (map did rs ++ map put qs) = forallb not_save (kinds rs qs).
Proof.
  unfold kinds. rewrite !forallb_app. f_equal.
  - induction rs as [|[r k] rs IH]; [reflexivity|]. cbn. rewrite IH. now destruct k.
  - induction qs as [|[r k] qs IH]; [reflexivity|]. cbn. rewrite IH. now destruct k.
Qed.
Lemma kinds_snoc rs qs t k : kinds rs (qs ++ [(t, k)]) = kinds rs qs ++ [k].
Proof. unfold kinds. now rewrite map_app, app_assoc. Qed.
Lemma removelast_snoc {A} (l : list A) x : removelast (l ++ [x]) = l.
Proof. rewrite removelast_app by discriminate. cbn. apply app_nil_r. Qed.
Lemma forallb_removelast {A} (f : A -> bool) l : forallb f l = true -> forallb f (removelast l) = true.
Proof.
  rewrite !forallb_forall. intros H x Hx. apply H. induction l as [|a l IH]; [destruct Hx|]. cbn in Hx. destruct l as [|b l]; [destruct Hx|].
  destruct Hx as [<-|Hx]; [now left|]. right. apply IH; [|exact Hx]. intros y Hy. apply H. now right.
Qed.
Lemma removelast_tail {A} (f : A -> bool) x l : forallb f (removelast (x :: l)) = true -> forallb f (removelast l) = true /\ (l <> [] -> f x = true).
Proof. cbn. destruct l as [|y l]; [intros _; split; [reflexivity|congruence]|]. cbn [forallb]. intros H. apply andb_prop in H. now split. Qed.

Lemma inv_post_put s k : Inv s -> forallb (fun m => negb (barrier m)) (wire s) = true ->
  forall p, editor p = editor (pg s) -> viewport p = viewport (pg s) -> Inv (post (State p (sv s) (wire s)) (Put (editor p) k)).
Proof.
  intros I B p E V. destruct I as [[W|W] T|rs qs W Vw K St Sc|[W|[[W _]|W]]|[[o W]|W]|t o W]; try (rewrite W in B; cbn in B; discriminate).
  rewrite W, no_barrier_kinds in B. apply (IPuts _ rs (qs ++ [(editor p, k)])); unfold post; cbn [wire pg sv].
  - rewrite W, map_app, app_assoc. reflexivity.
  - rewrite V. destruct Vw as [Vw|(-> & (k0 & qs' & ->) & L & Ss)]; [now left|]. right. split; [reflexivity|].
    split; [exists k0, (qs' ++ [(editor p, k)]); reflexivity|]. now split.
  - rewrite kinds_snoc, removelast_snoc. exact B.
  - right. unfold settled. rewrite rev_app_distr. cbn. reflexivity.
  - exact Sc.
Qed.

Lemma step_inv s e s' : Inv s -> orderly s e -> step blank loads edit s e = Some s' -> Inv s'.
Proof.
  intros I O H. destruct e as [t|b| | | |o|o|i|i]; cbn [step orderly] in *.
  - (* typing *)
    injection H as <-. destruct O as [R B]. rewrite R, orb_true_r.
    destruct I as [[W|W] T|rs qs W Vw K St Sc|[W|[[W _]|W]]|[[o W]|W]|t0 o0 W]; try (rewrite W in B; cbn in B; discriminate).
    rewrite W, no_barrier_kinds in B. apply (IPuts _ rs qs); cbn [pg sv wire viewport timer editor]; try assumption.
    left. now split.
  - injection H as <-. destruct I as [W T V D S|rs qs W Vw K St Sc|W E V S|W T E V Sc|t0 o0 W Eo T D S].
    + apply ILoad; assumption.
    + apply (IPuts _ rs qs); assumption.
    + apply ISave; assumption.
    + apply IPatch; assumption.
    + apply (IPatched _ t0 o0); assumption.
  - destruct (timer (pg s)); [|discriminate]. injection H as <-.
    exact (inv_post_put s ThenRun I O (Page (editor (pg s)) (viewport (pg s)) (reactive (pg s)) false (doc_status (pg s))) eq_refl eq_refl).
  - injection H as <-. destruct s as [p v w]. exact (inv_post_put (State p v w) Nothing I O p eq_refl eq_refl).
  - injection H as <-. destruct s as [p v w]. exact (inv_post_put (State p v w) ThenSave I O p eq_refl eq_refl).
  - (* a structured edit *)
    injection H as <-. destruct O as [[W0 T0] E0].
    destruct I as [[W|W] T|rs qs W Vw K St Sc|[W|[[W _]|W]]|[[o' W]|W]|t0 o0 W]; try (rewrite W in W0; discriminate).
    rewrite W in W0. destruct rs; [|discriminate]. destruct qs; [|discriminate].
    apply IPatch; unfold post; cbn [pg sv wire]; try assumption.
    + left. exists o. rewrite W. reflexivity.
    + destruct Vw as [Vw|(_ & (k0 & qs' & X) & _)]; [exact Vw|discriminate].
  - contradiction.
  - (* the server *)
    destruct (nth_error (wire s) i) as [m|] eqn:N; [|discriminate]. destruct (handle loads edit m (sv s)) as [[v r]|] eqn:Hh; [|discriminate].
    injection H as <-. pose proof (request_handled _ _ _ Hh) as R.
    assert (One : forall x, wire s = [x] -> i = 0 /\ m = x).
    { intros x W. rewrite W in N. destruct i as [|i]; [cbn in N; injection N as <-; now split|destruct i; discriminate]. }
    destruct I as [W T V D S|rs qs W Vw K St Sc|W E V S|W T E V Sc|t0 o0 W Eo T D S].
    + destruct W as [W|W]; destruct (One _ W) as [-> ->]; cbn in R, Hh; try discriminate. injection Hh as <- <-.
      apply ILoad; cbn [pg sv wire]; try assumption. right. now rewrite W.
    + rewrite W in N, O. destruct (first_request _ _ _ _ O N R) as (-> & t & k & qs' & -> & ->).
      cbn [handle] in Hh. rewrite W. cbn [map fst snd]. rewrite nth_replace. unfold apply in Hh.
      assert (Ww : map did rs ++ r :: map put qs' = map did (rs ++ [(if loads t then Some t else None, k)]) ++ map put qs').
      { rewrite map_app, <- app_assoc. cbn. destruct (loads t); injection Hh as <- <-; reflexivity. }
      assert (Kk : kinds (rs ++ [(if loads t then Some t else None, k)]) qs' = kinds rs ((t, k) :: qs')).
      { unfold kinds. rewrite map_app, <- app_assoc. reflexivity. }
      apply (IPuts _ (rs ++ [(if loads t then Some t else None, k)]) qs'); cbn [pg sv wire]; [exact Ww|..].
      * left. rewrite fold_left_app. cbn [fold_left]. destruct (loads t) eqn:L; injection Hh as <- <-; cbn [seen fst scene]; [reflexivity|].
        destruct Vw as [Vw|(-> & (k0 & qs'' & X) & L' & _)]; [exact Vw|]. injection X as X _ _. rewrite X in L. congruence.
      * rewrite Kk. exact K.
      * rewrite Kk. destruct St as [St|St]; [now left|]. right. unfold settled in *. cbn [pg sv] in *. cbn [rev] in St.
        destruct (rev qs') as [|[t' k'] l] eqn:Rq; cbn [app] in St; [|exact St].
        rewrite rev_app_distr. cbn [rev app]. destruct (loads t) eqn:L; injection Hh as <- <-; cbn [document scene]; [|exact Logic.I].
        split; [exact St|]. split; reflexivity.
      * intros t' Ht. destruct (loads t); injection Hh as <- <-; [cbn in *; congruence|apply Sc, Ht].
    + destruct W as [W|[[W F]|W]]; destruct (One _ W) as [-> ->]; cbn in R, Hh; try discriminate.
      destruct (file (sv s)) as [f|] eqn:F; injection Hh as <- <-; apply ISave; cbn [pg sv wire]; try assumption.
      * right. left. rewrite W. split; reflexivity.
      * right. right. now rewrite W.
    + destruct W as [[o W]|W]; destruct (One _ W) as [-> ->]; cbn in R, Hh; try discriminate. rewrite W.
      destruct (edit (document (sv s)) o) as [t|] eqn:Ed; [|injection Hh as <- <-; apply IPatch; cbn [pg sv wire replace_nth]; auto].
      unfold apply in Hh. destruct (loads t); injection Hh as <- <-.
      * apply (IPatched _ t o); cbn [pg sv wire]; try reflexivity; [now rewrite E|exact T].
      * apply IPatch; cbn [pg sv wire replace_nth]; auto.
    + destruct (One _ W) as [-> ->]; cbn in R; discriminate.
  - (* the page *)
    subst i. destruct (nth_error (wire s) 0) as [m|] eqn:N; [|discriminate]. destruct (receive blank m (pg s)) as [[p ms]|] eqn:Hh; [|discriminate].
    injection H as <-.
    destruct I as [W T V D S|rs qs W Vw K St Sc|W E V S|W T E V Sc|t0 o0 W Eo T D S].
    + destruct W as [W|W]; rewrite W in N; cbn in N; injection N as <-; cbn in Hh; [discriminate|]. injection Hh as <- <-. rewrite W. cbn [remove_nth app].
      destruct (blank (document (sv s))) eqn:B.
      * apply (IPuts _ [] []); cbn [pg sv wire viewport timer editor doc_status]; try reflexivity.
        -- left. cbn. rewrite V, S. now rewrite (blank_refused _ B).
        -- right. unfold settled, promised. cbn. rewrite D. split; [reflexivity|now left].
        -- intros t Ht. rewrite S in Ht. destruct (loads _); [congruence|discriminate].
      * apply (IPuts _ [] [(document (sv s), Nothing)]); cbn [pg sv wire viewport timer editor doc_status]; try reflexivity.
        -- destruct (loads (document (sv s))) eqn:L.
           ++ right. split; [reflexivity|]. split; [eexists _, _; reflexivity|]. now split.
           ++ left. cbn. now rewrite V, S.
        -- right. unfold settled. cbn. reflexivity.
        -- intros t Ht. rewrite S in Ht. destruct (loads _); [congruence|discriminate].
    + rewrite W in N |- *. destruct rs as [|[r k] rs]; [destruct qs as [|[t k] qs]; cbn in N; [discriminate|injection N as <-; discriminate]|].
      cbn in N. injection N as <-. cbn [map app remove_nth fst snd].
      change (kinds ((r, k) :: rs) qs) with (k :: kinds rs qs) in K, St.
      destruct (removelast_tail _ _ _ K) as [K1 K2].
      assert (St1 : rs <> [] \/ qs <> [] -> (timer (pg s) = true /\ forallb not_save (kinds rs qs) = true) \/ settled (State p (sv s) []) rs qs).
      { intros Nn. assert (Ep : editor p = editor (pg s)) by (destruct r; cbn in Hh; injection Hh as <- <-; reflexivity).
        destruct St as [[St1 St2]|St]; [left; cbn [forallb] in St2; apply andb_prop in St2; now split|]. right.
        unfold settled in *. cbn [pg sv]. rewrite Ep. destruct (rev qs) as [|q l] eqn:Rq; [|exact St].
        assert (qs = []) by (apply (f_equal (@rev _)) in Rq; rewrite rev_involutive in Rq; exact Rq). subst qs.
        cbn [rev] in St. destruct Nn as [Nn|Nn]; [|congruence]. destruct (rev rs) as [|q l] eqn:Rr.
        - apply (f_equal (@rev _)) in Rr. rewrite rev_involutive in Rr. contradiction.
        - cbn [app] in St. exact St. }
      assert (Tp : timer p = timer (pg s)) by (destruct r; cbn in Hh; injection Hh as <- <-; reflexivity).
      assert (Vp : viewport p = seen (viewport (pg s)) (r, k)) by (destruct r; cbn in Hh; injection Hh as <- <-; reflexivity).
      assert (Vw1 : fold_left seen rs (viewport p) = scene (sv s)).
      { rewrite Vp. destruct Vw as [Vw|(X & _)]; [exact Vw|discriminate]. }
      assert (Go : rs <> [] \/ qs <> [] -> ms = [] -> Inv (State p (sv s) ((map did rs ++ map put qs) ++ ms))).
      { intros Nn ->. rewrite app_nil_r. apply (IPuts _ rs qs); cbn [pg sv wire]; [reflexivity|now left|exact K1|rewrite Tp; exact (St1 Nn)|exact Sc]. }
      destruct (list_eq_dec (fun a b : then_ => ltac:(decide equality) : {a = b} + {a <> b}) (kinds rs qs) []) as [Z|Z].
      * assert (Rz : rs = [] /\ qs = []).
        { unfold kinds in Z. apply app_eq_nil in Z. destruct Z as [Z1 Z2]. apply map_eq_nil in Z1. apply map_eq_nil in Z2. now split. }
        destruct Rz as [-> ->]. cbn [map app]. unfold settled in St. cbn [rev app] in St. cbn [fold_left] in Vw1.
        destruct r as [t|]; cbn in Hh.
        -- destruct k; injection Hh as <- <-; cbn [viewport] in Vw1.
           ++ apply (IPuts _ [] []); cbn [pg sv wire viewport timer editor doc_status]; try reflexivity; [now left| |exact Sc].
              destruct St as [St|(S1 & S2 & S3)]; [left; split; [apply St|reflexivity]|]. right. unfold settled, promised. cbn. subst t.
              split; [symmetry; exact S2|]. right. congruence.
           ++ apply (IPuts _ [] []); cbn [pg sv wire viewport timer editor doc_status]; try reflexivity; [now left| |exact Sc].
              destruct St as [St|(S1 & S2 & S3)]; [left; split; [apply St|reflexivity]|]. right. unfold settled, promised. cbn. subst t.
              split; [symmetry; exact S2|]. right. congruence.
           ++ destruct St as [[_ St]|(S1 & S2 & S3)]; [discriminate|].
              apply ISave; cbn [pg sv wire viewport editor]; [now left|congruence|exact Vw1|congruence].
        -- injection Hh as <- <-. apply (IPuts _ [] []); cbn [pg sv wire viewport timer editor doc_status]; try reflexivity; [now left| |exact Sc].
           right. unfold settled, promised. cbn. exact Logic.I.
      * assert (Nn : rs <> [] \/ qs <> []).
        { destruct rs; [|left; discriminate]. destruct qs; [|right; discriminate]. contradiction Z. reflexivity. }
        apply Go; [exact Nn|]. specialize (K2 Z). destruct r as [t|]; cbn in Hh; [|injection Hh as <- <-; reflexivity].
        destruct k; [..|discriminate K2]; injection Hh as <- <-; reflexivity.
    + destruct W as [W|[[W F]|W]]; rewrite W in N |- *; cbn in N; injection N as <-; cbn in Hh; try discriminate; injection Hh as <- <-;
        cbn [remove_nth app]; apply (IPuts _ [] []); cbn [pg sv wire viewport timer editor doc_status]; try reflexivity; try (now left); try congruence.
      * right. unfold settled, promised. cbn. repeat split; assumption.
      * right. unfold settled, promised. cbn. exact Logic.I.
    + destruct W as [[o W]|W]; rewrite W in N |- *; cbn in N; injection N as <-; cbn in Hh; try discriminate; injection Hh as <- <-.
      cbn [remove_nth app]. apply (IPuts _ [] []); cbn [pg sv wire viewport timer editor doc_status]; try reflexivity; [now left| |exact Sc].
      right. unfold settled, promised. cbn. exact Logic.I.
    + rewrite W in N |- *; cbn in N; injection N as <-; cbn in Hh; injection Hh as <- <-.
      cbn [remove_nth app]. apply (IPuts _ [] []); cbn [pg sv wire viewport timer editor doc_status]; try reflexivity; [left; now rewrite S| |congruence].
      right. unfold settled, promised. cbn. split; [now symmetry|]. right. congruence.
Qed.
Lemma run_inv es : forall s s', Inv s -> all_orderly s es -> run blank loads edit s es = Some s' -> Inv s'.
Proof.
  induction es as [|e es IH]; intros s s' I O H; [injection H as <-; exact I|]. cbn in H, O. destruct O as [O1 O2].
  destruct (step blank loads edit s e) as [s1|] eqn:E; [|discriminate]. eapply IH; [eapply step_inv; eassumption|apply O2; reflexivity|exact H].
Qed.

(** When the studio is idle, the viewport shows the scene that a run would trace, and it is the
    scene of the document; if the status is "scene ok" the document is the text of the editor, if it
    is "saved" the file holds it too. *)
Theorem C135_idle_partial : forall empty t0 has_file es s,
  all_orderly (started loads empty t0 has_file) es -> run blank loads edit (started loads empty t0 has_file) es = Some s -> idle s ->
  viewport (pg s) = scene (sv s) /\
  (forall t, viewport (pg s) = Some t -> t = document (sv s)) /\
  (doc_status (pg s) = SceneOk -> editor (pg s) = document (sv s) /\ (blank (editor (pg s)) = true \/ viewport (pg s) = Some (editor (pg s)))) /\
  (doc_status (pg s) = SavedOk -> editor (pg s) = document (sv s) /\ viewport (pg s) = Some (editor (pg s)) /\ file (sv s) = Some (editor (pg s))).
Proof.
  intros empty t0 has_file es s O H [W0 T0]. pose proof (run_inv _ _ _ (started_inv _ _ _) O H) as I.
  destruct I as [[W|W] T|rs qs W Vw K St Sc|[W|[[W _]|W]]|[[o W]|W]|t o W]; try (rewrite W in W0; discriminate).
  rewrite W in W0. destruct rs; [|discriminate]. destruct qs; [|discriminate].
  destruct Vw as [Vw|(_ & (k0 & qs' & X) & _)]; [|discriminate]. cbn in Vw. destruct St as [[St _]|St]; [congruence|].
  unfold settled, promised in St. cbn [rev] in St. rewrite Vw. split; [reflexivity|]. split; [exact Sc|].
  split; intros D; rewrite D in St.
  - destruct St as [St1 St2]. rewrite St1. split; [reflexivity|exact St2].
  - destruct St as (St1 & St2 & St3). rewrite St1. repeat split; assumption.
Qed.
(** The reply to an edit puts the edited text into the editor: nothing that was typed is lost. *)
Theorem C135_nothing_lost_partial : forall empty t0 has_file es s i r s',
  all_orderly (started loads empty t0 has_file) es -> run blank loads edit (started loads empty t0 has_file) es = Some s ->
  nth_error (wire s) i = Some (Patched r) -> step blank loads edit s (Deliver i) = Some s' ->
  editor (pg s') = editor (pg s) \/ exists o, edit (editor (pg s)) o = Some (editor (pg s')).
Proof.
  intros empty t0 has_file es s i r s' O H N D. pose proof (run_inv _ _ _ (started_inv _ _ _) O H) as I.
  destruct r as [t|].
  - right. assert (Wi : forall x, wire s = [x] -> x = Patched (Some t)).
    { intros x W. rewrite W in N. destruct i as [|i]; [cbn in N; congruence|destruct i; discriminate]. }
    destruct I as [[W|W] T|rs qs W Vw K St Sc|[W|[[W _]|W]]|[[o W]|W]|t1 o W Eo]; try (apply Wi in W; discriminate).
    + rewrite W in N. apply nth_error_In in N. apply in_app_or in N. destruct N as [N|N]; apply in_map_iff in N; destruct N as (x & N & _); discriminate.
    + apply Wi in W. injection W as ->. exists o. cbn in D. rewrite N in D. cbn in D. injection D as <-. exact Eo.
  - left. cbn in D. rewrite N in D. cbn in D. injection D as <-. reflexivity.
Qed.
(** ** Any use *)
(** the steps that need no user *)
Definition unattended (e : event) : Prop := match e with Handle _ | Deliver _ | Timer => True | _ => False end.
(** how many of them a message can still cause *)
Definition load_of (m : message) : nat :=
  match m with
  | Get => 4 | Got _ => 3 | Put _ ThenSave => 4 | Did _ ThenSave => 3 | Put _ _ => 2 | Did _ _ => 1
  | Patch _ | Live _ | Save => 2 | Patched _ | Lived | Saved _ => 1
  end.
Definition load_all (ms : list message) : nat := list_sum (map load_of ms).
Definition pending (s : state) : nat := load_all (wire s) + if timer (pg s) then 3 else 0.
Lemma load_app a b : load_all (a ++ b) = load_all a + load_all b.
Proof. unfold load_all. now rewrite map_app, list_sum_app. Qed.
Lemma load_replace : forall l i m r, nth_error l i = Some m -> load_all (replace_nth i r l) + load_of m = load_all l + load_of r.
Proof.
  unfold load_all. induction l as [|x l IH]; intros [|i] m r H; try discriminate; cbn in *.
  - injection H as ->. unfold list_sum. cbn. lia.
  - specialize (IH i m r H). unfold list_sum in *. cbn. lia.
Qed.
Lemma load_remove : forall l i m, nth_error l i = Some m -> load_all (remove_nth i l) + load_of m = load_all l.
Proof.
  unfold load_all. induction l as [|x l IH]; intros [|i] m H; try discriminate; cbn in *.
  - injection H as ->. unfold list_sum. cbn. lia.
  - specialize (IH i m H). unfold list_sum in *. cbn. lia.
Qed.
Lemma step_load s e s' : unattended e -> step blank loads edit s e = Some s' -> pending s' < pending s.
Proof.
  unfold pending. destruct e as [t|b| | | |o|o|i|i]; intros U H; try destruct U; cbn [step] in H.
  - destruct (timer (pg s)) eqn:T; [|discriminate]. injection H as <-. cbn [post wire pg timer]. rewrite load_app. change (load_all [Put (editor (pg s)) ThenRun]) with 2. lia.
  - destruct (nth_error (wire s) i) as [m|] eqn:N; [|discriminate]. destruct (handle loads edit m (sv s)) as [[s1 r]|] eqn:Hm; [|discriminate].
    injection H as <-. cbn [wire pg]. pose proof (load_replace (wire s) i m r N) as L.
    assert (load_of r < load_of m); [|lia]. clear - Hm. destruct m as [|t k|o|o| |t|r0 k|r0| |ok]; cbn in Hm; try discriminate.
    + injection Hm as _ <-. cbn. lia.
    + unfold apply in Hm. destruct (loads t); injection Hm as _ <-; destruct k; cbn; lia.
    + destruct (edit (document (sv s)) o) as [t|]; [unfold apply in Hm; destruct (loads t)|]; injection Hm as _ <-; cbn; lia.
    + destruct (edit (document (sv s)) o) as [t|]; [unfold apply in Hm; destruct (loads t)|]; injection Hm as _ <-; cbn; lia.
    + destruct (file (sv s)); injection Hm as _ <-; cbn; lia.
  - destruct (nth_error (wire s) i) as [m|] eqn:N; [|discriminate]. destruct (receive blank m (pg s)) as [[p ms]|] eqn:Hm; [|discriminate].
    injection H as <-. cbn [wire pg]. rewrite load_app. pose proof (load_remove (wire s) i m N) as L.
    assert (timer p = timer (pg s) /\ load_all ms < load_of m) as [-> ?]; [|lia]. clear - Hm.
    destruct m as [|t k|o|o| |t|r0 k|r0| |ok]; cbn in Hm; try discriminate.
    + injection Hm as <- <-. split; [reflexivity|]. destruct (blank t); cbn; lia.
    + destruct r0 as [t|]; injection Hm as <- <-; (split; [reflexivity|]); destruct k; cbn; lia.
    + destruct r0 as [t|]; injection Hm as <- <-; (split; [reflexivity|]); cbn; lia.
    + injection Hm as <- <-. split; [reflexivity|]. cbn. lia.
    + injection Hm as <- <-. split; [reflexivity|]. cbn. lia.
Qed.
Lemma some_step s : ~ idle s -> exists e s', unattended e /\ step blank loads edit s e = Some s'.
Proof.
  intros N. destruct (wire s) as [|m ms] eqn:W.
  - exists Timer. cbn. destruct (timer (pg s)) eqn:T; [eauto|]. exfalso. apply N. now split.
  - destruct (is_reply m) eqn:R.
    + exists (Deliver 0). cbn. rewrite W. cbn. assert (exists p l, receive blank m (pg s) = Some (p, l)) as (p & l & ->); [|eauto].
      destruct m as [|t k|o|o| |t|r k|r| |ok]; try discriminate; cbn; try destruct r; eauto.
    + exists (Handle 0). cbn. rewrite W. cbn. assert (exists s1 r, handle loads edit m (sv s) = Some (s1, r)) as (s1 & r & ->); [|eauto].
      destruct m as [|t k|o|o| |t|r k|r| |ok]; try discriminate; cbn; unfold apply.
      * eauto.
      * destruct (loads t); eauto.
      * destruct (edit (document (sv s)) o) as [t|]; [destruct (loads t)|]; eauto.
      * destruct (edit (document (sv s)) o) as [t|]; [destruct (loads t)|]; eauto.
      * destruct (file (sv s)); eauto.
Qed.
(** However the studio was used: when the user pauses, requests are handled and replies delivered in
    any order, it comes to rest.  There is a bound on the number of steps, and as long as it is not
    idle one of them can happen: every request is answered. *)
Theorem C135_comes_to_rest : forall s es s', Forall unattended es -> run blank loads edit s es = Some s' ->
  length es + pending s' <= pending s /\
  (~ idle s' -> exists e s'', unattended e /\ step blank loads edit s' e = Some s'').
Proof.
  intros s es s' U H. split; [|apply some_step]. revert s U H. induction es as [|e es IH]; intros s U H; cbn in H; [injection H as <-; cbn; lia|].
  inversion U as [|? ? Ue Us]; subst. destruct (step blank loads edit s e) as [s1|] eqn:S1; [|discriminate].
  pose proof (step_load s e s1 Ue S1). specialize (IH s1 Us H). cbn. lia.
Qed.
(** Without a file nothing is stored and the page never says "saved". *)
Theorem C135_no_file : forall empty t0 es s, run blank loads edit (started loads empty t0 false) es = Some s ->
  file (sv s) = None /\ doc_status (pg s) <> SavedOk.
Proof.
  intros empty t0 es s H. assert (G : forall es s s', file (sv s) = None /\ doc_status (pg s) <> SavedOk /\ ~ In (Saved true) (wire s) ->
     run blank loads edit s es = Some s' -> file (sv s') = None /\ doc_status (pg s') <> SavedOk).
  { clear. induction es as [|e es IH]; intros s s' (F & D & W) H; [cbn in H; injection H as <-; auto|]. cbn in H.
    destruct (step blank loads edit s e) as [s1|] eqn:S1; [|discriminate]. refine (IH s1 s' _ H). clear IH H.
    assert (P : forall (q : state) (m : message), m <> Saved true -> file (sv q) = None /\ doc_status (pg q) <> SavedOk /\ ~ In (Saved true) (wire q) ->
      let q' := post q m in file (sv q') = None /\ doc_status (pg q') <> SavedOk /\ ~ In (Saved true) (wire q')).
    { clear. intros q m Nm (A & B & C). cbn. split; [exact A|]. split; [exact B|]. intros I. apply in_app_or in I. destruct I as [I|[I|[]]]; auto. }
    destruct e as [t|b| | | |o|o|i|i]; cbn [step] in S1.
    - injection S1 as <-. auto.
    - injection S1 as <-. auto.
    - destruct (timer (pg s)); [|discriminate]. injection S1 as <-. apply P; [discriminate|auto].
    - injection S1 as <-. apply P; [discriminate|auto].
    - injection S1 as <-. apply P; [discriminate|auto].
    - injection S1 as <-. apply P; [discriminate|auto].
    - injection S1 as <-. apply P; [discriminate|auto].
    - destruct (nth_error (wire s) i) as [m|] eqn:N; [|discriminate]. destruct (handle loads edit m (sv s)) as [[s2 r]|] eqn:Hm; [|discriminate].
      injection S1 as <-. cbn. assert (file s2 = None /\ r <> Saved true) as [A B].
      { destruct m as [|t k|o|o| |t|r0 k|r0| |ok]; cbn in Hm; try discriminate; unfold apply in Hm.
        - injection Hm as <- <-. split; [exact F|discriminate].
        - destruct (loads t); injection Hm as <- <-; (split; [exact F|discriminate]).
        - destruct (edit (document (sv s)) o) as [t|]; [destruct (loads t)|]; injection Hm as <- <-; (split; [exact F|discriminate]).
        - destruct (edit (document (sv s)) o) as [t|]; [destruct (loads t)|]; injection Hm as <- <-; (split; [exact F|discriminate]).
        - rewrite F in Hm. injection Hm as <- <-. split; [exact F|discriminate]. }
      split; [exact A|]. split; [exact D|]. intros I. apply W. clear - I B. revert i I. induction (wire s) as [|x l IH]; intros [|i] I; cbn in *; auto.
      + destruct I as [I|I]; [contradiction|auto].
      + destruct I as [I|I]; [auto|right; eapply IH; eauto].
    - destruct (nth_error (wire s) i) as [m|] eqn:N; [|discriminate]. destruct (receive blank m (pg s)) as [[p ms]|] eqn:Hm; [|discriminate].
      injection S1 as <-. cbn. split; [exact F|]. assert (K : doc_status p <> SavedOk /\ ~ In (Saved true) ms).
      { assert (Nm : m <> Saved true) by (intros ->; apply W; eapply nth_error_In, N). clear - Hm D Nm.
        destruct m as [|t k|o|o| |t|r0 k|r0| |ok]; cbn in Hm; try discriminate.
        - injection Hm as <- <-. cbn. split; [exact D|]. destruct (blank t); cbn; intuition discriminate.
        - destruct r0 as [t|]; injection Hm as <- <-; cbn; (split; [discriminate|]); destruct k; cbn; intuition discriminate.
        - destruct r0 as [t|]; injection Hm as <- <-; cbn; (split; [discriminate|auto]).
        - injection Hm as <- <-. split; [exact D|auto].
        - injection Hm as <- <-. cbn. destruct ok; [congruence|]. split; [discriminate|auto]. }
      split; [apply K|]. intros I. apply in_app_or in I. destruct I as [I|I]; [|now apply K in I]. apply W. clear - I. revert i I.
      induction (wire s) as [|x l IH]; intros [|i] I; cbn in *; auto. destruct I as [I|I]; [auto|right; eapply IH; eauto]. }
  refine (G es _ s _ H). cbn. split; [reflexivity|]. split; [discriminate|]. intros [I|[]]. discriminate.
Qed.
End Orderly.
Print Assumptions C135_comes_to_rest.
Print Assumptions C135_no_file.
Print Assumptions C135_idle_partial.
Print Assumptions C135_nothing_lost_partial.

(** ** What goes wrong otherwise *)
(** texts are numbers, an edit adds to them, 0 is the blank text, 13 is not a scene *)
Definition blank0 (t : nat) := Nat.eqb t 0.
Definition loads0 (t : nat) := negb (Nat.eqb t 0) && negb (Nat.eqb t 13).
Definition edit0 (t o : nat) : option nat := Some (t + o).
Notation go es := (run blank0 loads0 edit0 (started loads0 0 7 true) es).
(** the page loads, then becomes reactive *)
Definition load : list (event nat nat) := [Handle 0; Deliver 0; Handle 0; Deliver 0; Tick true].

(** An edit, also a drop of the gizmo, within 0.7 s of typing throws the typed text away: it is never sent. *)
Theorem C135_typed_text_refuted : exists es s, go (load ++ [Type_ 50] ++ es) = Some s /\ idle s /\ Forall (fun e => match e with Type_ _ => False | _ => True end) es /\
  doc_status (pg s) = SceneOk /\ editor (pg s) = 8 /\ document (sv s) = 8 /\ viewport (pg s) = Some 8.
Proof.
  exists [Edit 1; Handle 0; Deliver 0; Timer; Handle 0; Deliver 0]. eexists. split; [vm_compute; reflexivity|].
  split; [split; reflexivity|]. split; [repeat constructor|]. repeat split.
Qed.
Print Assumptions C135_typed_text_refuted.
(** If the replies to two edits arrive out of order, the viewport keeps showing another scene than the one that is traced. *)
Theorem C135_replies_refuted : exists s, go (load ++ [Edit 1; Edit 2; Handle 0; Handle 1; Deliver 1; Deliver 0]) = Some s /\ idle s /\
  doc_status (pg s) = SceneOk /\ viewport (pg s) = Some 8 /\ editor (pg s) = 8 /\ scene (sv s) = Some 10.
Proof. eexists. split; [vm_compute; reflexivity|]. split; [split; reflexivity|]. repeat split. Qed.
Print Assumptions C135_replies_refuted.
(** Apply while an edit is under way takes the edit back in the scene but not in the editor, even if everything arrives in order. *)
Theorem C135_apply_refuted : exists s, go (load ++ [Edit 1; ClickApply; Handle 0; Handle 1; Deliver 0; Deliver 0]) = Some s /\ idle s /\
  doc_status (pg s) = SceneOk /\ editor (pg s) = 8 /\ viewport (pg s) = Some 7 /\ scene (sv s) = Some 7.
Proof. eexists. split; [vm_compute; reflexivity|]. split; [split; reflexivity|]. repeat split. Qed.
Print Assumptions C135_apply_refuted.
(** Moves posted while dragging in real time reach the scene but neither the editor nor the viewport. *)
Theorem C135_live_refuted : exists s, go (load ++ [DragLive 3; Handle 0; Deliver 0]) = Some s /\ idle s /\
  doc_status (pg s) = SceneOk /\ editor (pg s) = 7 /\ viewport (pg s) = Some 7 /\ scene (sv s) = Some 10.
Proof. eexists. split; [vm_compute; reflexivity|]. split; [split; reflexivity|]. repeat split. Qed.
Print Assumptions C135_live_refuted.
(** "saved" may be shown for another text than the one in the editor, which was refused. *)
Theorem C135_saved_refuted : exists s, go (load ++ [ClickSave; Type_ 13; Timer; Handle 0; Handle 1; Deliver 0; Deliver 0; Handle 0; Deliver 0]) = Some s /\ idle s /\
  doc_status (pg s) = SavedOk /\ editor (pg s) = 13 /\ file (sv s) = Some 7.
Proof. eexists. split; [vm_compute; reflexivity|]. split; [split; reflexivity|]. repeat split. Qed.
Print Assumptions C135_saved_refuted.

(** an orderly session: typing, an edit, saving *)
Definition session : list (event nat nat) :=
  load ++ [Type_ 20; Type_ 21; Timer; Type_ 22; Handle 0; Deliver 0; Timer; Handle 0; Deliver 0; Edit 5; Handle 0; Deliver 0; ClickSave; Handle 0; Deliver 0; Handle 0; Deliver 0].
Example C135_example : all_orderly blank0 loads0 edit0 (started loads0 0 7 true) session /\
  exists s, go session = Some s /\ idle s /\ doc_status (pg s) = SavedOk /\ editor (pg s) = 27 /\ viewport (pg s) = Some 27 /\ file (sv s) = Some 27.
Proof.
  split; [|eexists; split; [vm_compute; reflexivity|]; split; [split; reflexivity|]; repeat split].
  unfold session, load. cbn [app].
  repeat (cbn [all_orderly]; split; [vm_compute; repeat split|intros s' E; vm_compute in E; injection E as <-]). exact I.
Qed.

Example C135_rest_example : exists s s', go (load ++ [Type_ 50; ClickSave; Edit 1]) = Some s /\ pending s = 9 /\ ~ idle s /\
  run blank0 loads0 edit0 s [Handle 1; Timer; Handle 0; Deliver 0; Handle 2; Deliver 0; Handle 0; Deliver 0; Deliver 0] = Some s' /\ idle s'.
Proof.
  do 2 eexists. split; [vm_compute; reflexivity|]. split; [reflexivity|]. split; [intros [H _]; discriminate|].
  split; [vm_compute; reflexivity|]. split; reflexivity.
Qed.
Example C135_no_file_example : exists s,
  run blank0 loads0 edit0 (started loads0 0 7 false) (load ++ [ClickSave; Handle 0; Deliver 0; Handle 0; Deliver 0]) = Some s /\ idle s /\
  doc_status (pg s) = Error /\ scene (sv s) = Some 7.
Proof. eexists. split; [vm_compute; reflexivity|]. split; [split; reflexivity|]. split; reflexivity. Qed.
