(** Names of nodes in tallies: C137. *)
From Coq Require Import Reals List Bool Arith Lia.
From Verif Require Import Base Vec TransformProofs TracerModel KernelModel TallyModel TallyProps NameModel.
Import ListNotations.

(** the nodes an event speaks of *)
Definition mentions (e : event) (n : nat) : Prop := e_hit e = Some n \/ e_container e = Some n \/ e_adjacent e = Some n.
(** [name] tells the nodes in [nodes] apart *)
Definition told_apart (name : nat -> nat) (nodes : nat -> Prop) : Prop :=
  forall a b, nodes a -> nodes b -> name a = name b -> a = b.

Lemma opt_eqb_name name (nodes : nat -> Prop) o n : told_apart name nodes -> nodes n -> (forall x, o = Some x -> nodes x) ->
  opt_eqb (option_map name o) (name n) = opt_eqb o n.
Proof.
  intros U N H. destruct o as [x|]; [|reflexivity]. cbn. destruct (Nat.eqb_spec x n) as [->|D]; [apply Nat.eqb_refl|].
  apply Nat.eqb_neq. intros E. apply D. apply U; auto.
Qed.
Lemma matches_name name nodes sel n e : told_apart name nodes -> nodes n -> (forall x, mentions e x -> nodes x) ->
  matches sel (name n) (rename name e) = matches sel n e.
Proof.
  intros U N H. unfold matches. cbn [e_kind e_hit e_container e_adjacent rename].
  rewrite !(opt_eqb_name name nodes) by (try assumption; intros x E; apply H; unfold mentions; auto). reflexivity.
Qed.
Lemma named_event_eq name nodes T prev e : told_apart name nodes -> (forall x, mentions e x -> nodes x) ->
  forall ps seen, Forall (fun p : nat * recorder * tstate => nodes (fst (fst p))) ps ->
  named_event name T prev (rename name e) seen ps = tally_event T prev e seen ps.
Proof.
  intros U H. induction ps as [|[[n r] s] ps IH]; intros seen F; [reflexivity|]. inversion F as [|x l Fn F']; subst x l. cbn [fst] in Fn.
  cbn [named_event tally_event]. rewrite (matches_name name nodes) by assumption.
  change (event_normal T n (rename name e)) with (event_normal T n e). change (event_values T n prev (rename name e)) with (event_values T n prev e).
  destruct (matches (rec_event r) n e && facet_ok r (event_normal T n e)); [destruct (mem (rec_name r) seen)|]; rewrite IH by exact F'; reflexivity.
Qed.
Lemma tally_event_nodes T prev e : forall ps seen seen' ps', tally_event T prev e seen ps = (seen', ps') ->
  map (fun p => fst (fst p)) ps' = map (fun p => fst (fst p)) ps.
Proof.
  induction ps as [|[[n r] s] ps IH]; intros seen seen' ps' E; cbn in E; [injection E as <- <-; reflexivity|].
  destruct (if matches (rec_event r) n e && facet_ok r (event_normal T n e) then _ else _) as [seen1 s1].
  destruct (tally_event T prev e seen1 ps) as [seen2 rest] eqn:E2. injection E as <- <-. cbn. f_equal. apply (IH _ _ _ E2).
Qed.
Lemma forall_fst (nodes : nat -> Prop) (ps : list (nat * recorder * tstate)) :
  Forall (fun p => nodes (fst (fst p))) ps <-> Forall nodes (map (fun p => fst (fst p)) ps).
Proof. rewrite Forall_map. reflexivity. Qed.
Lemma named_history_eq name nodes T : told_apart name nodes -> forall h prev seen ps, (forall e x, In e h -> mentions e x -> nodes x) ->
  Forall (fun p : nat * recorder * tstate => nodes (fst (fst p))) ps ->
  named_history name T prev seen (map (rename name) h) ps = tally_history T prev seen h ps /\
  Forall (fun p : nat * recorder * tstate => nodes (fst (fst p))) (tally_history T prev seen h ps).
Proof.
  intros U. induction h as [|e h IH]; intros prev seen ps H F; [split; [reflexivity|exact F]|]. cbn [map named_history tally_history].
  rewrite (named_event_eq name nodes) by (try assumption; intros x; apply H; left; reflexivity).
  destruct (tally_event T prev e seen ps) as [seen' ps'] eqn:E. change (e_ray (rename name e)) with (e_ray e). apply IH.
  - intros e' x He. apply H. right. exact He.
  - apply forall_fst. rewrite (tally_event_nodes _ _ _ _ _ _ _ E). apply forall_fst, F.
Qed.

(** If no two nodes of the scene have the same name, tallying from names gives the result
    of tallying from the nodes themselves (and so that of the engine, C18). *)
Theorem C137_distinct_names_partial : forall name (nodes : nat -> Prop) T rs hs, told_apart name nodes ->
  (forall n r, In (n, r) rs -> nodes n) -> (forall h e x, In h hs -> In e h -> mentions e x -> nodes x) ->
  named_histories name T rs (map (map (rename name)) hs) = tally_histories T rs hs.
Proof.
  intros name nodes T rs hs U Hr Hh. unfold named_histories, tally_histories.
  assert (F : Forall (fun p : nat * recorder * tstate => nodes (fst (fst p))) (map (fun '(n, r) => (n, r, new_state r)) rs)).
  { apply Forall_forall. intros p Hp. apply in_map_iff in Hp. destruct Hp as ([n r] & <- & Hp). cbn. apply (Hr n r Hp). }
  revert F. generalize (map (fun '(n, r) => (n, r, new_state r)) rs) as ps. induction hs as [|h hs IH]; intros ps F; [reflexivity|].
  cbn [map fold_left]. destruct (named_history_eq name nodes T U h None [] ps) as [-> F']; [intros e x; apply (Hh h); left; reflexivity|exact F|].
  apply IH; [intros h' e x Hh'; apply Hh; right; exact Hh'|exact F'].
Qed.
Print Assumptions C137_distinct_names_partial.

(** One ray from the world 0 into the ball 1; the ball 2, elsewhere, has the same name. *)
Definition flying : ray := Ray (V 0 0 0) (V 0 0 1) 500 0 0 (Light 0).
Definition into_ball : list event :=
  [Event GENERATE flying None None None None None;
   Event TRANSMIT flying (Some 1%nat) (Some 0%nat) (Some 1%nat) None (Some (V 0 0 (-1)))].
Definition still : tscene := TScene (fun _ p => p) (fun _ _ => V 0 0 1).
Definition entering (n : nat) : recorder := Recorder n Entering None 0 [].
Definition recorders : list (nat * recorder) := [(1%nat, entering 11); (2%nat, entering 12)].
Definition same_ball (n : nat) : nat := match n with O => 0 | _ => 1 end.
Definition rays_of (l : list (nat * recorder * tstate)) : list (nat * nat) := map (fun '(n, _, s) => (n, s_rays s)) l.
(** Otherwise a ray that enters one of them is counted by the recorders of both, although
    it never reached the other, and the engine counts it once. *)
Theorem C137_same_name_refuted : exists name T rs h, map fst rs = [1; 2]%nat /\ (forall e, In e h -> ~ mentions e 2) /\
  rays_of (named_histories name T rs [map (rename name) h]) = [(1, 1); (2, 1)]%nat /\
  rays_of (tally_histories T rs [h]) = [(1, 1); (2, 0)]%nat.
Proof.
  exists same_ball, still, recorders, into_ball. split; [reflexivity|]. split; [|split; reflexivity].
  intros e [<-|[<-|[]]]; unfold mentions; cbn; intuition discriminate.
Qed.
Print Assumptions C137_same_name_refuted.
Example C137_example : let name n := (n + 7)%nat in
  rays_of (named_histories name still recorders [map (rename name) into_ball]) = [(1, 1); (2, 0)]%nat /\
  told_apart name (fun n => (n < 3)%nat) /\ (forall e x, In e into_ball -> mentions e x -> (x < 3)%nat).
Proof.
  split; [reflexivity|]. split; [intros a b _ _ E; lia|].
  intros e x [<-|[<-|[]]]; unfold mentions; cbn; intros [E|[E|E]]; try discriminate; injection E as <-; lia.
Qed.
