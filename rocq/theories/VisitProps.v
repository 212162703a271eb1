(** C156: pages at the studio do not disturb each other's runs, and a closed page ends its runs. *)
From Coq Require Import List Bool Arith Lia.
From Verif Require Import TallyModel LiveModel LiveProofs LiveProps VisitModel.
Import ListNotations.
Open Scope nat_scope.

Section Visits.
Variables (scene params : Type) (specs : scene -> list (nat * recorder)) (stream : scene -> params -> list (option bdata))
          (rays max_paths : params -> nat) (raises : bool).
Notation incur := (incur scene params specs stream rays max_paths raises).
Notation incidents := (incidents scene params specs stream rays max_paths raises).
Notation happens := (happens scene params specs stream rays max_paths).
Notation react := (react scene params specs stream rays max_paths).
Notation at_page := (at_page scene params specs stream rays max_paths raises).
Notation close := (close scene params).
Notation page := (page scene params).
Notation server := (server scene params).
Notation incident := (incident scene params).
Notation happening := (happening scene params).

(** what concerns page [i]: its own commands and tasks, and the documents of everybody *)
Fixpoint own (i : nat) (xs : list incident) : list happening :=
  match xs with
  | [] => []
  | On j (Apply _) :: r => own i r
  | On j h :: r => if Nat.eqb j i then h :: own i r else own i r
  | Document s :: r => Apply s :: own i r
  | _ :: r => own i r
  end.

Lemma set_nth_same {A} (l : list A) i x y : nth_error l i = Some y -> nth_error (set_nth l i x) i = Some x.
Proof. revert i. induction l as [|a l IH]; intros [|i] H; cbn in *; try discriminate; auto. Qed.
Lemma set_nth_other {A} (l : list A) i j x : i <> j -> nth_error (set_nth l i x) j = nth_error l j.
Proof. revert i j. induction l as [|a l IH]; intros [|i] [|j] H; cbn; try reflexivity; [lia|]. apply IH. lia. Qed.
Lemma set_nth_length {A} (l : list A) i x : length (set_nth l i x) = length l.
Proof. revert i. induction l as [|a l IH]; intros [|i]; cbn; auto. Qed.

(** One incident seen from an open page *)
Lemma step v x i g : nth_error (v_pages v) i = Some g -> g_open g = true -> x <> Close i ->
  exists g', nth_error (v_pages (incur v x)) i = Some g' /\ g_open g' = true /\
    as_socket (v_scene (incur v x)) g' = happens (as_socket (v_scene v) g) (own i [x]).
Proof.
  intros Hg Ho Hx. destruct x as [|j h|s|j].
  - exists g. split; [|split; [exact Ho|reflexivity]]. cbn. rewrite nth_error_app1; [exact Hg|]. apply nth_error_Some. congruence.
  - destruct (Nat.eq_dec j i) as [->|Hne].
    + assert (K : (exists s, h = Apply s) \/ ((forall s, h <> Apply s) /\ incur v (On i h) = Server (v_scene v) (set_nth (v_pages v) i (at_page (v_scene v) g h)) /\ own i [On i h] = [h])).
      { destruct h; cbn; rewrite ?Hg, ?Nat.eqb_refl; [right|right|left; eauto|right]; repeat split; try discriminate. }
      destruct K as [[s ->]|(K1 & -> & ->)].
      * exists g. cbn. auto.
      * exists (at_page (v_scene v) g h). cbn [v_pages v_scene]. split; [eapply set_nth_same; exact Hg|]. unfold at_page. rewrite Ho. split; [reflexivity|].
        unfold as_socket. cbn. destruct h; [| |destruct (K1 s eq_refl)|]; cbn.
        -- destruct (v_scene v); reflexivity.
        -- reflexivity.
        -- destruct (nth_error (g_tasks g) task) as [t|]; [|reflexivity]. destruct (continue_task _ _ _ _ _ _ _ _ t). reflexivity.
    + exists g. assert (K : nth_error (v_pages (incur v (On j h))) i = Some g /\ v_scene (incur v (On j h)) = v_scene v /\ own i [On j h] = []).
      { destruct h; cbn; rewrite ?(proj2 (Nat.eqb_neq j i) Hne); try (split; [|split; reflexivity]); try exact Hg;
          try (destruct (nth_error (v_pages v) j); [cbn; split; [rewrite set_nth_other by assumption; exact Hg|split; reflexivity]|auto]); auto. }
      destruct K as (-> & -> & ->). auto.
  - exists g. cbn. auto.
  - exists g. assert (Hne : j <> i) by congruence. cbn. destruct (nth_error (v_pages v) j); cbn; [rewrite set_nth_other by assumption|]; auto.
Qed.
Lemma own_cons i x xs : own i (x :: xs) = own i [x] ++ own i xs.
Proof. destruct x as [|j [| | |]|s|j]; cbn; try reflexivity; destruct (Nat.eqb j i); reflexivity. Qed.

(** ** An open page sees only its own runs *)
(** What reaches a page, and what its tasks do, is what LiveModel.v gives for the page's own
    commands and the documents that were applied, as if no other page were there. *)
Theorem C156_apart : forall xs v i g, nth_error (v_pages v) i = Some g -> g_open g = true -> ~ In (Close i) xs ->
  exists g', nth_error (v_pages (incidents v xs)) i = Some g' /\ g_open g' = true /\
    as_socket (v_scene (incidents v xs)) g' = happens (as_socket (v_scene v) g) (own i xs).
Proof.
  induction xs as [|x xs IH]; intros v i g Hg Ho Hc; [exists g; auto|].
  destruct (step v x i g Hg Ho ltac:(intros ->; apply Hc; now left)) as (g1 & H1 & O1 & E1).
  destruct (IH (incur v x) i g1 H1 O1 ltac:(intros K; apply Hc; now right)) as (g2 & H2 & O2 & E2).
  exists g2. split; [exact H2|]. split; [exact O2|]. change (incidents v (x :: xs)) with (incidents (incur v x) xs).
  rewrite E2, E1, (own_cons i x xs). unfold LiveModel.happens. now rewrite fold_left_app.
Qed.
(** Runs, stops and closings of other pages make no difference to what reaches this one. *)
Theorem C156_others_do_not_matter : forall v i g xs ys, nth_error (v_pages v) i = Some g -> g_open g = true ->
  ~ In (Close i) xs -> ~ In (Close i) ys -> own i xs = own i ys ->
  forall g1 g2, nth_error (v_pages (incidents v xs)) i = Some g1 -> nth_error (v_pages (incidents v ys)) i = Some g2 ->
  g_got g1 = g_got g2 /\ g_tasks g1 = g_tasks g2.
Proof.
  intros v i g xs ys Hg Ho Hx Hy E g1 g2 H1 H2.
  destruct (C156_apart xs v i g Hg Ho Hx) as (h1 & K1 & _ & E1). destruct (C156_apart ys v i g Hg Ho Hy) as (h2 & K2 & _ & E2).
  rewrite H1 in K1. rewrite H2 in K2. injection K1 as <-. injection K2 as <-. rewrite E in E1. rewrite <- E2 in E1. unfold as_socket in E1. injection E1 as _ _ A B. auto.
Qed.
(** A page that connects again starts with nothing, and what reaches it follows from its own
    commands from then on: no report of a run of the old connection arrives. *)
Theorem C156_connects_again : forall v xs, let i := length (v_pages v) in ~ In (Close i) xs ->
  exists g, nth_error (v_pages (incidents v (Connect :: xs))) i = Some g /\
    g_got g = s_sent (happens (socket0 (v_scene v)) (own i xs)).
Proof.
  intros v xs i Hc.
  assert (H : nth_error (v_pages (incur v Connect)) i = Some page0) by (cbn; rewrite nth_error_app2, Nat.sub_diag by (unfold i; lia); reflexivity).
  destruct (C156_apart xs (incur v Connect) i page0 H eq_refl Hc) as (g & H1 & _ & E). exists g. split; [exact H1|].
  change (g_got g) with (s_sent (as_socket (v_scene (incidents (incur v Connect) xs)) g)). now rewrite E.
Qed.

(** ** A closed page *)
Definition over (t : task scene params) : bool := match t with Ended | Crashed => true | _ => false end.
Definition unfinished (g : page) : nat := length (filter (fun t => negb (over t)) (g_tasks g)).
(** continuations that a task needs at most once the stop flag is set, and bundles *)
Definition left_steps (t : task scene params) : nat := match t with Created _ => 3 | Announced _ _ => 2 | Tracing _ _ _ _ _ _ => 1 | _ => 0 end.
Definition left_work (t : task scene params) : nat := if over t then 0 else 1.
Fixpoint sum_of (f : task scene params -> nat) (l : list (task scene params)) : nat := match l with [] => 0 | t :: r => f t + sum_of f r end.
Lemma sum_set f l j t t' : nth_error l j = Some t -> sum_of f (set_nth l j t') + f t = sum_of f l + f t'.
Proof.
  revert j. induction l as [|x l IH]; intros [|j] H; try discriminate; cbn in *.
  - injection H as ->. lia.
  - specialize (IH j H). lia.
Qed.
Lemma unfinished_sum g : unfinished g = sum_of left_work (g_tasks g).
Proof. unfold unfinished. induction (g_tasks g) as [|t l IH]; cbn; [reflexivity|]. unfold left_work at 1. destruct (over t); cbn in *; lia. Qed.

(** one continuation with the stop flag set *)
Lemma continue_stopped scn t : let t' := fst (continue_task scene params specs stream rays max_paths scn true t) in
  left_work t' + computes t <= left_work t /\ left_steps t' <= left_steps t - 1.
Proof.
  destruct t as [p|p c|p c u [|[d|] rest] tot n| |]; cbn; try lia; destruct scn; cbn; try lia.
Qed.
Definition closed_at (g : page) : Prop := g_open g = false /\ g_stop g = true.
Lemma at_closed scn g h : closed_at g -> let g' := at_page scn g h in
  closed_at g' /\ g_got g' = g_got g /\ length (g_tasks g') = length (g_tasks g) /\
  g_work g' + sum_of left_work (g_tasks g') <= g_work g + sum_of left_work (g_tasks g) /\
  (forall j t', nth_error (g_tasks g') j = Some t' -> exists t, nth_error (g_tasks g) j = Some t /\
     left_steps t' <= left_steps t - (match h with Continue k => if Nat.eqb k j then 1 else 0 | _ => 0 end)).
Proof.
  intros [Ho Hs]. unfold at_page. rewrite Ho.
  assert (Same : closed_at g /\ g_got g = g_got g /\ length (g_tasks g) = length (g_tasks g) /\
     g_work g + sum_of left_work (g_tasks g) <= g_work g + sum_of left_work (g_tasks g)) by (split; [split; assumption|auto]).
  destruct h as [p| |s|k]; try (destruct Same as (A & B & C & D); do 4 (split; [assumption|]); intros j t' Ht; exists t'; split; [exact Ht|lia]).
  destruct (nth_error (g_tasks g) k) as [t|] eqn:Hk.
  2:{ destruct Same as (A & B & C & D); do 4 (split; [assumption|]). intros j t' Ht. exists t'. split; [exact Ht|].
      destruct (Nat.eqb_spec k j) as [->|]; [congruence|lia]. }
  rewrite Hs. pose proof (continue_stopped scn t) as K. destruct (continue_task _ _ _ _ _ _ scn true t) as [t1 out]. cbn in K. destruct K as [K1 K2].
  set (t2 := match out with [] => t1 | _ => if raises then Crashed else t1 end).
  assert (K3 : left_work t2 + computes t <= left_work t /\ left_steps t2 <= left_steps t - 1).
  { unfold t2. destruct out; [auto|]. destruct raises; [|auto]. cbn. lia. }
  cbn [g_open g_stop g_got g_tasks g_work]. split; [split; reflexivity|]. split; [reflexivity|]. split; [apply set_nth_length|].
  pose proof (sum_set left_work (g_tasks g) k t t2 Hk) as S. split; [lia|].
  intros j t' Ht. destruct (Nat.eqb_spec k j) as [<-|Hne].
  - rewrite (set_nth_same _ _ _ _ Hk) in Ht. injection Ht as <-. exists t. split; [exact Hk|]. lia.
  - rewrite set_nth_other in Ht by assumption. exists t'. split; [exact Ht|lia].
Qed.

(** how often task [j] of page [i] is continued *)
Definition times (i j : nat) (xs : list incident) : nat :=
  length (filter (fun x => match x with On a (Continue b) => Nat.eqb a i && Nat.eqb b j | _ => false end) xs).
Lemma closed_for_good xs : forall v i g, nth_error (v_pages v) i = Some g -> closed_at g ->
  exists g', nth_error (v_pages (incidents v xs)) i = Some g' /\ closed_at g' /\ g_got g' = g_got g /\ length (g_tasks g') = length (g_tasks g) /\
    g_work g' + sum_of left_work (g_tasks g') <= g_work g + sum_of left_work (g_tasks g) /\
    (forall j t', nth_error (g_tasks g') j = Some t' -> exists t, nth_error (g_tasks g) j = Some t /\ left_steps t' <= left_steps t - times i j xs).
Proof.
  induction xs as [|x xs IH]; intros v i g Hg Hc.
  { exists g. split; [exact Hg|]. split; [exact Hc|]. split; [reflexivity|]. split; [reflexivity|]. split; [lia|]. intros j t' Ht. exists t'. split; [exact Ht|cbn; lia]. }
  assert (S : exists g1, nth_error (v_pages (incur v x)) i = Some g1 /\ closed_at g1 /\ g_got g1 = g_got g /\ length (g_tasks g1) = length (g_tasks g) /\
     g_work g1 + sum_of left_work (g_tasks g1) <= g_work g + sum_of left_work (g_tasks g) /\
     (forall j t', nth_error (g_tasks g1) j = Some t' -> exists t, nth_error (g_tasks g) j = Some t /\ left_steps t' <= left_steps t - times i j [x])).
  { assert (Same : nth_error (v_pages (incur v x)) i = Some g -> (forall j, times i j [x] = 0) ->
      exists g1, nth_error (v_pages (incur v x)) i = Some g1 /\ closed_at g1 /\ g_got g1 = g_got g /\ length (g_tasks g1) = length (g_tasks g) /\
     g_work g1 + sum_of left_work (g_tasks g1) <= g_work g + sum_of left_work (g_tasks g) /\
     (forall j t', nth_error (g_tasks g1) j = Some t' -> exists t, nth_error (g_tasks g) j = Some t /\ left_steps t' <= left_steps t - times i j [x])).
    { intros H T. exists g. do 2 (split; [assumption|]). do 2 (split; [reflexivity|]). split; [lia|]. intros j t' Ht. exists t'. rewrite T. split; [exact Ht|lia]. }
    destruct x as [|a h|s|a].
    - apply Same; [|reflexivity]. cbn. rewrite nth_error_app1; [exact Hg|]. apply nth_error_Some. congruence.
    - destruct (Nat.eq_dec a i) as [->|Hne].
      + assert (K : (exists s, h = Apply s) \/ incur v (On i h) = Server (v_scene v) (set_nth (v_pages v) i (at_page (v_scene v) g h))).
        { destruct h; cbn; rewrite ?Hg; eauto. }
        destruct K as [[s ->]|K]; [apply Same; [exact Hg|reflexivity]|]. rewrite K.
        destruct (at_closed (v_scene v) g h Hc) as (A & B & C & D & E). exists (at_page (v_scene v) g h). cbn [v_pages].
        split; [eapply set_nth_same; exact Hg|]. do 4 (split; [assumption|]). intros j t' Ht. destruct (E j t' Ht) as (t & T1 & T2). exists t. split; [exact T1|].
        unfold times. cbn. destruct h as [p| |s|b]; cbn; try lia. rewrite Nat.eqb_refl. cbn. destruct (Nat.eqb b j); cbn; lia.
      + apply Same.
        * destruct h; cbn; try exact Hg; destruct (nth_error (v_pages v) a); cbn; rewrite ?set_nth_other by assumption; exact Hg.
        * intros j. unfold times. cbn. destruct h; cbn; try reflexivity. now rewrite (proj2 (Nat.eqb_neq a i) Hne).
    - apply Same; [exact Hg|reflexivity].
    - apply Same; [|reflexivity]. cbn. destruct (Nat.eq_dec a i) as [->|Hne].
      + rewrite Hg. cbn. unfold close. rewrite (proj1 Hc). eapply set_nth_same. exact Hg.
      + destruct (nth_error (v_pages v) a); cbn; rewrite ?set_nth_other by assumption; exact Hg. }
  destruct S as (g1 & H1 & C1 & G1 & L1 & W1 & T1). destruct (IH (incur v x) i g1 H1 C1) as (g2 & H2 & C2 & G2 & L2 & W2 & T2).
  exists g2. split; [exact H2|]. split; [exact C2|]. split; [congruence|]. split; [congruence|]. split; [lia|].
  intros j t' Ht. destruct (T2 j t' Ht) as (t1 & A & B). destruct (T1 j t1 A) as (t & A' & B'). exists t. split; [exact A'|].
  assert (T : times i j (x :: xs) = times i j [x] + times i j xs) by (unfold times; cbn; destruct (match x with On a (Continue b) => _ | _ => _ end); reflexivity). lia.
Qed.

Lemma close_facts g : g_open g = true -> let g' := close g in closed_at g' /\ g_got g' = g_got g /\ length (g_tasks g') = length (g_tasks g) /\
  g_work g' + sum_of left_work (g_tasks g') <= g_work g + sum_of left_work (g_tasks g) /\
  (forall j t', nth_error (g_tasks g') j = Some t' -> left_steps t' <= 3).
Proof.
  intros Ho. unfold close. rewrite Ho. cbn [g_got g_tasks g_work]. split; [split; reflexivity|]. split; [reflexivity|].
  assert (T : forall t : task scene params, left_steps t <= 3) by (intros []; cbn; lia).
  destruct (g_tasks g) as [|t0 l] eqn:El. { cbn. split; [reflexivity|]. split; [lia|]. auto. }
  set (k := length (t0 :: l) - 1). destruct (nth_error (t0 :: l) k) as [t|] eqn:Hk.
  2:{ apply nth_error_None in Hk. unfold k in Hk. cbn in Hk. lia. }
  pose proof (sum_set left_work (t0 :: l) k t Crashed Hk) as S. change (left_work Crashed) with 0 in S.
  assert (W : computes t <= left_work t) by (destruct t as [| |? ? ? [|]| |]; cbn; lia).
  destruct t as [p|p c|p c u rest tot n| |]; (split; [rewrite ?set_nth_length; reflexivity|]); (split; [|auto]); try lia. cbn [computes]. lia.
Qed.

(** Once a page is closed nothing reaches it any more, and over all time to come the engine traces
    at most one further bundle for each run that had not ended. *)
Theorem C156_closed : forall v i g xs, nth_error (v_pages v) i = Some g -> g_open g = true ->
  exists g', nth_error (v_pages (incidents v (Close i :: xs))) i = Some g' /\ g_got g' = g_got g /\ length (g_tasks g') = length (g_tasks g) /\
    g_work g' <= g_work g + unfinished g /\
    (** and each run is over after at most three more turns of the event loop *)
    (forall j t, 3 <= times i j xs -> nth_error (g_tasks g') j = Some t -> t = Ended \/ t = Crashed).
Proof.
  intros v i g xs Hg Ho. destruct (close_facts g Ho) as (A & B & C & D & E).
  assert (H1 : nth_error (v_pages (incur v (Close i))) i = Some (close g)) by (cbn; rewrite Hg; eapply set_nth_same; exact Hg).
  destruct (closed_for_good xs (incur v (Close i)) i (close g) H1 A) as (g' & H2 & C2 & G2 & L2 & W2 & T2).
  exists g'. split; [exact H2|]. split; [congruence|]. split; [congruence|]. rewrite unfinished_sum. split; [lia|].
  intros j t Hj Ht. destruct (T2 j t Ht) as (t0 & K1 & K2). specialize (E j t0 K1). destruct t; cbn in K2; try lia; auto.
Qed.
(** The run that was started last is cancelled at once. *)
Theorem C156_last_run : forall v i g t, nth_error (v_pages v) i = Some g -> g_open g = true ->
  nth_error (g_tasks g) (length (g_tasks g) - 1) = Some t ->
  exists g', nth_error (v_pages (incidents v [Close i])) i = Some g' /\
    (nth_error (g_tasks g') (length (g_tasks g) - 1) = Some Ended \/ nth_error (g_tasks g') (length (g_tasks g) - 1) = Some Crashed).
Proof.
  intros v i g t Hg Ho Ht. exists (close g). cbn. rewrite Hg. cbn. split; [eapply set_nth_same; exact Hg|]. unfold close. rewrite Ho. cbn [g_tasks].
  destruct (g_tasks g) as [|t0 l] eqn:El; [destruct (length (@nil (task scene params)) - 1); discriminate|]. rewrite Ht.
  destruct t; try (right; eapply set_nth_same; exact Ht). left. exact Ht.
Qed.
End Visits.
Print Assumptions C156_apart.
Print Assumptions C156_others_do_not_matter.
Print Assumptions C156_connects_again.
Print Assumptions C156_closed.
Print Assumptions C156_last_run.

(** ** Cases *)
Definition demo_visits := incidents (list (nat * recorder)) nat (fun s => s) demo_stream (fun p => p) (fun _ => 2).
Definition turns (i j n : nat) : list (VisitModel.incident (list (nat * recorder)) nat) := repeat (On i (Continue j)) n.
(** two pages run the scene; the second one is stopped, the first one gets all of its reports *)
Example C156_example_apart :
  let v := demo_visits true (Server (Some scene_A) []) ([Connect; Connect; On 0 (Run 20); On 1 (Run 20)] ++ turns 0 0 3 ++ turns 1 0 3 ++ [On 1 Stop] ++ turns 1 0 1 ++ turns 0 0 3) in
  map (fun g => length (g_got g)) (v_pages v) = [4; 3] /\ map g_work (v_pages v) = [2; 2].
Proof. vm_compute. auto. Qed.
(** a page with two runs is closed: the second is cancelled, the first one traces one more bundle *)
Example C156_example_closed : forall raises,
  let v := demo_visits raises (Server (Some scene_A) []) ([Connect; On 0 (Run 20)] ++ turns 0 0 2 ++ [On 0 (Run 20)] ++ turns 0 1 3) in
  let w := demo_visits raises v ([Close 0] ++ turns 0 0 3 ++ turns 0 1 3) in
  map g_work (v_pages v) = [1] /\ map g_work (v_pages w) = [3] /\ map (fun g => length (g_got g)) (v_pages v) = [3] /\ map (fun g => length (g_got g)) (v_pages w) = [3].
Proof. intros []; vm_compute; auto. Qed.
