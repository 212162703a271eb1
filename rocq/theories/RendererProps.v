(** Drawing histories and cylinders: C65, C88, C89. *)
From Coq Require Import Reals List Bool Arith Lra Lia.
From Verif Require Import Base Vec DistModel MaterialModel MaterialSpec MaterialProofs MaterialProps OpticsModel PhaseModel TransformModel TracerModel TracerProofs TracerProps LscModel LscProps RendererModel.
Import ListNotations.
Open Scope R_scope.

Definition num (p : path) : nat := match p with Rays n | ExitRays n => n end.
Definition is_line (x : path * drawing) : bool := match fst x with Rays _ => true | ExitRays _ => false end.
Lemma path_eqb_true p q : path_eqb p q = true -> p = q.
Proof. destruct p, q; simpl; try discriminate; intros H; apply Nat.eqb_eq in H; now subst. Qed.
Lemma path_eqb_refl p : path_eqb p p = true.
Proof. destruct p; simpl; apply Nat.eqb_refl. Qed.

Lemma delete_fresh p l : (forall q d, In (q, d) l -> (num q < num p)%nat) -> delete p l = l.
Proof.
  induction l as [|[q d] l IH]; intros H; simpl; [reflexivity|].
  assert (Hq : path_eqb q p = false).
  { destruct (path_eqb q p) eqn:E; [|reflexivity]. apply path_eqb_true in E. subst q. specialize (H p d (or_introl eq_refl)). lia. }
  rewrite Hq. simpl. f_equal. apply IH. intros q' d' Hin. apply (H q' d'). now right.
Qed.
Lemma delete_in p l q d : In (q, d) (delete p l) <-> In (q, d) l /\ q <> p.
Proof.
  unfold delete. rewrite filter_In. simpl. split; intros [H1' H2']; split; auto.
  - intros ->. rewrite path_eqb_refl in H2'. discriminate.
  - destruct (path_eqb q p) eqn:E; [apply path_eqb_true in E; contradiction|reflexivity].
Qed.
Lemma delete_all ps l q d : In (q, d) (fold_left (fun l p => delete p l) ps l) <-> In (q, d) l /\ ~ In q ps.
Proof.
  revert l. induction ps as [|p ps IH]; intros l; simpl; [tauto|]. rewrite IH, delete_in. intuition congruence.
Qed.

(** What one call draws, segment by segment. *)
Definition line_of ws sl final (pr : (ray * kind) * (ray * kind)) : drawing :=
  Line (position (fst (fst pr))) (segment_end ws sl final (fst (fst pr)) (fst (snd pr))).
Definition lines (l : list (path * drawing)) : list drawing := map snd (filter is_line l).
Definition baubles_of (l : list (path * drawing)) : list drawing := map snd (filter (fun x => negb (is_line x)) l).

Lemma draw_pairs_spec ws b sl final pairs : forall n objs ids,
  (forall q d, In (q, d) objs -> (num q <= n)%nat) ->
  exists n' delta new, draw_pairs ws b sl final pairs n objs ids = (n', objs ++ delta, ids ++ new) /\ (n <= n')%nat /\
    (forall q d, In (q, d) delta -> (n < num q <= n')%nat) /\
    (forall q, In q new -> (n < num q <= n')%nat) /\
    (forall k d, In (Rays k, d) delta -> In (Rays k) new) /\
    (forall q, In q new -> exists k d, q = Rays k /\ (In (Rays k, d) delta \/ In (ExitRays k, d) delta)) /\
    lines delta = map (line_of ws sl final) pairs /\
    baubles_of delta = map (fun pr => Bauble (position (fst (fst pr)))) (filter (fun pr => b && kind_eqb (snd (fst pr)) TRANSMIT) pairs).
Proof.
  induction pairs as [|[s e] pairs IH]; intros n objs ids Ho; cbn [draw_pairs].
  - exists n, [], []. rewrite !app_nil_r. repeat (split; [auto; try (simpl; tauto)|]). split; reflexivity.
  - set (ln := Line (position (fst s)) (segment_end ws sl final (fst s) (fst e))).
    assert (E1 : set_object (Rays (S n)) ln objs = objs ++ [(Rays (S n), ln)]).
    { unfold set_object. rewrite delete_fresh; [reflexivity|]. intros q d Hq. apply Ho in Hq. simpl. lia. }
    rewrite E1. assert (Ho1 : forall q d, In (q, d) (objs ++ [(Rays (S n), ln)]) -> (num q <= S n)%nat).
    { intros q d Hq. apply in_app_or in Hq. destruct Hq as [Hq|[Hq|[]]]; [apply Ho in Hq; lia|injection Hq as <- _; simpl; lia]. }
    cbn [filter]. change (snd (fst (s, e))) with (snd s). destruct (b && kind_eqb (snd s) TRANSMIT) eqn:Eb.
    + set (bb := Bauble (position (fst s))).
      assert (E2 : set_object (ExitRays (S (S n))) bb (objs ++ [(Rays (S n), ln)]) = (objs ++ [(Rays (S n), ln)]) ++ [(ExitRays (S (S n)), bb)]).
      { unfold set_object. rewrite delete_fresh; [reflexivity|]. intros q d Hq. apply Ho1 in Hq. simpl. lia. }
      rewrite E2.
      destruct (IH (S (S n)) ((objs ++ [(Rays (S n), ln)]) ++ [(ExitRays (S (S n)), bb)]) ((ids ++ [Rays (S n)]) ++ [Rays (S (S n))]))
        as (n' & delta & new & -> & Hn & Hd & Hw & Hr & Hk & Hl & Hb).
      { intros q d Hq. apply in_app_or in Hq. destruct Hq as [Hq|[Hq|[]]]; [apply Ho1 in Hq; lia|injection Hq as <- _; simpl; lia]. }
      exists n', ([(Rays (S n), ln); (ExitRays (S (S n)), bb)] ++ delta), ([Rays (S n); Rays (S (S n))] ++ new).
      split; [rewrite <- !app_assoc; reflexivity|]. split; [lia|]. split; [|split; [|split; [|split; [|split]]]].
      * intros q d [Hq|[Hq|Hq]]; [injection Hq as <- _; simpl; lia|injection Hq as <- _; simpl; lia|apply Hd in Hq; lia].
      * intros q [Hq|[Hq|Hq]]; [subst q; simpl; lia|subst q; simpl; lia|apply Hw in Hq; lia].
      * intros k d [Hq|[Hq|Hq]]; [injection Hq as <- _; now left|discriminate Hq|]. right; right. eapply Hr, Hq.
      * intros q [Hq|[Hq|Hq]].
        -- subst q. exists (S n), ln. split; [reflexivity|left; now left].
        -- subst q. exists (S (S n)), bb. split; [reflexivity|right; right; now left].
        -- destruct (Hk q Hq) as (k & d & -> & Hin). exists k, d. split; [reflexivity|]. destruct Hin; [left|right]; right; right; assumption.
      * unfold lines in *. simpl. f_equal. exact Hl.
      * unfold baubles_of in *. simpl. f_equal. exact Hb.
    + destruct (IH (S n) (objs ++ [(Rays (S n), ln)]) (ids ++ [Rays (S n)]) Ho1) as (n' & delta & new & -> & Hn & Hd & Hw & Hr & Hk & Hl & Hb).
      exists n', ([(Rays (S n), ln)] ++ delta), ([Rays (S n)] ++ new).
      split; [rewrite <- !app_assoc; reflexivity|]. split; [lia|]. split; [|split; [|split; [|split; [|split]]]].
      * intros q d [Hq|Hq]; [injection Hq as <- _; simpl; lia|apply Hd in Hq; lia].
      * intros q [Hq|Hq]; [subst q; simpl; lia|apply Hw in Hq; lia].
      * intros k d [Hq|Hq]; [injection Hq as <- _; now left|]. right. eapply Hr, Hq.
      * intros q [Hq|Hq].
        -- subst q. exists (S n), ln. split; [reflexivity|left; now left].
        -- destruct (Hk q Hq) as (k & d & -> & Hin). exists k, d. split; [reflexivity|]. destruct Hin; [left|right]; right; assumption.
      * unfold lines in *. simpl. f_equal. exact Hl.
      * unfold baubles_of in *. simpl. exact Hb.
Qed.

(** ** C65 *)
(** Numbering is fresh, the queue is short of full, and every line shown belongs to a
    kept history. *)
Record sound (r : renderer) : Prop := Sound {
  so_max : (0 < max_histories r)%nat;
  so_len : (length (ray_histories r) < max_histories r)%nat;
  so_objs : forall q d, In (q, d) (scene_objects r) -> (num q <= added_index r)%nat;
  so_ids : forall ids q, In ids (ray_histories r) -> In q ids -> (num q <= added_index r)%nat;
  so_lines : forall k d, In (Rays k, d) (scene_objects r) -> exists ids, In ids (ray_histories r) /\ In (Rays k) ids;
  so_order : ForallOrdPairs (fun a b => forall p q, In p a -> In q b -> (num p < num q)%nat) (ray_histories r);
  so_shown : forall ids p, In ids (ray_histories r) -> In p ids ->
    exists k d, p = Rays k /\ (In (Rays k, d) (scene_objects r) \/ In (ExitRays k, d) (scene_objects r)) }.

(** The history actually drawn by a call. *)
Definition visible (ws : world_segment) (h : history) : history :=
  match ws with Short => h | Exclude => match before_exit h with Some h' => h' | None => h end end.
Definition final_ray (h : history) : ray := fst (last h (Ray vzero vzero 0 0 0 (Light 0), GENERATE)).
Definition pairs_of (h : history) := combine (removelast h) (tl h).

Lemma last_default {A} (l : list A) a b : l <> [] -> last l a = last l b.
Proof. induction l as [|x l IH]; [contradiction|]. intros _. destruct l as [|y l]; [reflexivity|]. change (last (y :: l) a = last (y :: l) b). apply IH. discriminate. Qed.
Lemma add_history_spec ws b sl h r r' : sound r -> add_history ws b sl h r = Drawn r' ->
  (2 <= length (visible ws h))%nat /\
  exists delta new, (forall k d, In (Rays k, d) delta -> In (Rays k) new) /\
    (forall q, In q new -> exists k d, q = Rays k /\ (In (Rays k, d) delta \/ In (ExitRays k, d) delta)) /\
    (forall q d, In (q, d) delta -> (added_index r < num q)%nat) /\ (forall q, In q new -> (added_index r < num q)%nat) /\
    lines delta = map (line_of ws sl (final_ray (visible ws h))) (pairs_of (visible ws h)) /\
    baubles_of delta = map (fun pr => Bauble (position (fst (fst pr)))) (filter (fun pr => b && kind_eqb (snd (fst pr)) TRANSMIT) (pairs_of (visible ws h))) /\
    max_histories r' = max_histories r /\
    (forall q d, In (q, d) (scene_objects r ++ delta) -> (num q <= added_index r')%nat) /\ (forall q, In q new -> (num q <= added_index r')%nat) /\
    (added_index r <= added_index r')%nat /\
    match ray_histories r ++ [new] with
    | [] => False
    | old :: q =>
        if Nat.eqb (length (old :: q)) (max_histories r) then
          ray_histories r' = q /\ scene_objects r' = fold_left (fun l p => delete p l) old (scene_objects r ++ delta)
        else ray_histories r' = old :: q /\ scene_objects r' = scene_objects r ++ delta
    end.
Proof.
  intros Hs H. assert (Hd : draw_history ws b sl (visible ws h) r = Drawn r').
  { unfold add_history in H. destruct ws; simpl; [|exact H]. destruct (before_exit h); [|exact H]. destruct (Nat.ltb _ _); [discriminate|exact H]. }
  clear H. set (v := visible ws h) in *. clearbody v. unfold draw_history in Hd. destruct v as [|a [|c v]]; try discriminate.
  split; [simpl; lia|]. set (w := a :: c :: v) in *. assert (Hw : w <> []) by discriminate.
  rewrite (last_default w _ (Ray vzero vzero 0 0 0 (Light 0), GENERATE) Hw) in Hd. fold (final_ray w) (pairs_of w) in Hd.
  destruct (draw_pairs_spec ws b sl (final_ray w) (pairs_of w) (added_index r) (scene_objects r) [] (so_objs r Hs))
    as (n' & delta & new & E & Hn & Hde & Hne & Hr & Hk & Hl & Hb).
  rewrite E in Hd. exists delta, new. split; [exact Hr|]. split; [exact Hk|]. split; [intros q d Hq; apply Hde in Hq; lia|]. split; [intros q Hq; apply Hne in Hq; lia|].
  split; [exact Hl|]. split; [exact Hb|]. simpl in Hd. unfold keep in Hd. cbn [max_histories ray_histories scene_objects added_index] in Hd.
  assert (Eq : deque_append (max_histories r) (ray_histories r) new = ray_histories r ++ [new]).
  { unfold deque_append. replace (length (ray_histories r ++ [new]) - max_histories r)%nat with 0%nat; [reflexivity|].
    rewrite app_length. simpl. pose proof (so_len r Hs). lia. }
  rewrite Eq in Hd. assert (Hcase : forall r'', r' = r'' -> max_histories r'' = max_histories r /\ added_index r'' = n' ->
    max_histories r' = max_histories r /\
    (forall q d, In (q, d) (scene_objects r ++ delta) -> (num q <= added_index r')%nat) /\ (forall q, In q new -> (num q <= added_index r')%nat) /\ (added_index r <= added_index r')%nat).
  { intros r'' -> [Em En]. split; [exact Em|]. rewrite En. split; [|split; [intros q Hq; apply Hne in Hq; lia|exact Hn]].
    intros q d Hq. apply in_app_or in Hq. destruct Hq as [Hq|Hq]; [apply (so_objs r Hs) in Hq; lia|apply Hde in Hq; lia]. }
  destruct (ray_histories r ++ [new]) as [|old q] eqn:Er; [destruct (ray_histories r); discriminate|].
  destruct (Nat.eqb (length (old :: q)) (max_histories r)) eqn:El; injection Hd as Hd; symmetry in Hd;
    destruct (Hcase _ Hd) as (A & B & C & D); try (split; reflexivity); subst r'; (split; [exact A|]); (split; [exact B|]); (split; [exact C|]); (split; [exact D|]); split; reflexivity.
Qed.

Lemma sound_call r c : sound r -> sound (after_call r c).
Proof.
  intros Hs. unfold after_call. destruct c as [[[ws b] sl] h]. destruct (add_history ws b sl h r) as [r'| |] eqn:E; [|exact Hs|exact Hs].
  destruct (add_history_spec _ _ _ _ _ _ Hs E) as (_ & delta & new & Hr & Hk & Hde & Hne & _ & _ & Em & Ho & Hi & Hle & Hq).
  destruct (ray_histories r ++ [new]) as [|old q] eqn:Er; [contradiction|].
  assert (Hlen : (length (old :: q) <= max_histories r)%nat) by (rewrite <- Er, app_length; simpl; pose proof (so_len r Hs); lia).
  assert (Hin : forall ids, In ids (old :: q) -> In ids (ray_histories r) \/ ids = new).
  { intros ids Hids. rewrite <- Er in Hids. apply in_app_or in Hids. destruct Hids as [|[|[]]]; auto. }
  assert (Hids : forall ids p, In ids (old :: q) -> In p ids -> (num p <= added_index r')%nat).
  { intros ids p Hids Hp. destruct (Hin ids Hids) as [Hold| ->]; [pose proof (so_ids r Hs ids p Hold Hp); lia|auto]. }
  assert (Hlines : forall k d, In (Rays k, d) (scene_objects r ++ delta) -> exists ids, In ids (old :: q) /\ In (Rays k) ids).
  { intros k d Hd. rewrite <- Er. apply in_app_or in Hd. destruct Hd as [Hd|Hd].
    - destruct (so_lines r Hs k d Hd) as (ids & Ha & Hb). exists ids. split; [apply in_or_app; now left|exact Hb].
    - exists new. split; [apply in_or_app; right; now left|]. eapply Hr, Hd. }
  assert (Hord : ForallOrdPairs (fun a b => forall p q, In p a -> In q b -> (num p < num q)%nat) (old :: q)).
  { rewrite <- Er. assert (Hlt : forall ids p, In ids (ray_histories r) -> In p ids -> forall p', In p' new -> (num p < num p')%nat).
    { intros ids p Ha Hp p' Hp'. pose proof (so_ids r Hs ids p Ha Hp). specialize (Hne p' Hp'). lia. }
    pose proof (so_order r Hs) as Hord. clear - Hord Hlt. induction Hord as [|x l Hx Hl IH]; simpl; [repeat constructor|].
    constructor; [|apply IH; intros ids p Ha; apply (Hlt ids p); now right]. apply Forall_app. split; [exact Hx|].
    constructor; [|constructor]. intros p p' Hp Hp'. exact (Hlt x p (or_introl eq_refl) Hp p' Hp'). }
  assert (Hshow : forall ids p, In ids (old :: q) -> In p ids ->
    exists k d, p = Rays k /\ (In (Rays k, d) (scene_objects r ++ delta) \/ In (ExitRays k, d) (scene_objects r ++ delta))).
  { intros ids p Ha Hp. destruct (Hin ids Ha) as [Hold| ->].
    - destruct (so_shown r Hs ids p Hold Hp) as (k & d & -> & Hd). exists k, d. split; [reflexivity|]. destruct Hd; [left|right]; apply in_or_app; now left.
    - destruct (Hk p Hp) as (k & d & -> & Hd). exists k, d. split; [reflexivity|]. destruct Hd; [left|right]; apply in_or_app; now right. }
  assert (Hold : forall p, In p old -> exists k, p = Rays k).
  { intros p Hp. destruct (Hshow old p (or_introl eq_refl) Hp) as (k & _ & -> & _). eauto. }
  destruct (Nat.eqb (length (old :: q)) (max_histories r)) eqn:El; destruct Hq as [Eq Eo].
  - apply Nat.eqb_eq in El. split.
    + rewrite Em. apply (so_max r Hs).
    + rewrite Em, Eq. simpl in El. lia.
    + rewrite Eo. intros p d Hp. apply delete_all in Hp. apply (Ho p d), Hp.
    + rewrite Eq. intros ids p Hids' Hp. apply (Hids ids p); [now right|exact Hp].
    + rewrite Eo, Eq. intros k d Hp. apply delete_all in Hp. destruct Hp as [Hp Hno]. destruct (Hlines k d Hp) as (ids & [<-|Ha] & Hb); [contradiction|eauto].
    + rewrite Eq. now inversion Hord.
    + rewrite Eq, Eo. intros ids p Ha Hp. destruct (Hshow ids p (or_intror Ha) Hp) as (k & d & -> & Hd). exists k, d. split; [reflexivity|].
      assert (Hno : ~ In (Rays k) old).
      { intros Hc. inversion Hord as [|? ? Hx _]; subst. pose proof (proj1 (Forall_forall _ _) Hx ids Ha _ _ Hc Hp). lia. }
      destruct Hd as [Hd|Hd]; [left|right]; apply delete_all; (split; [exact Hd|]); [exact Hno|].
      intros Hc. destruct (Hold _ Hc). discriminate.
  - apply Nat.eqb_neq in El. split.
    + rewrite Em. apply (so_max r Hs).
    + rewrite Em, Eq. lia.
    + rewrite Eo. exact Ho.
    + rewrite Eq. exact Hids.
    + rewrite Eo, Eq. exact Hlines.
    + rewrite Eq. exact Hord.
    + rewrite Eq, Eo. exact Hshow.
Qed.
Lemma sound_session m cs : (0 < m)%nat -> sound (session m cs) /\ max_histories (session m cs) = m.
Proof.
  intros Hm. unfold session. assert (G : forall r, sound r -> max_histories r = m -> sound (fold_left after_call cs r) /\ max_histories (fold_left after_call cs r) = m).
  { induction cs as [|c cs IH]; intros r Hs E; simpl; [auto|]. apply IH; [now apply sound_call|].
    unfold after_call. destruct c as [[[ws b] sl] h]. destruct (add_history ws b sl h r) as [r'| |] eqn:Ea; [|exact E|exact E].
    destruct (add_history_spec _ _ _ _ _ _ Hs Ea) as (_ & ? & ? & _ & _ & _ & _ & _ & _ & Em & _). congruence. }
  apply G; [|reflexivity]. split; simpl; try tauto; try lia. constructor.
Qed.

(** Fewer than max_histories histories are kept and only their lines are on display. *)
Theorem C65_bounded_partial : forall m cs, (0 < m)%nat ->
  let r := session m cs in
  (length (ray_histories r) < m)%nat /\
  (forall k d, In (Rays k, d) (scene_objects r) -> exists ids, In ids (ray_histories r) /\ In (Rays k) ids).
Proof.
  intros m cs Hm r. destruct (sound_session m cs Hm) as [Hs Em]. fold r in Hs, Em. split; [rewrite <- Em; apply (so_len r Hs)|apply (so_lines r Hs)].
Qed.
Print Assumptions C65_bounded_partial.

(** Nothing belonging to a kept history is missing. *)
Theorem C65_kept_histories_shown : forall m cs ids p, (0 < m)%nat ->
  let r := session m cs in In ids (ray_histories r) -> In p ids ->
  exists d, In (Rays (num p), d) (scene_objects r) \/ In (ExitRays (num p), d) (scene_objects r).
Proof.
  intros m cs ids p Hm r Hi Hp. destruct (sound_session m cs Hm) as [Hs _]. destruct (so_shown _ Hs ids p Hi Hp) as (k & d & -> & Hd). exists d. exact Hd.
Qed.
Print Assumptions C65_kept_histories_shown.

Lemma call_keeps_baubles r c k d : sound r -> In (ExitRays k, d) (scene_objects r) -> In (ExitRays k, d) (scene_objects (after_call r c)).
Proof.
  intros Hs H. unfold after_call. destruct c as [[[ws b] sl] h]. destruct (add_history ws b sl h r) as [r'| |] eqn:E; [|exact H|exact H].
  destruct (add_history_spec _ _ _ _ _ _ Hs E) as (_ & delta & new & _ & Hk & _ & _ & _ & _ & _ & _ & _ & _ & Hq).
  destruct (ray_histories r ++ [new]) as [|old q] eqn:Er; [contradiction|].
  assert (Ho : forall p, In p old -> exists j, p = Rays j).
  { intros p Hp. destruct (ray_histories r) as [|x l] eqn:El; simpl in Er; injection Er as Ea Eb; subst old.
    - destruct (Hk p Hp) as (j & _ & -> & _). eauto.
    - assert (Hx : In x (ray_histories r)) by (rewrite El; now left). destruct (so_shown r Hs x p Hx Hp) as (j & _ & -> & _). eauto. }
  assert (Hin : In (ExitRays k, d) (scene_objects r ++ delta)) by (apply in_or_app; now left).
  destruct (Nat.eqb _ _); destruct Hq as [_ ->]; [|exact Hin]. apply delete_all. split; [exact Hin|].
  intros Hc. destruct (Ho _ Hc). discriminate.
Qed.
(** A bauble is never removed by later calls. *)
Theorem C65_baubles_stay : forall m cs cs' k d, (0 < m)%nat ->
  In (ExitRays k, d) (scene_objects (session m cs)) -> In (ExitRays k, d) (scene_objects (session m (cs ++ cs'))).
Proof.
  intros m cs cs' k d Hm. unfold session. rewrite fold_left_app. fold (session m cs). generalize (proj1 (sound_session m cs Hm)).
  generalize (session m cs). induction cs' as [|c cs' IH]; intros r Hs H; simpl; [exact H|]. apply IH; [now apply sound_call|].
  now apply call_keeps_baubles.
Qed.
Print Assumptions C65_baubles_stay.

Definition pt (x : R) : ray := at_point (V x 0 0) (V 1 0 0) (Light 0).
(** into the plate, out of it, to the world *)
Definition through : history := [(pt 0, GENERATE); (pt 1, TRANSMIT); (pt 2, TRANSMIT); (pt 3, EXIT)].
Definition through_call : call := (Exclude, true, 1, through).
Lemma through_session : session 1 [through_call] =
  Renderer 1 3 [] [(ExitRays 3, Bauble (V 1 0 0))] /\
  session 2 [through_call] = Renderer 2 3 [[Rays 1; Rays 2; Rays 3]]
    [(Rays 1, Line (V 0 0 0) (V 1 0 0)); (Rays 2, Line (V 1 0 0) (V 2 0 0)); (ExitRays 3, Bauble (V 1 0 0))].
Proof. split; reflexivity. Qed.

(** The bauble of an evicted history remains although no history is kept. *)
Theorem C65_removed_refuted : exists m cs k d, (0 < m)%nat /\
  In (ExitRays k, d) (scene_objects (session m cs)) /\
  ~ exists ids, In ids (ray_histories (session m cs)) /\ (In (Rays k) ids \/ In (ExitRays k) ids).
Proof.
  exists 1%nat, [through_call], 3%nat, (Bauble (V 1 0 0)). rewrite (proj1 through_session). split; [lia|]. split; [now left|]. intros (ids & [] & _).
Qed.
Print Assumptions C65_removed_refuted.
Example C65_example : ray_histories (session 2 [through_call]) = [[Rays 1; Rays 2; Rays 3]] /\
  ray_histories (session 2 [through_call; through_call]) = [[Rays 4; Rays 5; Rays 6]].
Proof. split; reflexivity. Qed.

(** ** C88 Cylinders *)
(** Meshcat's cylinder lies along y, pvtrace's along z; drawn with the changed
    transformation it covers the same points. *)
Theorem C88_cylinder_drawn_in_place : forall g length radius q,
  (exists p, - (length / 2) <= vy p <= length / 2 /\ vx p ^ 2 + vz p ^ 2 <= radius ^ 2 /\ to_point (cylinder_transform g) p = q) <->
  (exists p, - (length / 2) <= vz p <= length / 2 /\ vx p ^ 2 + vy p ^ 2 <= radius ^ 2 /\ to_point g p = q).
Proof.
  assert (E : forall g p, to_point (cylinder_transform g) p = to_point g (swap12 p)).
  { intros [[[a b c] [d e f] [i j k]] [x y z]] [u v w]. unfold to_point, cylinder_transform, mvec, vadd, swap12, dot; simpl. f_equal; ring. }
  intros g L r q. split.
  - intros (p & Hy & Hr & <-). exists (swap12 p). rewrite E. unfold swap12; simpl in *. auto.
  - intros (p & Hz & Hr & <-). exists (swap12 p). rewrite E. destruct p as [x y z]; unfold swap12; simpl in *. auto.
Qed.
Print Assumptions C88_cylinder_drawn_in_place.
Example C88_example : to_point (cylinder_transform (Rigid mid (V 5 0 0))) (V 0 2 0) = V 5 0 2.
Proof. unfold to_point, cylinder_transform, mvec, vadd, swap12, dot, mid; simpl. f_equal; ring. Qed.

(** ** C89 The drawn path *)
Fixpoint consecutive (h : history) : list drawing :=
  match h with
  | a :: (b :: _) as t => Line (position (fst a)) (position (fst b)) :: consecutive t
  | _ => []
  end.

Lemma Reqb_eq a b : Reqb a b = true -> a = b.
Proof. unfold Reqb. destruct (Req_EM_T a b); [auto|discriminate]. Qed.
Lemma Reqb_self a : Reqb a a = true.
Proof. unfold Reqb. destruct (Req_EM_T a a); [reflexivity|contradiction]. Qed.
Lemma vec_eqb_eq a b : vec_eqb a b = true -> a = b.
Proof. destruct a, b. unfold vec_eqb. simpl. rewrite !andb_true_iff. intros [[H1' H2'] H3']. apply Reqb_eq in H1', H2', H3'. now subst. Qed.
Lemma ray_eqb_eq a b : ray_eqb a b = true -> a = b.
Proof.
  destruct a as [p d w t u s], b as [p' d' w' t' u' s']. unfold ray_eqb. cbn [position direction wavelength travelled duration source].
  rewrite !andb_true_iff. intros [[[[[E1 E2] E3] E4] E5] E6]. apply vec_eqb_eq in E1, E2. apply Reqb_eq in E3, E4, E5.
  assert (s = s') as ->.
  { destruct s, s'; simpl in E6; try discriminate; [apply Nat.eqb_eq in E6; now subst|]. apply andb_prop in E6. destruct E6 as [A B]. apply Nat.eqb_eq in A, B. now subst. }
  now subst.
Qed.
Lemma ray_eqb_refl a : ray_eqb a a = true.
Proof.
  unfold ray_eqb, vec_eqb. rewrite !Reqb_self. destruct (source a); simpl; rewrite !Nat.eqb_refl; reflexivity.
Qed.

Lemma deletes_app old : forall objs delta, (forall p q d, In p old -> In (q, d) delta -> (num p < num q)%nat) ->
  fold_left (fun l p => delete p l) old (objs ++ delta) = fold_left (fun l p => delete p l) old objs ++ delta.
Proof.
  induction old as [|p old IH]; intros objs delta H; simpl; [reflexivity|].
  assert (E : delete p (objs ++ delta) = delete p objs ++ delta).
  { unfold delete at 1. rewrite filter_app. fold (delete p objs). f_equal.
    assert (Hd : forall q d, In (q, d) delta -> path_eqb q p = false).
    { intros q d Hq. destruct (path_eqb q p) eqn:Ee; [|reflexivity]. apply path_eqb_true in Ee. subst q.
      specialize (H p p d (or_introl eq_refl) Hq). lia. }
    clear - Hd. induction delta as [|[q d] l IH]; simpl; [reflexivity|]. rewrite (Hd q d (or_introl eq_refl)). simpl. f_equal.
    apply IH. intros q' d' Hq'. apply (Hd q' d'). now right. }
  rewrite E. apply IH. intros p' q d Hp Hq. apply (H p' q d); [now right|exact Hq].
Qed.
Lemma lines_app a b : lines (a ++ b) = lines a ++ lines b.
Proof. unfold lines. now rewrite filter_app, map_app. Qed.

(** With room for one history the newest one is on display, and its lines are those of
    its consecutive pairs. *)
Lemma newest_lines m cs ws b sl h r' : (2 <= m)%nat -> add_history ws b sl h (session m cs) = Drawn r' ->
  (2 <= length (visible ws h))%nat /\
  exists older, lines (scene_objects r') = older ++ map (line_of ws sl (final_ray (visible ws h))) (pairs_of (visible ws h)).
Proof.
  intros Hm E. assert (Hm' : (0 < m)%nat) by lia. destruct (sound_session m cs Hm') as [Hs Em]. set (r := session m cs) in *. clearbody r.
  destruct (add_history_spec _ _ _ _ _ _ Hs E) as (Hl & delta & new & _ & _ & Hde & _ & Hli & _ & _ & _ & _ & _ & Hq). split; [exact Hl|].
  destruct (ray_histories r ++ [new]) as [|old q] eqn:Er; [contradiction|].
  destruct (Nat.eqb (length (old :: q)) (max_histories r)) eqn:El; destruct Hq as [_ ->].
  - apply Nat.eqb_eq in El. rewrite deletes_app.
    + eexists. rewrite lines_app, Hli. reflexivity.
    + intros p q' d Hp Hq'. apply Hde in Hq'. assert (Ho : In old (ray_histories r)).
      { destruct (ray_histories r) as [|x l]; simpl in Er; injection Er as Ea Eb; [subst q; simpl in El; lia|subst; now left]. }
      pose proof (so_ids r Hs old p Ho Hp). lia.
  - eexists. rewrite lines_app, Hli. reflexivity.
Qed.

Lemma consecutive_pairs ws sl final h : (forall a b, In (a, b) (pairs_of h) -> segment_end ws sl final (fst a) (fst b) = position (fst b)) ->
  map (line_of ws sl final) (pairs_of h) = consecutive h.
Proof.
  unfold pairs_of. induction h as [|a [|b h] IH]; intros H; try reflexivity.
  change (removelast (a :: b :: h)) with (a :: removelast (b :: h)) in *. cbn [tl combine map consecutive] in *. f_equal.
  - unfold line_of. cbn [fst snd]. f_equal. apply H. now left.
  - apply IH. intros x y Hxy. apply H. right. exact Hxy.
Qed.

(** With world_segment='exclude' the lines drawn are the photon's flights up to the
    world. *)
Theorem C89_path_without_world : forall m cs b sl h r', (2 <= m)%nat ->
  add_history Exclude b sl h (session m cs) = Drawn r' ->
  exists older, lines (scene_objects r') = older ++ consecutive (visible Exclude h).
Proof.
  intros m cs b sl h r' Hm E. destruct (newest_lines _ _ _ _ _ _ _ Hm E) as (_ & older & ->). exists older. f_equal.
  apply consecutive_pairs. reflexivity.
Qed.
Print Assumptions C89_path_without_world.

Lemma pairs_app pre a z : pairs_of (pre ++ [a; z]) = pairs_of (pre ++ [a]) ++ [(a, z)].
Proof.
  unfold pairs_of. induction pre as [|x pre IH]; [reflexivity|].
  destruct pre as [|y pre]; [reflexivity|]. change ((x :: y :: pre) ++ [a; z]) with (x :: (y :: pre) ++ [a; z]).
  change ((x :: y :: pre) ++ [a]) with (x :: (y :: pre) ++ [a]).
  assert (R : forall l, l <> [] -> removelast (x :: l) = x :: removelast l) by (intros l Hl; destruct l; [contradiction|reflexivity]).
  rewrite !R by discriminate. simpl in IH. simpl. f_equal. exact IH.
Qed.
Lemma pairs_snd h a b : In (a, b) (pairs_of h) -> exists pre, In b (tl h) /\ In a h /\ pre = tl h.
Proof.
  unfold pairs_of. intros H. exists (tl h). split; [eapply in_combine_r, H|]. split; [|reflexivity].
  apply in_combine_l in H. revert H. clear. induction h as [|x [|y h] IH]; simpl; auto. intros [<-|H]; [now left|right; apply IH, H].
Qed.

(** With world_segment='short' the same holds for a photon that leaves the scene, except
    that the flight to the world is drawn with the requested length.  The earlier rays
    must differ from the final one. *)
Theorem C89_path_with_short_end_partial : forall m cs b sl pre a z r', (2 <= m)%nat ->
  (forall e, In e (pre ++ [a]) -> fst e <> fst z) ->
  add_history Short b sl (pre ++ [a; z]) (session m cs) = Drawn r' ->
  exists older, lines (scene_objects r') = older ++ consecutive (pre ++ [a]) ++
    [Line (position (fst a)) (vadd (position (fst a)) (vscale sl (direction (fst a))))].
Proof.
  intros m cs b sl pre a z r' Hm Hne E. destruct (newest_lines _ _ _ _ _ _ _ Hm E) as (_ & older & ->). exists older. f_equal. cbn [visible].
  assert (Ef : final_ray (pre ++ [a; z]) = fst z).
  { unfold final_ray. replace (pre ++ [a; z]) with ((pre ++ [a]) ++ [z]) by (rewrite <- app_assoc; reflexivity). now rewrite last_last. }
  rewrite Ef, pairs_app, map_app. f_equal.
  - apply consecutive_pairs. intros x y Hxy. simpl. destruct (ray_eqb (fst y) (fst z)) eqn:Ez; [|reflexivity].
    apply ray_eqb_eq in Ez. exfalso. destruct (pairs_snd _ _ _ Hxy) as (_ & Hy & _). apply (Hne y); [|exact Ez].
    destruct (pre ++ [a]); [destruct Hy|now right].
  - simpl. unfold line_of. cbn [fst snd segment_end]. now rewrite ray_eqb_refl.
Qed.
Print Assumptions C89_path_with_short_end_partial.

(** For a photon that the tracer follows out of the scene that condition holds: each event is
    further along the path than the one before, and the world is met at a distance. *)
Lemma norm_zero_vec v : norm v = 0 -> v = vzero.
Proof.
  intros H. pose proof (norm_sq v) as E. rewrite H in E. destruct v as [x y z]. unfold dot in E. cbn [vx vy vz] in E.
  assert (x = 0) by nra. assert (y = 0) by nra. assert (z = 0) by nra. now subst.
Qed.
Lemma next_hit_away S tree r h c a D : hits S = scene_intersections tree -> next_hit S r = HitOk h c a D -> 0 < D.
Proof.
  intros Hh. unfold next_hit. rewrite Hh. set (l := filter _ _).
  assert (A : forall i, In i l -> 0 < h_distance i /\ 0 < distance_between (position r) (h_point i)).
  { intros i Hi. unfold l in Hi. apply filter_In in Hi. destruct Hi as [Hi Hc]. pose proof (scene_intersections_nonneg _ _ _ _ Hi) as H0. assert (He : 0 < EPS_ZERO) by (unfold EPS_ZERO; apply Rdiv_lt_0_compat; [lra|apply pow_lt; lra]).
    split.
    - apply negb_true_iff in Hc. unfold close_to_zero in Hc. apply Rltb_false in Hc. rewrite Rabs_right in Hc by lra. lra.
    - unfold scene_intersections in Hi. apply (Permutation.Permutation_in _ (Permutation.Permutation_sym (sort_by_perm _ _))) in Hi. apply filter_In in Hi. destruct Hi as [_ Ha]. unfold intersection_point_is_ahead in Ha. apply Rltb_true in Ha.
      unfold distance_between. pose proof (norm_nonneg (vsub (position r) (h_point i))) as Hn. destruct (Rle_lt_or_eq_dec _ _ Hn) as [|E]; [assumption|exfalso].
      symmetry in E. apply norm_zero_vec in E. assert (h_point i = position r) as Ep.
      { apply (f_equal (fun v => vadd (h_point i) v)) in E. transitivity (vadd (h_point i) vzero); [apply vec_eq; simpl; ring|]. rewrite <- E. apply vec_eq; simpl; ring. }
      rewrite Ep in Ha. lra. }
  clearbody l. destruct l as [|i [|j l]]; [discriminate| |].
  - intros [= _ _ _ <-]. apply A. now left.
  - destruct (find_container _); [|discriminate]. intros [= _ _ _ <-]. apply A. now left.
Qed.
Theorem C89_escaping_photon_short_partial : forall tree S fuel ms mp md us r0 h m cs b sl r',
  hits S = scene_intersections tree -> wf_scene S -> (forall i, wf_draws (us i)) -> is_unit (direction r0) ->
  follow fuel S ms mp md us r0 = Some h -> last_kind h = EXIT -> (2 <= m)%nat ->
  add_history Short b sl h (session m cs) = Drawn r' ->
  exists pre a z older, h = pre ++ [a; z] /\
    lines (scene_objects r') = older ++ consecutive (pre ++ [a]) ++ [Line (position (fst a)) (vadd (position (fst a)) (vscale sl (direction (fst a))))].
Proof.
  intros tree S fuel ms mp md us r0 h m cs b sl r' Hh W Hu Hd Hf Hl Hm E. unfold follow in Hf.
  destruct (step_forward fuel S ms mp md us r0) as [evs [| |]] eqn:Es; try discriminate. injection Hf as <-.
  assert (E2 : exists pe ea ez, evs = pe ++ [ea; ez]).
  { assert (Hg : exists l, evs = Event GENERATE r0 None None None None None :: l) by (unfold step_forward in Es; destruct (loop _ _ _ _ _ _ _ _); injection Es as <- _; eauto).
    destruct Hg as [l ->]. destruct l as [|x l'] using rev_ind; [discriminate|]. clear IHl'. destruct l' as [|y l''] using rev_ind.
    - exists []. do 2 eexists. reflexivity.
    - clear IHl''. exists (Event GENERATE r0 None None None None None :: l''), y, x. simpl. now rewrite <- app_assoc. }
  destruct E2 as (pe & ea & ez & ->).
  assert (Hz : e_kind ez = EXIT).
  { unfold last_kind in Hl. rewrite map_map in Hl. cbn [snd] in Hl. rewrite map_app in Hl. cbn [map] in Hl.
    replace (map (fun x => e_kind x) pe ++ [e_kind ea; e_kind ez]) with ((map (fun x => e_kind x) pe ++ [e_kind ea]) ++ [e_kind ez]) in Hl by (now rewrite <- app_assoc).
    now rewrite last_last in Hl. }
  assert (Es' : fst (step_forward fuel S ms mp md us r0) = pe ++ ea :: ez :: []) by now rewrite Es.
  assert (Mono : forall l1 x l2 y l3, pe ++ [ea; ez] = l1 ++ x :: l2 ++ y :: l3 -> travelled (e_ray x) <= travelled (e_ray y)).
  { intros l1 x l2. revert l1 x. induction l2 as [|w l2 IH]; intros l1 x y l3 Eq.
    - pose proof (C03_bookkeeping fuel S ms mp md us r0 l1 x y l3 W Hu Hd ltac:(rewrite Es; exact Eq)) as (Ht & _).
      pose proof (norm_nonneg (vsub (position (e_ray x)) (position (e_ray y)))). unfold distance_between in Ht. lra.
    - pose proof (C03_bookkeeping fuel S ms mp md us r0 l1 x w (l2 ++ y :: l3) W Hu Hd ltac:(rewrite Es; exact Eq)) as (Ht & _).
      pose proof (norm_nonneg (vsub (position (e_ray x)) (position (e_ray w)))). unfold distance_between in Ht.
      assert (Eq' : pe ++ [ea; ez] = (l1 ++ [x]) ++ w :: l2 ++ y :: l3) by (rewrite <- app_assoc; exact Eq). specialize (IH _ _ _ _ Eq'). lra. }
  assert (Far : travelled (e_ray ea) < travelled (e_ray ez)).
  { destruct (C03_flights_follow_next_hit fuel S ms mp md us r0 pe ea ez [] W Hu Hd Es' ltac:(rewrite Hz; reflexivity)) as (h & c & a & D & Hn & _ & Hk). cbv zeta in Hk. rewrite Hz in Hk.
    destruct Hk as (Hk & _). pose proof (C03_bookkeeping fuel S ms mp md us r0 pe ea ez [] W Hu Hd Es') as (Ht & _). rewrite Hk in Ht.
    pose proof (next_hit_away S tree _ _ _ _ _ Hh Hn). lra. }
  assert (Em : map (fun e => (e_ray e, e_kind e)) (pe ++ [ea; ez]) = map (fun e => (e_ray e, e_kind e)) pe ++ [(e_ray ea, e_kind ea); (e_ray ez, e_kind ez)]) by (now rewrite map_app).
  rewrite Em in *.
  assert (Hne : forall e, In e (map (fun e => (e_ray e, e_kind e)) pe ++ [(e_ray ea, e_kind ea)]) -> fst e <> fst (e_ray ez, e_kind ez)).
  { intros e He. apply in_app_or in He. destruct He as [He|[<-|[]]].
    + apply in_map_iff in He. destruct He as (x & <- & Hx). cbn [fst]. intros Eq. apply in_split in Hx. destruct Hx as (l1 & l2 & ->).
      assert (travelled (e_ray x) <= travelled (e_ray ea)); [|rewrite Eq in *; lra].
      apply (Mono l1 x l2 ea [ez]). now rewrite <- app_assoc.
    + cbn [fst]. intros Eq. rewrite Eq in Far. lra. }
  destruct (C89_path_with_short_end_partial m cs b sl _ _ _ r' Hm Hne E) as [older Ho].
  do 4 eexists. split; [reflexivity|exact Ho].
Qed.
Print Assumptions C89_escaping_photon_short_partial.

(** A photon absorbed in the cloudy ball of C77, as the tracer returns it. *)
Definition absorbed_at : ray := propagate start (- ln (1 - u_depth mid_draws) / rsum [1]) 1.
Lemma cloudy_history : follow 5 cloudy 7 None KT (fun _ => mid_draws) start =
  Some [(start, GENERATE); (absorbed_at, ABSORB); (nonradiative_absorb absorber mid_draws absorbed_at, NONRADIATIVE)].
Proof.
  destruct C77_example as (Hn & _ & _). unfold follow, step_forward. cbn [loop]. unfold pass. rewrite Hn.
  cbn [Nat.ltb Nat.leb orb over_path Nat.eqb root cloudy axis_scene_of].
  change (total_attenuation (comps cloudy 1) (wavelength start)) with (Some (rsum [1])). assert (Hr : rsum [1] = 1) by (simpl; lra).
  unfold penetration_depth, isclose_zero, alpha_tol.
  assert (Hz : Rleb (Rabs (rsum [1])) (/ 10 ^ 8) = false) by (rewrite Hr, Rabs_R1; apply Rleb_false; lra). rewrite Hz.
  assert (Hd : Rltb (- ln (1 - u_depth mid_draws) / rsum [1]) 1 = true).
  { apply Rltb_true. rewrite Hr. replace (1 - u_depth mid_draws) with (/ 2) by (simpl; lra). rewrite ln_Rinv by lra.
    assert (ln 2 < 1) by (rewrite <- (ln_exp 1); apply ln_increasing; [lra|]; pose proof (exp_ineq1 1 ltac:(lra)); lra). lra. }
  cbv zeta. rewrite Hd. unfold absorb_step. cbv zeta.
  change (coefficients (comps cloudy 1) _) with (Some [1]). cbv iota beta.
  assert (Hs : select_component [1] (u_comp mid_draws) = Some 0%nat).
  { apply C33_component_choice_interval; [repeat constructor; lra|lra|simpl; lra|]. split; [simpl; lia|]. unfold psum, rsum; simpl. lra. }
  rewrite Hs. cbn [nth_error comps cloudy axis_scene_of]. reflexivity.
Qed.
Lemma lost_in_place : nonradiative_absorb absorber mid_draws absorbed_at = absorbed_at.
Proof.
  unfold nonradiative_absorb, absorbed_at, propagate. cbn [position direction wavelength travelled duration source]. f_equal.
  unfold delay. cbn [c_tau_nr absorber]. unfold Reqb. destruct (Req_EM_T 0 0); [lra|contradiction].
Qed.

(** The path of an absorbed photon is drawn past the place where it was absorbed. *)
Theorem C89_path_with_short_end_refuted : exists h sl r', traced h /\ last_kind h = NONRADIATIVE /\
  (forall e, In e h -> vx (position (fst e)) < 1) /\
  add_history Short false sl h (session 2 []) = Drawn r' /\
  exists k p q, In (Rays k, Line p q) (scene_objects r') /\ 1 < vx q /\ lines (scene_objects r') <> consecutive h.
Proof.
  eexists. exists 2. eexists. split; [do 7 eexists; exact cloudy_history|]. rewrite lost_in_place. split; [reflexivity|].
  assert (Hx : 0 < vx (position absorbed_at) < 1).
  { unfold absorbed_at, propagate. cbn [position vadd vscale vx start direction]. replace (rsum [1]) with 1 by (simpl; lra).
    replace (1 - u_depth mid_draws) with (/ 2) by (simpl; lra). rewrite ln_Rinv by lra. pose proof ln_lt_2.
    assert (ln 2 < 1) by (rewrite <- (ln_exp 1); apply ln_increasing; [lra|]; pose proof (exp_ineq1 1 ltac:(lra)); lra). lra. }
  split.
  { intros e [<-|[<-|[<-|[]]]]; cbn [fst]; try lra. unfold start; simpl; lra. }
  set (b := absorbed_at) in *.
  assert (E : add_history Short false 2 [(start, GENERATE); (b, ABSORB); (b, NONRADIATIVE)] (session 2 []) =
    Drawn (Renderer 2 2 [[Rays 1; Rays 2]] [(Rays 1, Line (position start) (vadd (position start) (vscale 2 (direction start))));
                                          (Rays 2, Line (position b) (vadd (position b) (vscale 2 (direction b))))])).
  { unfold add_history, draw_history. cbn [last hd fst removelast tl combine draw_pairs snd andb]. unfold segment_end. cbn [fst].
    rewrite ray_eqb_refl. reflexivity. }
  split; [exact E|]. exists 1%nat, (position start), (vadd (position start) (vscale 2 (direction start))). split; [now left|]. split.
  - unfold start; simpl; lra.
  - intros Hc. apply (f_equal (fun l => match l with Line _ q :: _ => vx q | _ => 0 end)) in Hc. clear - Hc Hx.
    cbn [scene_objects lines filter is_line fst map snd consecutive] in Hc. unfold start in Hc at 1 2. cbn [position direction vadd vscale vx] in Hc. lra.
Qed.
Print Assumptions C89_path_with_short_end_refuted.
Example C89_example : exists r', add_history Short true (1/2) through (session 2 []) = Drawn r' /\
  lines (scene_objects r') = [Line (V 0 0 0) (V 1 0 0); Line (V 1 0 0) (V 2 0 0); Line (V 2 0 0) (vadd (V 2 0 0) (vscale (1/2) (V 1 0 0)))].
Proof.
  assert (E1 : ray_eqb (pt 1) (pt 3) = false) by (destruct (ray_eqb (pt 1) (pt 3)) eqn:E; [|reflexivity]; apply ray_eqb_eq, (f_equal (fun r => vx (position r))) in E; simpl in E; lra).
  assert (E2 : ray_eqb (pt 2) (pt 3) = false) by (destruct (ray_eqb (pt 2) (pt 3)) eqn:E; [|reflexivity]; apply ray_eqb_eq, (f_equal (fun r => vx (position r))) in E; simpl in E; lra).
  eexists. unfold add_history, draw_history, through. cbn [last hd fst removelast tl combine draw_pairs snd andb kind_eqb]. unfold segment_end. cbn [fst].
  rewrite E1, E2, ray_eqb_refl. split; [reflexivity|]. reflexivity.
Qed.
