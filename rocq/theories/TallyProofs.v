(** Facts about the recorder models: each recorder slot is independent of the others. *)
From Coq Require Import Reals Lra ZArith List Bool Arith Lia.
From Verif Require Import Base Vec TracerModel KernelModel TallyModel.
Import ListNotations.
Open Scope R_scope.

(** ** Python: one slot *)
Definition slot_matches (T : tscene) (node : nat) (r : recorder) (e : event) : bool :=
  matches (rec_event r) node e && facet_ok r (event_normal T node e).

(** values of the matching events of a history *)
Fixpoint match_values (T : tscene) (node : nat) (r : recorder) (prev : option ray) (h : list event) : list values :=
  match h with
  | [] => []
  | e :: t => (if slot_matches T node r e then [event_values T node prev e] else []) ++ match_values T node r (Some (e_ray e)) t
  end.

Definition cross_by (n : nat) (s : tstate) : tstate := TState (s_rays s) (s_cross s + n) (s_moments s) (s_bins s).
(** effect of the matching values [vs] of the rest of a history on a slot *)
Definition slot_step (r : recorder) (seen : bool) (vs : list values) (s : tstate) : tstate :=
  match vs with
  | [] => s
  | v :: _ => let s := cross_by (length vs) s in if seen then s else accumulate r v s
  end.

Definition name_of (p : nat * recorder * tstate) : nat := rec_name (snd (fst p)).

Lemma mem_cons a b l : mem a (b :: l) = Nat.eqb a b || mem a l.
Proof. reflexivity. Qed.

Lemma tally_event_spec T prev e ps : NoDup (map name_of ps) -> forall seen,
  snd (tally_event T prev e seen ps) =
    map (fun '(node, r, s) => (node, r, slot_step r (mem (rec_name r) seen) (if slot_matches T node r e then [event_values T node prev e] else []) s)) ps /\
  forall name, mem name (fst (tally_event T prev e seen ps)) =
    mem name seen || existsb (fun '(node, r, s) => Nat.eqb name (rec_name r) && slot_matches T node r e) ps.
Proof.
  induction ps as [|[[node r] s] ps IH]; intros Hnd seen.
  - simpl. split; [reflexivity|]. intros. now rewrite orb_false_r.
  - simpl in Hnd. inversion Hnd as [|? ? Hnot Hnd']; subst. specialize (IH Hnd').
    cbn [tally_event map existsb]. fold (slot_matches T node r e).
    destruct (slot_matches T node r e) eqn:Em.
    + destruct (mem (rec_name r) seen) eqn:Es.
      * destruct (IH seen) as [I1 I2]. destruct (tally_event T prev e seen ps) as [seen' rest]. simpl in I1, I2 |- *. split.
        -- rewrite I1. f_equal. unfold slot_step, cross_by. simpl. rewrite Nat.add_1_r. reflexivity.
        -- intros name. rewrite I2. destruct (Nat.eqb_spec name (rec_name r)) as [->|]; [|reflexivity].
           now rewrite Es.
      * destruct (IH (rec_name r :: seen)) as [I1 I2]. destruct (tally_event T prev e (rec_name r :: seen) ps) as [seen' rest]. cbn [fst snd] in *. split.
        -- rewrite I1. f_equal.
           ++ unfold slot_step, cross_by, accumulate. simpl. rewrite Nat.add_1_r. reflexivity.
           ++ apply map_ext_in. intros [[n' r'] s'] Hin. rewrite mem_cons.
              replace (Nat.eqb (rec_name r') (rec_name r)) with false; [reflexivity|].
              symmetry. apply Nat.eqb_neq. intros E. apply Hnot. unfold name_of at 1. simpl. rewrite <- E.
              change (rec_name r') with (name_of (n', r', s')). now apply in_map.
        -- intros name. rewrite I2, mem_cons. simpl. rewrite andb_true_r. destruct (Nat.eqb name (rec_name r)), (mem name seen); reflexivity.
    + destruct (IH seen) as [I1 I2]. destruct (tally_event T prev e seen ps) as [seen' rest]. simpl in I1, I2 |- *. split.
      * rewrite I1. reflexivity.
      * intros name. rewrite I2. rewrite andb_false_r. reflexivity.
Qed.

Lemma existsb_unique (P : nat -> recorder -> bool) ps node r s : NoDup (map name_of ps) -> In (node, r, s) ps ->
  existsb (fun '(node', r', _) => Nat.eqb (rec_name r) (rec_name r') && P node' r') ps = P node r.
Proof.
  induction ps as [|[[n' r'] s'] ps IH]; intros Hnd Hin; [easy|]. simpl in Hnd. inversion Hnd as [|? ? Hnot Hnd']; subst.
  simpl. destruct Hin as [E|Hin].
  - inversion E; subst. rewrite Nat.eqb_refl. simpl.
    destruct (existsb _ ps) eqn:Ex; [|now rewrite orb_false_r]. exfalso.
    apply existsb_exists in Ex. destruct Ex as ([[n2 r2] s2] & H2 & H3). apply andb_true_iff in H3. destruct H3 as [H3 _].
    apply Nat.eqb_eq in H3. apply Hnot. unfold name_of at 1. simpl. rewrite H3. change (rec_name r2) with (name_of (n2, r2, s2)). now apply in_map.
  - rewrite IH by assumption. replace (Nat.eqb (rec_name r) (rec_name r')) with false; [reflexivity|].
    symmetry. apply Nat.eqb_neq. intros E. apply Hnot. unfold name_of at 1. simpl. rewrite <- E.
    change (rec_name r) with (name_of (node, r, s)). now apply in_map.
Qed.

Lemma names_map f ps : (forall node r s, exists s', f (node, r, s) = (node, r, s')) -> map name_of (map f ps) = map name_of ps.
Proof.
  intros H. rewrite map_map. apply map_ext. intros [[n r] s]. destruct (H n r s) as [s' ->]. reflexivity.
Qed.

Lemma slot_step_twice r seen vs ws s :
  slot_step r (seen || negb (match vs with [] => true | _ => false end)) ws (slot_step r seen vs s) = slot_step r seen (vs ++ ws) s.
Proof.
  destruct vs as [|v vs].
  - simpl. now rewrite orb_false_r.
  - simpl. rewrite orb_true_r. destruct ws as [|w ws].
    + now rewrite app_nil_r.
    + unfold slot_step. rewrite app_length. destruct seen.
      * unfold cross_by. simpl. f_equal. lia.
      * unfold cross_by, accumulate. simpl. f_equal. lia.
Qed.

Lemma tally_history_spec T h : forall prev seen ps, NoDup (map name_of ps) ->
  tally_history T prev seen h ps =
    map (fun '(node, r, s) => (node, r, slot_step r (mem (rec_name r) seen) (match_values T node r prev h) s)) ps.
Proof.
  induction h as [|e h IH]; intros prev seen ps Hnd.
  - simpl. rewrite <- (map_id ps) at 1. apply map_ext. now intros [[? ?] ?].
  - cbn [tally_history match_values]. destruct (tally_event_spec T prev e ps Hnd seen) as [E1 E2].
    destruct (tally_event T prev e seen ps) as [seen' ps']. cbn [fst snd] in E1, E2. rewrite IH.
    + rewrite E1, map_map. apply map_ext_in. intros [[node r] s] Hin. f_equal.
      rewrite E2. rewrite (existsb_unique (fun n r => slot_matches T n r e) ps node r s Hnd Hin).
      rewrite <- slot_step_twice. f_equal. destruct (slot_matches T node r e); reflexivity.
    + rewrite E1, names_map; [exact Hnd|]. intros. eexists. reflexivity.
Qed.

(** the final state of a slot *)
Definition slot_histories (T : tscene) (node : nat) (r : recorder) (hs : list (list event)) (s : tstate) : tstate :=
  fold_left (fun s h => slot_step r false (match_values T node r None h) s) hs s.

Lemma tally_histories_spec T rs hs : NoDup (map (fun p => rec_name (snd p)) rs) ->
  tally_histories T rs hs = map (fun '(node, r) => (node, r, slot_histories T node r hs (new_state r))) rs.
Proof.
  intros Hnd. unfold tally_histories.
  assert (G : forall hs ps, NoDup (map name_of ps) ->
    fold_left (fun ps h => tally_history T None [] h ps) hs ps = map (fun '(node, r, s) => (node, r, slot_histories T node r hs s)) ps).
  { clear. induction hs as [|h hs IH]; intros ps Hnd.
    - simpl. rewrite <- (map_id ps) at 1. apply map_ext. now intros [[? ?] ?].
    - simpl. rewrite IH.
      + rewrite tally_history_spec by assumption. rewrite map_map. apply map_ext. now intros [[? ?] ?].
      + rewrite tally_history_spec by assumption. rewrite names_map; [exact Hnd|]. intros. eexists. reflexivity. }
  rewrite G.
  - rewrite map_map. apply map_ext. now intros [? ?].
  - rewrite map_map. erewrite map_ext; [exact Hnd|]. now intros [? ?].
Qed.

(** ** The counters *)
Definition firsts {A} (ls : list (list A)) : list A := flat_map (fun l => match l with [] => [] | x :: _ => [x] end) ls.
Definition recorded (T : tscene) (node : nat) (r : recorder) (hs : list (list event)) : list values :=
  firsts (map (match_values T node r None) hs).

Lemma slot_histories_spec T node r hs : forall s,
  slot_histories T node r hs s =
    cross_by (length (flat_map (match_values T node r None) hs)) (fold_left (fun s v => accumulate r v s) (recorded T node r hs) s).
Proof.
  unfold slot_histories, recorded.
  assert (C : forall n l s, fold_left (fun s v => accumulate r v s) l (cross_by n s) = cross_by n (fold_left (fun s v => accumulate r v s) l s)).
  { induction l as [|v l IH]; intros s; [reflexivity|]. simpl. rewrite <- IH. reflexivity. }
  assert (C2 : forall n m s, cross_by n (cross_by m s) = cross_by (m + n) s).
  { intros. unfold cross_by. simpl. f_equal. lia. }
  induction hs as [|h hs IH]; intros s.
  - simpl. unfold cross_by. destruct s; simpl. now rewrite Nat.add_0_r.
  - simpl. rewrite IH. unfold slot_step. destruct (match_values T node r None h) as [|v vs] eqn:E.
    + reflexivity.
    + simpl.
      replace (accumulate r v (cross_by (S (length vs)) s)) with (cross_by (S (length vs)) (accumulate r v s)) by reflexivity.
      rewrite C, C2. f_equal. simpl.
      rewrite app_length. lia.
Qed.

Lemma acc_rays r l : forall s, s_rays (fold_left (fun s v => accumulate r v s) l s) = (s_rays s + length l)%nat.
Proof. induction l as [|v l IH]; intros s; simpl; [lia|]. rewrite IH. simpl. lia. Qed.
Lemma acc_cross r l : forall s, s_cross (fold_left (fun s v => accumulate r v s) l s) = s_cross s.
Proof. induction l as [|v l IH]; intros s; simpl; [reflexivity|]. now rewrite IH. Qed.

Lemma match_values_length T node r h : forall prev,
  length (match_values T node r prev h) = length (filter (slot_matches T node r) h).
Proof.
  induction h as [|e h IH]; intros prev; [reflexivity|]. simpl. rewrite app_length, IH. destruct (slot_matches T node r e); reflexivity.
Qed.

Lemma match_values_none T node r h : forall prev,
  match match_values T node r prev h with [] => false | _ => true end = existsb (slot_matches T node r) h.
Proof.
  induction h as [|e h IH]; intros prev; [reflexivity|]. simpl. destruct (slot_matches T node r e); [reflexivity|]. simpl. apply IH.
Qed.

Lemma firsts_length {A} (ls : list (list A)) : length (firsts ls) = length (filter (fun l => match l with [] => false | _ => true end) ls).
Proof. induction ls as [|[|x l] ls IH]; simpl; [reflexivity|exact IH|now rewrite <- IH]. Qed.

Lemma filter_map_length {A B} (f : A -> B) (P : B -> bool) l : length (filter P (map f l)) = length (filter (fun x => P (f x)) l).
Proof. induction l as [|x l IH]; [reflexivity|]. simpl. destruct (P (f x)); simpl; now rewrite IH. Qed.

Lemma recorded_length T node r hs : length (recorded T node r hs) = length (filter (existsb (slot_matches T node r)) hs).
Proof.
  unfold recorded. rewrite firsts_length, filter_map_length. f_equal. apply filter_ext. intros h. apply match_values_none.
Qed.

Lemma slot_result T node r hs :
  let s := slot_histories T node r hs (new_state r) in
  s_rays s = length (recorded T node r hs) /\
  s_cross s = length (flat_map (match_values T node r None) hs) /\
  s_moments s = s_moments (fold_left (fun s v => accumulate r v s) (recorded T node r hs) (new_state r)) /\
  s_bins s = s_bins (fold_left (fun s v => accumulate r v s) (recorded T node r hs) (new_state r)).
Proof.
  cbv zeta. rewrite slot_histories_spec. unfold cross_by; cbn [s_rays s_cross s_moments s_bins].
  rewrite acc_rays, acc_cross. simpl. repeat split; reflexivity.
Qed.

(** ** Bins and moments of accumulated values *)
Lemma incr_length i l : length (incr i l) = length l.
Proof. revert i. induction l as [|x l IH]; intros [|i]; simpl; auto. Qed.
Lemma incr_nth i l c : (i < length l)%nat -> nth c (incr i l) 0%nat = (nth c l 0 + if Nat.eqb c i then 1 else 0)%nat.
Proof.
  revert i c. induction l as [|x l IH]; intros i c Hi; simpl in Hi; [lia|].
  destruct i, c; simpl; try lia. rewrite IH by lia. reflexivity.
Qed.

Lemma bin_index_lt v h i : bin_index v h = Some i -> (i < h_bins h)%nat.
Proof.
  unfold bin_index. cbv zeta. destruct (_ && _) eqn:E; [|discriminate]. intros H. injection H as <-.
  apply andb_true_iff in E. destruct E as [E1 E2]. apply Z.leb_le in E1. apply Z.ltb_lt in E2. lia.
Qed.
Lemma cell_lt v s c : cell v s = Some c -> (c < bins_size s)%nat.
Proof.
  destruct s as [h|a b]; simpl.
  - apply bin_index_lt.
  - destruct (bin_index _ a) as [i|] eqn:Ea; [|discriminate]. destruct (bin_index _ b) as [j|] eqn:Eb; [|discriminate].
    intros H. injection H as <-. apply bin_index_lt in Ea, Eb. nia.
Qed.

(** how often the cell [c] of [hs] is hit *)
Definition hits_in (vs : list values) (hs : hspec) (c : nat) : nat :=
  length (filter (fun v => match cell v hs with Some x => Nat.eqb x c | None => false end) vs).

Definition bins_of (vs : list values) (hs : hspec) : list nat := map (hits_in vs hs) (seq 0 (bins_size hs)).

Lemma list_eq_nth (a b : list nat) : length a = length b -> (forall i, (i < length a)%nat -> nth i a 0%nat = nth i b 0%nat) -> a = b.
Proof. intros. eapply nth_ext; eassumption. Qed.

Lemma acc_bins r vs : s_bins (fold_left (fun s v => accumulate r v s) vs (new_state r)) = map (bins_of vs) (rec_hists r).
Proof.
  induction vs as [|v vs IH] using rev_ind.
  - simpl. apply map_ext. intros hs. unfold bins_of, hits_in. simpl.
    generalize 0%nat at 3 as i. induction (bins_size hs) as [|n IHn]; intros i; [reflexivity|]. simpl. f_equal. apply IHn.
  - rewrite fold_left_app. simpl. rewrite IH.
    clear IH. induction (rec_hists r) as [|hs l IHl]; [reflexivity|]. simpl. rewrite IHl. f_equal.
    unfold bins_of, hits_in. destruct (cell v hs) as [c|] eqn:Ec.
    + assert (Hc := cell_lt _ _ _ Ec).
      apply list_eq_nth; [rewrite incr_length; now rewrite !map_length|]. intros i Hi.
      rewrite incr_length, map_length, seq_length in Hi.
      rewrite incr_nth by (now rewrite map_length, seq_length).
      set (f := fun c0 : nat => length (filter (fun v0 => match cell v0 hs with Some x => Nat.eqb x c0 | None => false end) vs)).
      set (g := fun c0 : nat => length (filter (fun v0 => match cell v0 hs with Some x => Nat.eqb x c0 | None => false end) (vs ++ [v]))).
      rewrite (nth_indep _ 0%nat (f 0%nat)) by (now rewrite map_length, seq_length).
      rewrite (nth_indep (map g _) 0%nat (g 0%nat)) by (now rewrite map_length, seq_length).
      rewrite !map_nth, seq_nth by assumption. simpl. unfold f, g. rewrite filter_app, app_length. simpl. rewrite Ec.
      rewrite (Nat.eqb_sym i c). destruct (Nat.eqb c i); reflexivity.
    + apply map_ext. intros c. rewrite filter_app, app_length. simpl. rewrite Ec. simpl. lia.
Qed.

Definition sum_by (f : values -> R) (vs : list values) : R := fold_right Rplus 0 (map f vs).
Lemma sum_by_app f a b : sum_by f (a ++ b) = sum_by f a + sum_by f b.
Proof. unfold sum_by. induction a as [|x a IH]; simpl; [lra|]. rewrite IH. lra. Qed.

Lemma acc_moments r vs : s_moments (fold_left (fun s v => accumulate r v s) vs (new_state r)) =
  map (fun p => (sum_by (fun v => prop_value v p) vs, sum_by (fun v => prop_value v p * prop_value v p) vs)) moment_props.
Proof.
  induction vs as [|v vs IH] using rev_ind.
  - reflexivity.
  - rewrite fold_left_app. cbn [fold_left accumulate s_moments]. rewrite IH. unfold moment_props. cbn [map combine].
    rewrite !sum_by_app. unfold sum_by. simpl. repeat (f_equal; try lra).
Qed.

(** ** Kernel: layout of the bins *)
Definition size_sum (l : list hspec) : nat := list_sum (map bins_size l).
Definition off (l : list hspec) (o i : nat) : nat := (o + size_sum (firstn i l))%nat.

Lemma hist_rows_spec l : forall o,
  length (fst (hist_rows l o)) = length l /\ snd (hist_rows l o) = (o + size_sum l)%nat /\
  forall i s d, nth_error l i = Some s -> nth i (fst (hist_rows l o)) d = fst (hist_row s (off l o i)).
Proof.
  induction l as [|s l IH]; intros o.
  - simpl. unfold size_sum; simpl. split; [reflexivity|]. split; [lia|]. intros [|i]; discriminate.
  - cbn [hist_rows]. destruct (hist_row s o) as [row o1] eqn:E1.
    assert (Eo : o1 = (o + bins_size s)%nat) by (destruct s; simpl in E1; injection E1; intros; subst; reflexivity).
    specialize (IH o1). destruct (hist_rows l o1) as [rows o2]. simpl in IH |- *. destruct IH as (L & S2 & N).
    split; [now rewrite L|]. split; [rewrite S2, Eo; unfold size_sum; simpl; lia|].
    intros [|i] x d Hx; simpl in Hx.
    + injection Hx as <-. unfold off, size_sum; simpl. rewrite Nat.add_0_r. now rewrite E1.
    + rewrite (N i x d Hx). unfold off. simpl. unfold size_sum; simpl. rewrite Eo. now rewrite Nat.add_assoc.
Qed.

Definition specs (l : list (nat * recorder)) : list hspec := flat_map (fun p => rec_hists (snd p)) l.
(** index of the first histogram of recorder [r] *)
Definition first_hist (l : list (nat * recorder)) (r : nat) : nat := length (specs (firstn r l)).

Lemma hist_rows_app a b o : hist_rows (a ++ b) o =
  (fst (hist_rows a o) ++ fst (hist_rows b (snd (hist_rows a o))), snd (hist_rows b (snd (hist_rows a o)))).
Proof.
  revert o. induction a as [|s a IH]; intros o.
  - simpl. now destruct (hist_rows b o).
  - simpl. destruct (hist_row s o) as [row o1]. rewrite IH. destruct (hist_rows a o1) as [ra oa]. reflexivity.
Qed.

Lemma compile_spec l : forall start o,
  let '(ks, rows, total) := compile_recorders l start o in
  (rows, total) = hist_rows (specs l) o /\ length ks = length l /\
  forall r node rc, nth_error l r = Some (node, rc) ->
    nth_error ks r = Some (KRec node rc (start + first_hist l r) (length (rec_hists rc))).
Proof.
  induction l as [|[node rc] l IH]; intros start o.
  - simpl. split; [reflexivity|]. split; [reflexivity|]. intros [|r]; discriminate.
  - cbn [compile_recorders]. destruct (hist_rows (rec_hists rc) o) as [rows o1] eqn:E1.
    specialize (IH (start + length (rec_hists rc))%nat o1). destruct (compile_recorders l _ o1) as [[ks more] total].
    destruct IH as (I1 & I2 & I3). split; [|split].
    + change (specs ((node, rc) :: l)) with (rec_hists rc ++ specs l). rewrite hist_rows_app, E1. cbn [fst snd]. rewrite <- I1. reflexivity.
    + simpl. now rewrite I2.
    + intros [|r] n' r' H; simpl in H |- *.
      * injection H as <- <-. unfold first_hist. simpl. now rewrite Nat.add_0_r.
      * rewrite (I3 r n' r' H). f_equal. f_equal. unfold first_hist. simpl. rewrite app_length. lia.
Qed.

(** different histograms have different cells *)
Lemma size_sum_firstn l i s : nth_error l i = Some s -> (size_sum (firstn (S i) l) = size_sum (firstn i l) + bins_size s)%nat.
Proof.
  revert i. induction l as [|x l IH]; intros [|i] H; simpl in H; try discriminate.
  - injection H as <-. unfold size_sum. simpl. lia.
  - specialize (IH i H). change (firstn (S (S i)) (x :: l)) with (x :: firstn (S i) l). change (firstn (S i) (x :: l)) with (x :: firstn i l).
    unfold size_sum in *. cbn [map]. change (list_sum (bins_size x :: ?a)) with (bins_size x + list_sum a)%nat. cbn [list_sum fold_right] in *. unfold list_sum in *. lia.
Qed.
Lemma size_sum_mono l i j : (i <= j)%nat -> (size_sum (firstn i l) <= size_sum (firstn j l))%nat.
Proof.
  intros H. unfold size_sum. revert i j H. induction l as [|x l IH]; intros i j H.
  - now rewrite !firstn_nil.
  - destruct i; [simpl; lia|]. destruct j; [lia|]. simpl. assert (i <= j)%nat by lia. specialize (IH i j ltac:(assumption)). simpl in IH. lia.
Qed.
Lemma off_disjoint l o i j s t c d : nth_error l i = Some s -> nth_error l j = Some t ->
  (c < bins_size s)%nat -> (d < bins_size t)%nat -> (off l o i + c = off l o j + d)%nat -> i = j /\ c = d.
Proof.
  unfold off. intros Hi Hj Hc Hd E.
  destruct (lt_eq_lt_dec i j) as [[H|H]|H].
  - pose proof (size_sum_firstn _ _ _ Hi). pose proof (size_sum_mono l (S i) j ltac:(lia)). lia.
  - subst j. split; [reflexivity|lia].
  - pose proof (size_sum_firstn _ _ _ Hj). pose proof (size_sum_mono l (S j) i ltac:(lia)). lia.
Qed.
Lemma off_bound l o i s : nth_error l i = Some s -> (off l o i + bins_size s <= o + size_sum l)%nat.
Proof.
  intros H. unfold off. pose proof (size_sum_firstn _ _ _ H). pose proof (size_sum_mono l (S i) (length l)) as M.
  rewrite firstn_all in M. assert (i < length l)%nat by (apply nth_error_Some; congruence). specialize (M ltac:(lia)). lia.
Qed.

(** the row of a histogram and the cell it increments *)
Lemma tally_row_spec s o v bins :
  tally_row v (fst (hist_row s o)) bins = match cell v s with Some c => upd bins (o + c) S | None => bins end.
Proof.
  destruct s as [h|a b]; unfold tally_row; simpl.
  - destruct (bin_index _ h); reflexivity.
  - destruct (bin_index _ a) as [i|]; [|reflexivity]. destruct (bin_index _ b) as [j|]; [|reflexivity].
    now rewrite Nat.add_assoc.
Qed.
Lemma row_size s o : (hr_na (fst (hist_row s o)) * hr_nb (fst (hist_row s o)) = bins_size s)%nat /\ hr_offset (fst (hist_row s o)) = o.
Proof. destruct s; unfold hr_na; simpl; lia. Qed.

(** fold over the rows of one recorder, seen at cell (i, c) *)
Lemma fold_rows H o v : forall n start bins i s c, nth_error H i = Some s -> (c < bins_size s)%nat -> (start + n <= length H)%nat ->
  fold_left (fun bins h => tally_row v (nth h (fst (hist_rows H o)) default_row) bins) (seq start n) bins (off H o i + c)%nat =
  (bins (off H o i + c)%nat + if Nat.leb start i && Nat.ltb i (start + n) && (match cell v s with Some x => Nat.eqb x c | None => false end) then 1 else 0)%nat.
Proof.
  induction n as [|n IH]; intros start bins i s c Hi Hc Hn.
  - simpl. replace (Nat.leb start i && Nat.ltb i (start + 0)) with false; [simpl; lia|].
    symmetry. apply andb_false_iff. destruct (Nat.leb_spec start i); [|now left]. right. apply Nat.ltb_ge. lia.
  - cbn [seq fold_left]. destruct (nth_error H start) as [t|] eqn:Et; [|apply nth_error_None in Et; lia].
    destruct (hist_rows_spec H o) as (_ & _ & N). rewrite (N start t default_row Et), tally_row_spec.
    rewrite (IH (S start) _ i s c Hi Hc ltac:(lia)).
    assert (E : match cell v t with Some c0 => upd bins (off H o start + c0) S | None => bins end (off H o i + c)%nat =
      (bins (off H o i + c)%nat + if Nat.eqb start i && match cell v s with Some x => Nat.eqb x c | None => false end then 1 else 0)%nat).
    { destruct (Nat.eqb_spec start i) as [->|Hne].
      - assert (t = s) by congruence. subst t. destruct (cell v s) as [x|] eqn:Ex; simpl; [|lia]. unfold upd.
        destruct (Nat.eqb_spec x c) as [->|]; [rewrite Nat.eqb_refl; lia|].
        destruct (Nat.eqb_spec (off H o i + c) (off H o i + x)); lia.
      - simpl. destruct (cell v t) as [x|] eqn:Ex; [|lia]. unfold upd.
        destruct (Nat.eqb_spec (off H o i + c) (off H o start + x)) as [E|]; [|lia].
        destruct (off_disjoint H o i start s t c x Hi Et Hc (cell_lt _ _ _ Ex) E). congruence. }
    rewrite E. destruct (match cell v s with Some x => Nat.eqb x c | None => false end); rewrite ?andb_true_r, ?andb_false_r; [|lia].
    destruct (Nat.eqb_spec start i) as [->|Hne].
    + replace (Nat.leb (S i) i) with false by (symmetry; apply Nat.leb_gt; lia).
      replace (Nat.leb i i) with true by (symmetry; apply Nat.leb_le; lia).
      replace (Nat.ltb i (i + S n)) with true by (symmetry; apply Nat.ltb_lt; lia). simpl. lia.
    + replace (Nat.leb start i) with (Nat.leb (S start) i).
      2:{ destruct (Nat.leb_spec (S start) i), (Nat.leb_spec start i); lia || reflexivity. }
      replace (start + S n)%nat with (S start + n)%nat by lia. lia.
Qed.

(** ** Kernel: one recorder *)
Definition call_hits (k : krec) (calls : list tally_call) : list values := map call_values (filter (call_matches k) calls).

Definition sum_of (v : values) (i : nat) : R :=
  let p := prop_value v (nth (i / 2) moment_props PX) in if Nat.even i then p else p * p.
Lemma add_sums_spec v r s q i : (i < 8)%nat ->
  add_sums v r s (q * 8 + i)%nat = s (q * 8 + i)%nat + if Nat.eqb q r then sum_of v i else 0.
Proof.
  intros Hi. unfold add_sums, upd.
  destruct (Nat.eqb_spec q r) as [->|Hne].
  - destruct i as [|[|[|[|[|[|[|[|i]]]]]]]]; try lia; cbv zeta; unfold sum_of; simpl Nat.div; simpl Nat.even; simpl nth; simpl prop_value;
    repeat match goal with |- context [Nat.eqb ?a ?b] => (replace (Nat.eqb a b) with false by (symmetry; apply Nat.eqb_neq; lia)) || (replace (Nat.eqb a b) with true by (symmetry; apply Nat.eqb_eq; lia)) end; lra.
  - cbv zeta.
    repeat match goal with |- context [Nat.eqb ?a ?b] => (replace (Nat.eqb a b) with false by (symmetry; apply Nat.eqb_neq; lia)) end; lra.
Qed.

Definition owns (k : krec) (i : nat) : Prop := (kr_start k <= i < kr_start k + kr_n k)%nat.
Definition separate (ks : list krec) : Prop :=
  forall a b ka kb i, nth_error ks a = Some ka -> nth_error ks b = Some kb -> owns ka i -> owns kb i -> a = b.
Lemma separate_tail k ks : separate (k :: ks) -> separate ks.
Proof. intros H a b ka kb i Ha Hb Oa Ob. specialize (H (S a) (S b) ka kb i Ha Hb Oa Ob). lia. Qed.

Definition add_if (b : bool) (n : nat) : nat := (n + if b then 1 else 0)%nat.
Definition in_cell (v : values) (s : hspec) (x : nat) : bool := match cell v s with Some y => Nat.eqb y x | None => false end.

(** one recorder of the loop *)
Definition one (rows : list hrow) (c : tally_call) (k : krec) (r : nat) (st : (nat -> bool) * acc) : (nat -> bool) * acc :=
  tally_loop rows c [k] r st.
Lemma loop_cons rows c k ks r st : tally_loop rows c (k :: ks) r st = tally_loop rows c ks (S r) (one rows c k r st).
Proof. destruct st as [seen A]. reflexivity. Qed.

Lemma one_spec H o c k r st : (kr_start k + kr_n k <= length H)%nat ->
  let st' := one (fst (hist_rows H o)) c k r st in
  let m := call_matches k c in
  let new := m && negb (fst st r) in
  (forall q, fst st' q = if Nat.eqb q r then fst st q || m else fst st q) /\
  (forall q, a_cross (snd st') q = if Nat.eqb q r then add_if m (a_cross (snd st) q) else a_cross (snd st) q) /\
  (forall q, a_distinct (snd st') q = if Nat.eqb q r then add_if new (a_distinct (snd st) q) else a_distinct (snd st) q) /\
  (forall q i, (i < 8)%nat -> a_sums (snd st') (q * 8 + i)%nat = a_sums (snd st) (q * 8 + i)%nat + if Nat.eqb q r && new then sum_of (call_values c) i else 0) /\
  (forall i s x, nth_error H i = Some s -> (x < bins_size s)%nat ->
     a_bins (snd st') (off H o i + x)%nat =
     add_if (new && (Nat.leb (kr_start k) i && Nat.ltb i (kr_start k + kr_n k)) && in_cell (call_values c) s x) (a_bins (snd st) (off H o i + x)%nat)).
Proof.
  intros Hk. destruct st as [seen A]. unfold one. cbn [tally_loop fst snd]. cbv zeta. unfold add_if.
  destruct (call_matches k c) eqn:Em; [destruct (seen r) eqn:Es|]; cbn [fst snd a_cross a_distinct a_sums a_bins andb negb].
  - repeat split; intros.
    + destruct (Nat.eqb_spec q r) as [->|]; [now rewrite Es|reflexivity].
    + unfold upd. destruct (Nat.eqb q r); lia.
    + destruct (Nat.eqb q r); lia.
    + rewrite andb_false_r. lra.
    + lia.
  - repeat split; intros.
    + unfold upd. destruct (Nat.eqb q r); [now rewrite orb_true_r|reflexivity].
    + unfold upd. destruct (Nat.eqb q r); lia.
    + unfold upd. destruct (Nat.eqb q r); lia.
    + rewrite add_sums_spec by assumption. now rewrite andb_true_r.
    + now apply fold_rows.
  - repeat split; intros.
    + destruct (Nat.eqb q r); [now rewrite orb_false_r|reflexivity].
    + destruct (Nat.eqb q r); lia.
    + destruct (Nat.eqb q r); lia.
    + rewrite andb_false_r. lra.
    + lia.
Qed.

Lemma owns_bool k i : (Nat.leb (kr_start k) i && Nat.ltb i (kr_start k + kr_n k)) = true <-> owns k i.
Proof. unfold owns. rewrite andb_true_iff, Nat.leb_le, Nat.ltb_lt. tauto. Qed.

(** what a call does to the entries of recorder [r + q] *)
Definition entry_step (H : list hspec) (o : nat) (k : krec) (q : nat) (seen : bool) (vs : list values) (A A' : acc) : Prop :=
  let new := negb seen && match vs with [] => false | _ => true end in
  let v := hd (Values 0 0 0 0 (V 0 0 0)) vs in
  a_cross A' q = (a_cross A q + length vs)%nat /\
  a_distinct A' q = add_if new (a_distinct A q) /\
  (forall i, (i < 8)%nat -> a_sums A' (q * 8 + i)%nat = a_sums A (q * 8 + i)%nat + if new then sum_of v i else 0) /\
  (forall i s x, owns k i -> nth_error H i = Some s -> (x < bins_size s)%nat ->
     a_bins A' (off H o i + x)%nat = add_if (new && in_cell v s x) (a_bins A (off H o i + x)%nat)).

Lemma loop_spec H o c ks : (forall k, In k ks -> (kr_start k + kr_n k <= length H)%nat) -> separate ks ->
  forall r st, let st' := tally_loop (fst (hist_rows H o)) c ks r st in
  (forall q, (q < r)%nat -> fst st' q = fst st q /\ a_cross (snd st') q = a_cross (snd st) q /\ a_distinct (snd st') q = a_distinct (snd st) q /\
     forall i, (i < 8)%nat -> a_sums (snd st') (q * 8 + i)%nat = a_sums (snd st) (q * 8 + i)%nat) /\
  (forall i s x, (forall k, In k ks -> ~ owns k i) -> nth_error H i = Some s -> (x < bins_size s)%nat ->
     a_bins (snd st') (off H o i + x)%nat = a_bins (snd st) (off H o i + x)%nat) /\
  (forall q k, nth_error ks q = Some k ->
     fst st' (r + q)%nat = fst st (r + q)%nat || call_matches k c /\
     entry_step H o k (r + q) (fst st (r + q)%nat) (call_hits k [c]) (snd st) (snd st')).
Proof.
  induction ks as [|k ks IH]; intros Hl Hsep r st; cbv zeta.
  - simpl. repeat split; auto. all: destruct q; discriminate.
  - rewrite loop_cons. set (rows := fst (hist_rows H o)) in *.
    assert (Hk : (kr_start k + kr_n k <= length H)%nat) by (apply Hl; now left).
    destruct (one_spec H o c k r st Hk) as (P1 & P2 & P3 & P4 & P5). fold rows in P1, P2, P3, P4, P5.
    set (st1 := one rows c k r st) in *. clearbody st1.
    specialize (IH (fun k' Hin => Hl k' (or_intror Hin)) (separate_tail _ _ Hsep) (S r) st1). cbv zeta in IH. fold rows in IH.
    set (st2 := tally_loop rows c ks (S r) st1) in *. clearbody st2. destruct IH as (I1 & I2 & I3).
    split; [|split].
    + intros q Hq. destruct (I1 q ltac:(lia)) as (J1 & J2 & J3 & J4).
      assert (E : Nat.eqb q r = false) by (apply Nat.eqb_neq; lia).
      specialize (P1 q). specialize (P2 q). specialize (P3 q). rewrite E in P1, P2, P3.
      split; [congruence|]. split; [congruence|]. split; [congruence|]. intros i Hi. rewrite J4, P4, E by assumption. simpl. lra.
    + intros i s x Hn Hi Hx. rewrite (I2 i s x) by (auto; intros k' Hin; apply Hn; now right).
      rewrite (P5 i s x Hi Hx). unfold add_if.
      destruct (Nat.leb (kr_start k) i && Nat.ltb i (kr_start k + kr_n k)) eqn:E.
      * exfalso. apply owns_bool in E. apply (Hn k); [now left|assumption].
      * rewrite andb_false_r. simpl. lia.
    + intros q k' Hq. destruct q as [|q].
      * simpl in Hq. injection Hq as <-. rewrite Nat.add_0_r. destruct (I1 r ltac:(lia)) as (J1 & J2 & J3 & J4).
        specialize (P1 r). specialize (P2 r). specialize (P3 r). rewrite Nat.eqb_refl in P1, P2, P3.
        split; [congruence|]. unfold entry_step, call_hits. cbn [filter].
        split; [|split; [|split]].
        -- rewrite J2, P2. unfold add_if. destruct (call_matches k c); reflexivity.
        -- rewrite J3, P3. unfold add_if. destruct (call_matches k c), (fst st r); reflexivity.
        -- intros i Hi. rewrite J4, P4, Nat.eqb_refl by assumption. destruct (call_matches k c), (fst st r); simpl; lra.
        -- intros i s x Ho Hi Hx. rewrite (I2 i s x); [| |assumption|assumption].
           ++ rewrite (P5 i s x Hi Hx). unfold add_if. rewrite (proj2 (owns_bool k i) Ho).
              destruct (call_matches k c), (fst st r); simpl; reflexivity || lia.
           ++ intros k' Hin Ho'. apply In_nth_error in Hin. destruct Hin as [n Hn].
              specialize (Hsep 0%nat (S n) k k' i eq_refl Hn Ho Ho'). discriminate.
      * simpl in Hq. replace (r + S q)%nat with (S r + q)%nat by lia. destruct (I3 q k' Hq) as (J1 & J2 & J3 & J4 & J5).
        assert (E : Nat.eqb (S r + q) r = false) by (apply Nat.eqb_neq; lia).
        specialize (P1 (S r + q)%nat). specialize (P2 (S r + q)%nat). specialize (P3 (S r + q)%nat). rewrite E in P1, P2, P3.
        rewrite P1 in *. split; [assumption|]. split; [congruence|]. split; [rewrite <- P3; exact J3|]. split.
        -- intros i Hi. rewrite J4, P4, E by assumption. simpl. lra.
        -- intros i s x Ho Hi Hx. rewrite (J5 i s x Ho Hi Hx). f_equal. rewrite (P5 i s x Hi Hx). unfold add_if.
           replace (Nat.leb (kr_start k) i && Nat.ltb i (kr_start k + kr_n k)) with false; [rewrite andb_false_r; simpl; lia|].
           symmetry. apply not_true_is_false. intros Hb. apply owns_bool in Hb.
           specialize (Hsep 0%nat (S q) k k' i eq_refl Hq Hb Ho). discriminate.
Qed.

Lemma entry_refl H o k q seen A : entry_step H o k q seen [] A A.
Proof. unfold entry_step, add_if. rewrite andb_false_r. simpl. repeat split; intros; lia || lra. Qed.
Lemma entry_trans H o k q seen vs ws A B C : entry_step H o k q seen vs A B ->
  entry_step H o k q (seen || match vs with [] => false | _ => true end) ws B C -> entry_step H o k q seen (vs ++ ws) A C.
Proof.
  unfold entry_step, add_if. intros (A1 & A2 & A3 & A4) (B1 & B2 & B3 & B4).
  split; [rewrite B1, A1, app_length; lia|].
  destruct vs as [|v vs]; cbn [app hd] in *.
  - rewrite orb_false_r in *. rewrite andb_false_r in *. simpl in *. rewrite Nat.add_0_r in *. split; [congruence|]. split.
    + intros i Hi. rewrite B3, A3 by assumption. lra.
    + intros i s x Ho Hi Hx. rewrite (B4 i s x), (A4 i s x) by assumption. now rewrite Nat.add_0_r.
  - rewrite orb_true_r in *. cbn [negb andb] in *. rewrite andb_true_r in *. rewrite Nat.add_0_r in *. split; [congruence|]. split.
    + intros i Hi. rewrite B3, A3 by assumption. lra.
    + intros i s x Ho Hi Hx. rewrite (B4 i s x), (A4 i s x) by assumption. now rewrite Nat.add_0_r.
Qed.

Lemma calls_spec H o ks : (forall k, In k ks -> (kr_start k + kr_n k <= length H)%nat) -> separate ks ->
  forall calls st q k, nth_error ks q = Some k ->
  let st' := fold_left (fun st c => tally (fst (hist_rows H o)) ks c st) calls st in
  entry_step H o k q (fst st q) (call_hits k calls) (snd st) (snd st').
Proof.
  intros Hl Hsep. induction calls as [|c calls IH]; intros st q k Hq; cbv zeta.
  - apply entry_refl.
  - cbn [fold_left]. destruct (loop_spec H o c ks Hl Hsep 0 st) as (_ & _ & L). destruct (L q k Hq) as [L1 L2]. simpl in L1, L2.
    fold (tally (fst (hist_rows H o)) ks c st) in L1, L2.
    specialize (IH (tally (fst (hist_rows H o)) ks c st) q k Hq). cbv zeta in IH. rewrite L1 in IH.
    replace (call_hits k (c :: calls)) with (call_hits k [c] ++ call_hits k calls) by (unfold call_hits; simpl; destruct (call_matches k c); reflexivity).
    eapply entry_trans; [exact L2|]. replace (match call_hits k [c] with [] => false | _ => true end) with (call_matches k c); [exact IH|].
    unfold call_hits. simpl. destruct (call_matches k c); reflexivity.
Qed.

(** ** The compiled tables *)
Definition kernel_tables (rs : list (nat * recorder)) : list krec * list hrow * nat := compile_recorders rs 0 0.

Lemma first_hist_next l r node rc : nth_error l r = Some (node, rc) -> first_hist l (S r) = (first_hist l r + length (rec_hists rc))%nat.
Proof.
  unfold first_hist. revert r. induction l as [|[n x] l IH]; intros [|r] Hn; simpl in Hn; try discriminate.
  - injection Hn as <- <-. simpl. now rewrite app_nil_r.
  - specialize (IH r Hn). change (firstn (S (S r)) ((n, x) :: l)) with ((n, x) :: firstn (S r) l). simpl. rewrite !app_length. unfold specs in IH. simpl in IH. unfold specs. lia.
Qed.
Lemma first_hist_mono l r q : (r <= q)%nat -> (first_hist l r <= first_hist l q)%nat.
Proof.
  unfold first_hist. revert r q. induction l as [|[n x] l IH]; intros r q Hrq.
  - now rewrite !firstn_nil.
  - destruct r; [simpl; lia|]. destruct q; [lia|]. simpl. rewrite !app_length. specialize (IH r q ltac:(lia)). unfold specs in *. lia.
Qed.
Lemma first_hist_all l : first_hist l (length l) = length (specs l).
Proof. unfold first_hist. now rewrite firstn_all. Qed.

Lemma tables_ok rs ks rows total : kernel_tables rs = (ks, rows, total) ->
  rows = fst (hist_rows (specs rs) 0) /\ total = size_sum (specs rs) /\ length ks = length rs /\
  (forall r node rc, nth_error rs r = Some (node, rc) -> nth_error ks r = Some (KRec node rc (first_hist rs r) (length (rec_hists rc)))) /\
  (forall k, In k ks -> (kr_start k + kr_n k <= length (specs rs))%nat) /\ separate ks.
Proof.
  unfold kernel_tables. intros E. pose proof (compile_spec rs 0 0) as C. rewrite E in C. destruct C as (C1 & C2 & C3).
  destruct (hist_rows_spec (specs rs) 0) as (_ & S2 & _). rewrite <- C1 in S2. simpl in S2.
  split; [now rewrite <- C1|]. split; [exact S2|]. split; [exact C2|]. split; [exact C3|].
  assert (G : forall a k, nth_error ks a = Some k -> exists node rc, nth_error rs a = Some (node, rc) /\ k = KRec node rc (first_hist rs a) (length (rec_hists rc))).
  { intros a k Ha. destruct (nth_error rs a) as [[node rc]|] eqn:Er.
    - exists node, rc. split; [reflexivity|]. specialize (C3 a node rc Er). rewrite Ha in C3. now injection C3.
    - apply nth_error_None in Er. assert (a < length ks)%nat by (apply nth_error_Some; congruence). lia. }
  split.
  - intros k Hin. apply In_nth_error in Hin. destruct Hin as [a Ha]. destruct (G a k Ha) as (node & rc & Hr & ->). simpl.
    pose proof (first_hist_next _ _ _ _ Hr). pose proof (first_hist_mono rs (S a) (length rs)) as M. rewrite first_hist_all in M.
    assert (a < length rs)%nat by (apply nth_error_Some; congruence). specialize (M ltac:(lia)). lia.
  - intros a b ka kb i Ha Hb Oa Ob. destruct (G a ka Ha) as (n1 & r1 & H1 & ->). destruct (G b kb Hb) as (n2 & r2 & H2 & ->).
    unfold owns in *; simpl in *. pose proof (first_hist_next _ _ _ _ H1). pose proof (first_hist_next _ _ _ _ H2).
    destruct (lt_eq_lt_dec a b) as [[L|L]|L]; [|assumption|].
    + pose proof (first_hist_mono rs (S a) b ltac:(lia)). lia.
    + pose proof (first_hist_mono rs (S b) a ltac:(lia)). lia.
Qed.

(** ** All rays *)
Definition k_recorded (k : krec) (rays : list (list tally_call)) : list values := firsts (map (call_hits k) rays).

Lemma nth_specs rs r node rc h s : nth_error rs r = Some (node, rc) -> nth_error (rec_hists rc) h = Some s ->
  nth_error (specs rs) (first_hist rs r + h) = Some s.
Proof.
  revert r. induction rs as [|[n x] rs IH]; intros [|r] Hr Hh; simpl in Hr; try discriminate.
  - injection Hr as <- <-. unfold first_hist. simpl. rewrite nth_error_app1; [assumption|]. apply nth_error_Some. congruence.
  - specialize (IH r Hr Hh). unfold first_hist in *. simpl. rewrite app_length, <- Nat.add_assoc.
    rewrite nth_error_app2 by lia. replace (length (rec_hists x) + (length (specs (firstn r rs)) + h) - length (rec_hists x))%nat with (length (specs (firstn r rs)) + h)%nat by lia.
    exact IH.
Qed.

(** entries of recorder [r] after tallying the calls of all rays *)
Lemma rays_spec rs ks rows total : kernel_tables rs = (ks, rows, total) ->
  forall r node rc k, nth_error rs r = Some (node, rc) -> nth_error ks r = Some k ->
  forall rays A, let A' := fold_left (fun A calls => tally_ray rows ks calls A) rays A in
  a_cross A' r = (a_cross A r + length (flat_map (call_hits k) rays))%nat /\
  a_distinct A' r = (a_distinct A r + length (k_recorded k rays))%nat /\
  (forall i, (i < 8)%nat -> a_sums A' (r * 8 + i)%nat = a_sums A (r * 8 + i)%nat + sum_by (fun v => sum_of v i) (k_recorded k rays)) /\
  (forall h s x, nth_error (rec_hists rc) h = Some s -> (x < bins_size s)%nat ->
     a_bins A' (off (specs rs) 0 (first_hist rs r + h) + x)%nat = (a_bins A (off (specs rs) 0 (first_hist rs r + h) + x) + hits_in (k_recorded k rays) s x)%nat).
Proof.
  intros E r node rc k Hr Hk. destruct (tables_ok rs ks rows total E) as (Erows & _ & _ & Hks & Hlen & Hsep).
  assert (Ek : k = KRec node rc (first_hist rs r) (length (rec_hists rc))) by (specialize (Hks r node rc Hr); congruence).
  induction rays as [|calls rays IH]; intros A; cbv zeta.
  - unfold k_recorded, hits_in, sum_by; simpl. repeat split; intros; lia || lra.
  - cbn [fold_left]. specialize (IH (tally_ray rows ks calls A)). cbv zeta in IH. destruct IH as (I1 & I2 & I3 & I4).
    pose proof (calls_spec (specs rs) 0 ks Hlen Hsep calls (fun _ => false, A) r k Hk) as C. cbv zeta in C. cbn [fst snd] in C.
    rewrite <- Erows in C. fold (tally_ray rows ks calls A) in C. destruct C as (C1 & C2 & C3 & C4).
    assert (Er : k_recorded k (calls :: rays) = match call_hits k calls with [] => [] | v :: _ => [v] end ++ k_recorded k rays) by reflexivity.
    split; [rewrite I1, C1; simpl; rewrite app_length; lia|].
    split; [rewrite I2, C2, Er, app_length; unfold add_if; destruct (call_hits k calls); simpl; lia|].
    split.
    + intros i Hi. rewrite I3, C3, Er, sum_by_app by assumption. unfold sum_by. destruct (call_hits k calls); simpl; lra.
    + intros h s x Hh Hx. rewrite (I4 h s x Hh Hx), Er. rewrite (C4 (first_hist rs r + h)%nat s x).
      * unfold hits_in, add_if. rewrite filter_app, app_length. unfold in_cell.
        destruct (call_hits k calls) as [|v vs]; simpl; [lia|]. destruct (match cell v s with Some y => Nat.eqb y x | None => false end); simpl; lia.
      * unfold owns. rewrite Ek. simpl. assert (h < length (rec_hists rc))%nat by (apply nth_error_Some; congruence). lia.
      * eapply nth_specs; eassumption.
      * exact Hx.
Qed.

Lemma map_seq_nth {A B} (l : list A) (f : nat -> B) (g : A -> B) : (forall h s, nth_error l h = Some s -> f h = g s) ->
  map f (seq 0 (length l)) = map g l.
Proof.
  revert f. induction l as [|x l IH]; intros f Hf; [reflexivity|]. simpl. rewrite (Hf 0%nat x eq_refl). f_equal.
  rewrite <- seq_shift, map_map. apply IH. intros h s Hh. now apply Hf.
Qed.
Lemma seq_shift_by o n : seq o n = map (fun x => (o + x)%nat) (seq 0 n).
Proof.
  revert o. induction n as [|n IH]; intros o; [reflexivity|]. simpl. rewrite Nat.add_0_r. f_equal.
  rewrite (IH (S o)), <- seq_shift, map_map. apply map_ext. intros; lia.
Qed.

(** The result read back for recorder [r]. *)
Lemma engine_result_spec rs ks rows total r node rc k rays : kernel_tables rs = (ks, rows, total) ->
  nth_error rs r = Some (node, rc) -> nth_error ks r = Some k ->
  let vs := k_recorded k rays in
  engine_result rows k r (fold_left (fun A calls => tally_ray rows ks calls A) rays acc0) =
  Result (length vs) (length (flat_map (call_hits k) rays))
    (map (fun p => (sum_by (fun v => prop_value v p) vs, sum_by (fun v => prop_value v p * prop_value v p) vs)) moment_props)
    (map (bins_of vs) (rec_hists rc)).
Proof.
  intros E Hr Hk. cbv zeta. destruct (rays_spec rs ks rows total E r node rc k Hr Hk rays acc0) as (I1 & I2 & I3 & I4).
  set (A' := fold_left _ rays acc0) in *. clearbody A'. cbn [a_cross a_distinct a_sums a_bins acc0] in *.
  destruct (tables_ok rs ks rows total E) as (Erows & _ & _ & Hks & _ & _).
  assert (Ek : k = KRec node rc (first_hist rs r) (length (rec_hists rc))) by (specialize (Hks r node rc Hr); congruence).
  unfold engine_result. rewrite I1, I2. simpl (0 + _)%nat. f_equal.
  - cbn [seq map moment_props].
    assert (S : forall i, (i < 8)%nat -> a_sums A' (r * 8 + i)%nat = sum_by (fun v => sum_of v i) (k_recorded k rays)) by (intros; rewrite I3 by assumption; lra).
    rewrite <- !Nat.add_assoc. rewrite !S by lia. reflexivity.
  - assert (En : kr_n k = length (rec_hists rc)) by now rewrite Ek. assert (Es : kr_start k = first_hist rs r) by now rewrite Ek.
    rewrite En. apply map_seq_nth. intros h s Hh. rewrite Es.
    pose proof (nth_specs rs r node rc h s Hr Hh) as Hs. destruct (hist_rows_spec (specs rs) 0) as (_ & _ & N).
    rewrite Erows, (N _ s default_row Hs). destruct (row_size s (off (specs rs) 0 (first_hist rs r + h))) as [-> ->].
    unfold slice, bins_of. rewrite seq_shift_by, map_map. apply map_ext_in. intros x Hx. apply in_seq in Hx.
    rewrite (I4 h s x Hh) by lia. reflexivity.
Qed.
