(** Lemmas about parallel executions of trace_bundle and about the event log. *)
From Coq Require Import Reals Lra ZArith List Bool Arith Lia Permutation.
From Verif Require Import Base Vec DistModel MaterialModel OpticsModel PhaseModel TransformModel TracerModel KernelModel KernelProofs
  LogProofs LogProps TallyModel RngModel BundleModel.
Import ListNotations.
Open Scope nat_scope.

(** ** tally adds to the accumulators *)
Definition acc_add (A B : acc) : acc :=
  Acc (fun i => a_distinct A i + a_distinct B i) (fun i => a_cross A i + a_cross B i)
      (fun i => (a_sums A i + a_sums B i)%R) (fun i => a_bins A i + a_bins B i).
Definition acc_eq (A B : acc) : Prop :=
  (forall i, a_distinct A i = a_distinct B i) /\ (forall i, a_cross A i = a_cross B i) /\
  (forall i, a_sums A i = a_sums B i) /\ (forall i, a_bins A i = a_bins B i).

Lemma acc_eq_refl A : acc_eq A A. Proof. repeat split. Qed.
Lemma acc_eq_sym A B : acc_eq A B -> acc_eq B A.
Proof. intros (H1 & H2 & H3 & H4). repeat split; intros; symmetry; auto. Qed.
Lemma acc_eq_trans A B C : acc_eq A B -> acc_eq B C -> acc_eq A C.
Proof. intros (H1 & H2 & H3 & H4) (G1 & G2 & G3 & G4). repeat split; intros; etransitivity; eauto. Qed.
Lemma acc_add_assoc A B C : acc_eq (acc_add (acc_add A B) C) (acc_add A (acc_add B C)).
Proof. repeat split; intros; simpl; lia || lra. Qed.
Lemma acc_add_eq A A' B B' : acc_eq A A' -> acc_eq B B' -> acc_eq (acc_add A B) (acc_add A' B').
Proof. intros (H1 & H2 & H3 & H4) (G1 & G2 & G3 & G4). repeat split; intros; simpl; rewrite ?H1, ?H2, ?H3, ?H4, ?G1, ?G2, ?G3, ?G4; reflexivity. Qed.

Lemma upd_S f i j : upd f i S j = f j + (if Nat.eqb j i then 1 else 0).
Proof. unfold upd. destruct (Nat.eqb j i); lia. Qed.
Lemma upd_plus f i x j : upd f i (fun y => (y + x)%R) j = (f j + (if Nat.eqb j i then x else 0))%R.
Proof. unfold upd. destruct (Nat.eqb j i); lra. Qed.

Lemma row_adds v row : exists D, forall bins j, tally_row v row bins j = bins j + D j.
Proof.
  unfold tally_row. destruct (bin_index _ _) as [ia|]; [|exists (fun _ => 0); intros; lia].
  destruct (hr_b row) as [b|].
  - destruct (bin_index _ _) as [ib|]; [|exists (fun _ => 0); intros; lia].
    eexists (fun j => _). intros. apply upd_S.
  - eexists (fun j => _). intros. apply upd_S.
Qed.
Lemma rows_add v rows hs : exists D, forall bins j, fold_left (fun bins h => tally_row v (nth h rows default_row) bins) hs bins j = bins j + D j.
Proof.
  induction hs as [|h hs [D IH]]; [exists (fun _ => 0); intros; simpl; lia|].
  destruct (row_adds v (nth h rows default_row)) as [D1 H1]. exists (fun j => D1 j + D j). intros. simpl. rewrite IH, H1. lia.
Qed.
Lemma sums_add v r : exists D, forall sums j, add_sums v r sums j = (sums j + D j)%R.
Proof. unfold add_sums. cbv zeta. eexists (fun j => _). intros. rewrite !upd_plus. rewrite !Rplus_assoc. reflexivity. Qed.

Lemma loop_adds rows c : forall ks r seen, exists seen' D, forall A,
  fst (tally_loop rows c ks r (seen, A)) = seen' /\ acc_eq (snd (tally_loop rows c ks r (seen, A))) (acc_add A D).
Proof.
  induction ks as [|k ks IH]; intros r seen.
  - exists seen, acc0. intros A. simpl. split; [reflexivity|]. repeat split; intros; simpl; lia || lra.
  - cbn [tally_loop]. destruct (call_matches k c).
    + set (dc := fun i => if Nat.eqb i r then 1 else 0).
      destruct (seen r) eqn:Es.
      * destruct (IH (S r) seen) as (seen' & D & H). exists seen', (acc_add (Acc (fun _ => 0) dc (fun _ => 0%R) (fun _ => 0)) D).
        intros A. destruct (H (Acc (a_distinct A) (upd (a_cross A) r S) (a_sums A) (a_bins A))) as [H1 H2].
        split; [exact H1|]. eapply acc_eq_trans; [exact H2|]. eapply acc_eq_trans; [|apply acc_add_assoc].
        apply acc_add_eq; [|apply acc_eq_refl]. repeat split; intros; simpl; rewrite ?upd_S; unfold dc; lia || lra.
      * destruct (sums_add (call_values c) r) as [Ds Hs]. destruct (rows_add (call_values c) rows (seq (kr_start k) (kr_n k))) as [Db Hb].
        destruct (IH (S r) (upd seen r (fun _ => true))) as (seen' & D & H).
        exists seen', (acc_add (Acc dc dc Ds Db) D). intros A.
        match goal with |- context [tally_loop rows c ks (S r) (_, ?B)] => destruct (H B) as [H1 H2] end.
        split; [exact H1|]. eapply acc_eq_trans; [exact H2|]. eapply acc_eq_trans; [|apply acc_add_assoc].
        apply acc_add_eq; [|apply acc_eq_refl]. repeat split; intros; simpl; rewrite ?upd_S, ?Hs, ?Hb; unfold dc; reflexivity.
    + apply IH.
Qed.

Lemma calls_add rows ks : forall calls seen, exists D, forall A,
  acc_eq (snd (fold_left (fun st c => tally rows ks c st) calls (seen, A))) (acc_add A D).
Proof.
  induction calls as [|c calls IH]; intros seen.
  - exists acc0. intros A. repeat split; intros; simpl; lia || lra.
  - cbn [fold_left]. destruct (loop_adds rows c ks 0 seen) as (seen' & D1 & H1). destruct (IH seen') as [D2 H2].
    exists (acc_add D1 D2). intros A. unfold tally at 2. destruct (H1 A) as [E1 E2].
    destruct (tally_loop rows c ks 0 (seen, A)) as [s B]. cbn [fst snd] in *. subst s.
    eapply acc_eq_trans; [apply H2|]. eapply acc_eq_trans; [|apply acc_add_assoc]. apply acc_add_eq; [exact E2|apply acc_eq_refl].
Qed.

Definition delta (rows : list hrow) (ks : list krec) (calls : list tally_call) : acc := tally_ray rows ks calls acc0.
Lemma tally_ray_adds rows ks calls A : acc_eq (tally_ray rows ks calls A) (acc_add A (delta rows ks calls)).
Proof.
  unfold delta, tally_ray. destruct (calls_add rows ks calls (fun _ => false)) as [D H].
  eapply acc_eq_trans; [apply H|]. apply acc_add_eq; [apply acc_eq_refl|]. apply acc_eq_sym.
  eapply acc_eq_trans; [apply H|]. repeat split; intros; simpl; lia || lra.
Qed.

(** ** Sums in a commutative monoid (nat and R) *)
Section Sums.
  Variables (T : Type) (zero : T) (plus : T -> T -> T).
  Hypothesis plus_0 : forall x, plus zero x = x.
  Hypothesis plus_comm : forall x y, plus x y = plus y x.
  Hypothesis plus_assoc : forall x y z, plus (plus x y) z = plus x (plus y z).

  Definition msum (l : list T) : T := fold_right plus zero l.

  Lemma msum_app a b : msum (a ++ b) = plus (msum a) (msum b).
  Proof. induction a; simpl; [now rewrite plus_0|]. now rewrite IHa, plus_assoc. Qed.
  Lemma msum_perm a b : Permutation a b -> msum a = msum b.
  Proof. induction 1; simpl; [reflexivity|now f_equal| |congruence]. now rewrite <- !plus_assoc, (plus_comm y x). Qed.
  Lemma msum_flat_map {A B} (f : B -> T) (g : A -> list B) l :
    msum (map f (flat_map g l)) = msum (map (fun a => msum (map f (g a))) l).
  Proof. induction l; simpl; [reflexivity|]. now rewrite map_app, msum_app, IHl. Qed.
  Lemma msum_zero {A} (l : list A) f : (forall a, In a l -> f a = zero) -> msum (map f l) = zero.
  Proof. induction l; simpl; intros H; [reflexivity|]. rewrite H by now left. rewrite plus_0. apply IHl. intros; apply H; now right. Qed.
  Lemma msum_plus {A} (f g : A -> T) l : msum (map (fun a => plus (f a) (g a)) l) = plus (msum (map f l)) (msum (map g l)).
  Proof.
    induction l as [|a l IH]; simpl; [now rewrite plus_0|]. rewrite IH. rewrite !plus_assoc. f_equal.
    rewrite <- !plus_assoc, (plus_comm (g a)). reflexivity.
  Qed.
  Lemma msum_swap {A B} (f : A -> B -> T) la lb :
    msum (map (fun a => msum (map (f a) lb)) la) = msum (map (fun b => msum (map (fun a => f a b) la)) lb).
  Proof.
    induction la as [|a la IH]; simpl.
    - symmetry. now apply msum_zero.
    - rewrite IH. now rewrite <- msum_plus.
  Qed.
  Lemma msum_one n t x : t < n -> msum (map (fun s => if Nat.eqb t s then x else zero) (seq 0 n)) = x.
  Proof.
    assert (G : forall n a, a <= t < a + n -> msum (map (fun s => if Nat.eqb t s then x else zero) (seq a n)) = x).
    { clear n. induction n as [|n IH]; intros a H; [lia|]. simpl. destruct (Nat.eqb_spec t a).
      - rewrite msum_zero; [now rewrite plus_comm, plus_0|]. intros s Hs. apply in_seq in Hs. destruct (Nat.eqb_spec t s); [lia|reflexivity].
      - rewrite plus_0. apply IH. lia. }
    intros H. apply G. lia.
  Qed.

  (** one cell [f] of the accumulators *)
  Variable J : job.
  Variable f : acc -> T.
  Hypothesis f_zero : f acc0 = zero.
  Hypothesis f_adds : forall calls A, f (tally_ray (hrows J) (krecs J) calls A) = plus (f A) (f (delta (hrows J) (krecs J) calls)).

  Definition share (t : nat) (s : step) : T :=
    match s with Accumulate tid calls => if Nat.eqb tid t then f (delta (hrows J) (krecs J) calls) else zero | _ => zero end.

  Lemma thread_total t : forall steps M, f (m_acc (fold_left (exec J) steps M) t) = plus (f (m_acc M t)) (msum (map (share t) steps)).
  Proof.
    induction steps as [|s steps IH]; intros M; simpl.
    - now rewrite plus_comm, plus_0.
    - rewrite IH. destruct s as [r w|j n|tid calls]; simpl; rewrite ?plus_0; try reflexivity.
      unfold set. rewrite (Nat.eqb_sym tid t). destruct (Nat.eqb_spec t tid) as [->|]; [now rewrite f_adds, plus_assoc|now rewrite plus_0].
  Qed.

  Definition gain (s : step) : T := match s with Accumulate _ calls => f (delta (hrows J) (krecs J) calls) | _ => zero end.
  Definition calls_of (i : nat) : list tally_call := tallies_of (run_ray J i).

  Lemma all_threads n steps : (forall tid calls, In (Accumulate tid calls) steps -> tid < n) ->
    msum (map (fun t => f (m_acc (fold_left (exec J) steps memory0) t)) (seq 0 n)) = msum (map gain steps).
  Proof.
    intros H. erewrite map_ext by (intros t; rewrite thread_total; simpl; rewrite f_zero, plus_0; reflexivity).
    rewrite msum_swap. f_equal. apply map_ext_in. intros s Hs. destruct s as [r w|j m|tid calls]; simpl.
    - now apply msum_zero.
    - now apply msum_zero.
    - apply msum_one. eapply H. exact Hs.
  Qed.

  Lemma gain_ray tid i : msum (map gain (ray_steps J tid i)) = f (delta (hrows J) (krecs J) (calls_of i)).
  Proof.
    unfold ray_steps, calls_of, tallies_of. destruct (run_ray J i) as [[log calls] st]. cbn [fst snd].
    destruct (base J i) as [b|].
    - rewrite map_app, msum_app. unfold row_steps. rewrite map_map.
      rewrite msum_zero by (intros [k e] _; reflexivity). rewrite plus_0. simpl. rewrite plus_0. now rewrite plus_comm, plus_0.
    - simpl. now rewrite plus_comm, plus_0.
  Qed.
End Sums.

(** ** Interleavings *)
Lemma interleave_perm {A} (ls : list (list A)) l : interleave ls l -> Permutation (concat ls) l.
Proof.
  induction 1 as [ls H|before x l after rest _ IH].
  - induction H as [|y ls <- _ IHl]; simpl; [constructor|exact IHl].
  - rewrite concat_app in *. simpl in *. eapply Permutation_trans; [|apply perm_skip, IH].
    rewrite <- Permutation_middle. apply Permutation_refl.
Qed.

Lemma interleave_one {A} (l : list A) : interleave [l] l.
Proof.
  induction l as [|x l IH]; [apply inter_nil; repeat constructor|]. apply (inter_cons [] x l [] l). exact IH.
Qed.

Lemma concat_threads J : forall threads a,
  concat (map (fun '(tid, is) => flat_map (ray_steps J tid) is) (combine (seq a (length threads)) threads)) =
  flat_map (fun '(tid, i) => ray_steps J tid i) (concat (map (fun '(tid, is) => map (pair tid) is) (combine (seq a (length threads)) threads))).
Proof.
  induction threads as [|is threads IH]; intros a; simpl; [reflexivity|].
  rewrite flat_map_app, IH. f_equal. induction is; simpl; [reflexivity|now f_equal].
Qed.
Definition assignment (threads : list (list nat)) : list (nat * nat) :=
  concat (map (fun '(tid, is) => map (pair tid) is) (combine (seq 0 (length threads)) threads)).
Lemma assignment_rays threads : map snd (assignment threads) = concat threads.
Proof.
  unfold assignment. generalize 0 as a. induction threads as [|is threads IH]; intros a; simpl; [reflexivity|].
  rewrite map_app, IH, map_map. f_equal. simpl. apply map_id.
Qed.
Lemma assignment_tid threads tid i : In (tid, i) (assignment threads) -> tid < length threads.
Proof.
  unfold assignment. assert (G : forall a, In (tid, i) (concat (map (fun '(tid, is) => map (pair tid) is) (combine (seq a (length threads)) threads))) -> tid < a + length threads).
  { induction threads as [|is threads IH]; intros a; simpl; [tauto|]. rewrite in_app_iff. intros [H|H].
    - apply in_map_iff in H. destruct H as (y & E & _). injection E as <- <-. lia.
    - apply IH in H. lia. }
  apply G.
Qed.
Lemma thread_steps_concat J threads : concat (thread_steps J threads) = flat_map (fun '(tid, i) => ray_steps J tid i) (assignment threads).
Proof. apply concat_threads. Qed.

(** [deal] is a distribution of the rays over the threads. *)
Definition deal (J : job) (threads : list (list nat)) : Prop := Permutation (concat threads) (seq 0 (length (j_rays J))).

Lemma accumulate_tid J threads tid calls : In (Accumulate tid calls) (concat (thread_steps J threads)) -> tid < length threads.
Proof.
  rewrite thread_steps_concat. intros H. apply in_flat_map in H. destruct H as ([t i] & Ha & Hs).
  apply assignment_tid in Ha. unfold ray_steps in Hs. destruct (run_ray J i) as [[log cs] st].
  destruct (base J i).
  - apply in_app_or in Hs. destruct Hs as [Hs|[Hs|[Hs|[]]]]; try discriminate.
    + unfold row_steps in Hs. apply in_map_iff in Hs. destruct Hs as ([k e] & E & _). discriminate.
    + injection Hs as <- <-. exact Ha.
  - destruct Hs as [Hs|[]]. injection Hs as <- <-. exact Ha.
Qed.

Section Cell.
  Variables (T : Type) (zero : T) (plus : T -> T -> T).
  Hypothesis plus_0 : forall x, plus zero x = x.
  Hypothesis plus_comm : forall x y, plus x y = plus y x.
  Hypothesis plus_assoc : forall x y z, plus (plus x y) z = plus x (plus y z).
  Variable J : job.
  Variable f : acc -> T.
  Hypothesis f_zero : f acc0 = zero.
  Hypothesis f_adds : forall calls A, f (tally_ray (hrows J) (krecs J) calls A) = plus (f A) (f (delta (hrows J) (krecs J) calls)).

  Lemma merged_cell threads M : deal J threads -> executes J threads M ->
    msum T zero plus (map (fun t => f (m_acc M t)) (seq 0 (length threads))) =
    msum T zero plus (map (fun i => f (delta (hrows J) (krecs J) (calls_of J i))) (seq 0 (length (j_rays J)))).
  Proof.
    intros Hd (steps & Hi & ->). pose proof (interleave_perm _ _ Hi) as P.
    rewrite (all_threads T zero plus plus_0 plus_comm plus_assoc J f f_zero f_adds).
    2:{ intros tid calls H. apply (Permutation_in _ (Permutation_sym P)) in H. eapply accumulate_tid. exact H. }
    rewrite <- (msum_perm T zero plus plus_comm plus_assoc _ _ (Permutation_map (gain T zero J f) P)).
    rewrite thread_steps_concat, (msum_flat_map T zero plus plus_0 plus_assoc).
    rewrite (map_ext _ (fun p => f (delta (hrows J) (krecs J) (calls_of J (snd p))))) by (intros [tid i]; now apply gain_ray).
    rewrite <- (map_map snd (fun i => f (delta (hrows J) (krecs J) (calls_of J i)))), assignment_rays.
    apply (msum_perm T zero plus plus_comm plus_assoc). now apply Permutation_map.
  Qed.

  Lemma sequential_cell is : f (fold_left (fun A i => tally_ray (hrows J) (krecs J) (calls_of J i) A) is acc0) =
    msum T zero plus (map (fun i => f (delta (hrows J) (krecs J) (calls_of J i))) is).
  Proof.
    assert (G : forall A, f (fold_left (fun A i => tally_ray (hrows J) (krecs J) (calls_of J i) A) is A) =
      plus (f A) (msum T zero plus (map (fun i => f (delta (hrows J) (krecs J) (calls_of J i))) is))).
    { induction is as [|i is' IH]; intros A; simpl; [now rewrite plus_comm, plus_0|]. now rewrite IH, f_adds, plus_assoc. }
    now rewrite G, f_zero, plus_0.
  Qed.
End Cell.

(** The merged accumulators are those of tallying the rays one after another. *)
Definition sequential (J : job) : acc :=
  fold_left (fun A i => tally_ray (hrows J) (krecs J) (calls_of J i) A) (seq 0 (length (j_rays J))) acc0.
Lemma merged_sequential J threads M : deal J threads -> executes J threads M ->
  acc_eq (merged (length threads) M) (sequential J).
Proof.
  intros Hd He.
  assert (N0 : forall x, 0 + x = x) by (intros; lia). assert (R0 : forall x, (0 + x = x)%R) by (intros; lra).
  assert (NC : forall x y, x + y = y + x) by (intros; lia). assert (RC : forall x y, (x + y = y + x)%R) by (intros; lra).
  assert (NA : forall x y z, x + y + z = x + (y + z)) by (intros; lia). assert (RA : forall x y z, (x + y + z = x + (y + z))%R) by (intros; lra).
  pose proof (fun calls A => tally_ray_adds (hrows J) (krecs J) calls A) as H.
  repeat split; intros i; unfold sequential.
  - rewrite (sequential_cell nat 0 Nat.add N0 NC NA J (fun A => a_distinct A i) eq_refl (fun c A => proj1 (H c A) i)).
    apply (merged_cell nat 0 Nat.add N0 NC NA J (fun A => a_distinct A i) eq_refl (fun c A => proj1 (H c A) i)); assumption.
  - rewrite (sequential_cell nat 0 Nat.add N0 NC NA J (fun A => a_cross A i) eq_refl (fun c A => proj1 (proj2 (H c A)) i)).
    apply (merged_cell nat 0 Nat.add N0 NC NA J (fun A => a_cross A i) eq_refl (fun c A => proj1 (proj2 (H c A)) i)); assumption.
  - rewrite (sequential_cell R 0%R Rplus R0 RC RA J (fun A => a_sums A i) eq_refl (fun c A => proj1 (proj2 (proj2 (H c A))) i)).
    apply (merged_cell R 0%R Rplus R0 RC RA J (fun A => a_sums A i) eq_refl (fun c A => proj1 (proj2 (proj2 (H c A))) i)); assumption.
  - rewrite (sequential_cell nat 0 Nat.add N0 NC NA J (fun A => a_bins A i) eq_refl (fun c A => proj2 (proj2 (proj2 (H c A))) i)).
    apply (merged_cell nat 0 Nat.add N0 NC NA J (fun A => a_bins A i) eq_refl (fun c A => proj2 (proj2 (proj2 (H c A))) i)); assumption.
Qed.

(** ** The log *)
Definition logged (J : job) (i : nat) : list event := log_of (run_ray J i).

Lemma record_len b log e : length log <= b -> length (record (Some b) log e) <= b.
Proof. intros H. unfold record. destruct (Nat.leb_spec b (length log)); [exact H|]. rewrite app_length. simpl. lia. Qed.
Lemma records_len b evs : forall log, length log <= b -> length (fold_left (record (Some b)) evs log) <= b.
Proof. induction evs as [|e evs IH]; intros log H; simpl; [exact H|]. apply IH. now apply record_len. Qed.
Lemma k_loop_len K b ms m us : forall fuel count log r, length log <= b ->
  length (log_of (k_loop fuel K (Some b) ms m us count log r)) <= b.
Proof.
  induction fuel as [|fuel IH]; intros count log r H; [exact H|]. cbn [k_loop].
  destruct (budget_spent (Some b) log); [apply record_len; exact H|].
  destruct (k_pass _ _ _ _ _ _) as [evs ts|evs ts r'|].
  - apply records_len. exact H.
  - specialize (IH (S count) (fold_left (record (Some b)) evs log) r' (records_len b evs log H)).
    destruct (k_loop _ _ _ _ _ _ _ _ _) as [[l t] st]. exact IH.
  - exact H.
Qed.
Lemma logged_len J i : base J i <> None -> length (logged J i) <= j_max_events J.
Proof.
  intros H. unfold logged, run_ray. destruct (base J i); [|congruence]. apply k_loop_len. apply record_len. simpl. lia.
Qed.

(** Rows written for ray i, and the pairs (slot, number of events) *)
Definition row_writes (J : job) (i : nat) : list (nat * row) :=
  match base J i with
  | Some b => map (fun '(k, e) => (b + k, row_of (j_scene J) e)) (combine (seq 0 (length (logged J i))) (logged J i))
  | None => []
  end.
Definition count_writes (J : job) (i : nat) : list (nat * nat) :=
  match base J i with Some b => [(i / j_every J, length (logged J i))] | None => [] end.
Definition rows_in (steps : list step) : list (nat * row) := flat_map (fun s => match s with WriteRow r w => [(r, w)] | _ => [] end) steps.
Definition counts_in (steps : list step) : list (nat * nat) := flat_map (fun s => match s with WriteCount j n => [(j, n)] | _ => [] end) steps.

Lemma rows_ray J tid i : rows_in (ray_steps J tid i) = row_writes J i.
Proof.
  unfold ray_steps, row_writes, logged, log_of. destruct (run_ray J i) as [[log calls] st]. cbn [fst snd].
  destruct (base J i) as [b|]; [|reflexivity]. unfold rows_in. rewrite flat_map_app. simpl. rewrite app_nil_r.
  unfold row_steps. generalize (combine (seq 0 (length log)) log). induction l as [|[k e] l IH]; simpl; [reflexivity|now rewrite IH].
Qed.
Lemma counts_ray J tid i : counts_in (ray_steps J tid i) = count_writes J i.
Proof.
  unfold ray_steps, count_writes, logged, log_of. destruct (run_ray J i) as [[log calls] st]. cbn [fst snd].
  destruct (base J i) as [b|]; [|reflexivity]. unfold counts_in. rewrite flat_map_app. simpl.
  unfold row_steps. generalize (combine (seq 0 (length log)) log). induction l as [|[k e] l IH]; simpl; [reflexivity|exact IH].
Qed.

Lemma flat_map_flat_map {A B C} (f : B -> list C) (g : A -> list B) l : flat_map f (flat_map g l) = flat_map (fun a => flat_map f (g a)) l.
Proof. induction l; simpl; [reflexivity|]. now rewrite flat_map_app, IHl. Qed.
Lemma flat_map_map' {A B C} (f : B -> list C) (g : A -> B) l : flat_map f (map g l) = flat_map (fun a => f (g a)) l.
Proof. induction l; simpl; [reflexivity|]. now rewrite IHl. Qed.
Lemma perm_flat_map {A B} (f : A -> list B) l l' : Permutation l l' -> Permutation (flat_map f l) (flat_map f l').
Proof.
  induction 1; simpl; [constructor|now apply Permutation_app_head| |eapply Permutation_trans; eauto].
  rewrite !app_assoc. apply Permutation_app_tail, Permutation_app_comm.
Qed.

Lemma rows_perm J threads steps : deal J threads -> interleave (thread_steps J threads) steps ->
  Permutation (rows_in steps) (flat_map (row_writes J) (seq 0 (length (j_rays J)))).
Proof.
  intros Hd Hi. apply interleave_perm in Hi. eapply Permutation_trans; [apply Permutation_sym, (perm_flat_map _ _ _ Hi)|].
  rewrite thread_steps_concat, flat_map_flat_map.
  rewrite (flat_map_ext _ (fun p => row_writes J (snd p))) by (intros [tid i]; apply rows_ray).
  rewrite <- (flat_map_map' (row_writes J) snd), assignment_rays. now apply perm_flat_map.
Qed.
Lemma counts_perm J threads steps : deal J threads -> interleave (thread_steps J threads) steps ->
  Permutation (counts_in steps) (flat_map (count_writes J) (seq 0 (length (j_rays J)))).
Proof.
  intros Hd Hi. apply interleave_perm in Hi. eapply Permutation_trans; [apply Permutation_sym, (perm_flat_map _ _ _ Hi)|].
  rewrite thread_steps_concat, flat_map_flat_map.
  rewrite (flat_map_ext _ (fun p => count_writes J (snd p))) by (intros [tid i]; apply counts_ray).
  rewrite <- (flat_map_map' (count_writes J) snd), assignment_rays. now apply perm_flat_map.
Qed.

(** Memory after a list of writes to distinct places *)
Definition written {A} (f : nat -> A) (l : list (nat * A)) : nat -> A := fold_left (fun f '(i, x) => set f i x) l f.
Lemma log_written J : forall steps M, m_log (fold_left (exec J) steps M) = written (m_log M) (rows_in steps).
Proof. induction steps as [|s steps IH]; intros M; [reflexivity|]. simpl. rewrite IH. destruct s; reflexivity. Qed.
Lemma counts_written J : forall steps M, m_counts (fold_left (exec J) steps M) = written (m_counts M) (counts_in steps).
Proof. induction steps as [|s steps IH]; intros M; [reflexivity|]. simpl. rewrite IH. destruct s; reflexivity. Qed.
Lemma written_other {A} (l : list (nat * A)) : forall f i, ~ In i (map fst l) -> written f l i = f i.
Proof.
  induction l as [|[j x] l IH]; intros f i H; simpl; [reflexivity|]. rewrite IH by (intros C; apply H; now right).
  unfold set. destruct (Nat.eqb_spec i j) as [->|]; [exfalso; apply H; now left|reflexivity].
Qed.
Lemma written_at {A} (l : list (nat * A)) : NoDup (map fst l) -> forall f i x, In (i, x) l -> written f l i = x.
Proof.
  induction l as [|[j y] l IH]; intros Hn f i x H; [destruct H|]. simpl in *. inversion Hn as [|? ? Hj Hn']; subst.
  destruct H as [E|H].
  - injection E as -> ->. rewrite written_other by exact Hj. unfold set. now rewrite Nat.eqb_refl.
  - apply IH; assumption.
Qed.
Lemma written_perm {A} (l l' : list (nat * A)) f i : NoDup (map fst l) -> Permutation l l' -> written f l i = written f l' i.
Proof.
  intros Hn P. assert (Hn' : NoDup (map fst l')) by (eapply Permutation_NoDup; [apply Permutation_map, P|exact Hn]).
  destruct (in_dec Nat.eq_dec i (map fst l)) as [Hi|Hi].
  - apply in_map_iff in Hi. destruct Hi as ([j x] & <- & Hin). simpl.
    rewrite (written_at l Hn f j x Hin). symmetry. apply written_at; [exact Hn'|]. eapply Permutation_in; eauto.
  - rewrite written_other by exact Hi. symmetry. apply written_other. intros C. apply Hi.
    eapply Permutation_in; [apply Permutation_map, Permutation_sym, P|exact C].
Qed.

(** The places are distinct *)
Lemma base_some J i b : base J i = Some b -> 0 < j_every J /\ i = j_every J * (i / j_every J) /\ b = i / j_every J * j_max_events J.
Proof.
  unfold base. destruct (Nat.ltb_spec 0 (j_every J)); [|discriminate]. destruct (Nat.eqb_spec (i mod j_every J) 0); [|discriminate].
  intros E. injection E as <-. split; [assumption|]. split; [|reflexivity]. apply Nat.div_exact; lia.
Qed.
Lemma nodup_flat_map {A B} (f : A -> list B) l : NoDup l -> (forall a, In a l -> NoDup (f a)) ->
  (forall a a' b, In a l -> In a' l -> In b (f a) -> In b (f a') -> a = a') -> NoDup (flat_map f l).
Proof.
  induction l as [|a l IH]; intros Hn H1 H2; simpl; [constructor|]. inversion Hn as [|? ? Ha Hn']; subst.
  assert (G : NoDup (flat_map f l)) by (apply IH; [exact Hn'|intros; apply H1; now right|intros; eapply H2; eauto; now right]).
  assert (D : forall b, In b (f a) -> ~ In b (flat_map f l)).
  { intros b Hb Hc. apply in_flat_map in Hc. destruct Hc as (a' & Ha' & Hb').
    assert (a = a') by (eapply H2; eauto; [now left|now right]). subst. contradiction. }
  clear - H1 G D. assert (Hf : NoDup (f a)) by (apply H1; now left). revert D Hf. generalize (f a). induction l0 as [|b l0 IH]; intros D Hf; simpl; [exact G|].
  inversion Hf; subst. constructor.
  - rewrite in_app_iff. intros [C|C]; [contradiction|]. apply (D b); [now left|exact C].
  - apply IH; [intros; apply D; now right|assumption].
Qed.

Lemma in_row_writes J i x w : In (x, w) (row_writes J i) ->
  exists b k e, base J i = Some b /\ nth_error (logged J i) k = Some e /\ x = b + k /\ w = row_of (j_scene J) e /\ k < j_max_events J.
Proof.
  unfold row_writes. destruct (base J i) as [b|] eqn:Eb; [|intros []]. intros H. apply in_map_iff in H.
  destruct H as ([k e] & E & Hin). injection E as <- <-. exists b, k, e. split; [reflexivity|].
  assert (Hk : nth_error (logged J i) k = Some e).
  { clear - Hin. revert Hin. assert (G : forall a l, In (k, e) (combine (seq a (length l)) l) -> a <= k /\ nth_error l (k - a) = Some e).
    { intros a l; revert a. induction l as [|y l IH]; intros a; simpl; [tauto|]. intros [E|H].
      - injection E as -> ->. split; [lia|]. now rewrite Nat.sub_diag.
      - apply IH in H. destruct H as [H1 H2]. split; [lia|]. replace (k - a) with (S (k - S a)) by lia. exact H2. }
    intros H. apply G in H. rewrite Nat.sub_0_r in H. apply H. }
  split; [exact Hk|]. split; [reflexivity|]. split; [reflexivity|].
  pose proof (logged_len J i) as L. rewrite Eb in L. specialize (L ltac:(discriminate)).
  assert (k < length (logged J i)) by (apply nth_error_Some; congruence). lia.
Qed.
Lemma row_writes_in J i b k e : base J i = Some b -> nth_error (logged J i) k = Some e -> In (b + k, row_of (j_scene J) e) (row_writes J i).
Proof.
  intros Hb He. unfold row_writes. rewrite Hb. apply in_map_iff. exists (k, e). split; [reflexivity|].
  clear Hb. assert (G : forall a l k, nth_error l k = Some e -> In (a + k, e) (combine (seq a (length l)) l)).
  { intros a l; revert a. induction l as [|y l IH]; intros a [|j] H; simpl in *; try discriminate.
    - injection H as ->. left. f_equal. lia.
    - right. replace (a + S j) with (S a + j) by lia. now apply IH. }
  apply (G 0). exact He.
Qed.

Lemma rows_nodup J n : NoDup (map fst (flat_map (row_writes J) (seq 0 n))).
Proof.
  rewrite flat_map_concat_map, concat_map, map_map, <- flat_map_concat_map.
  apply nodup_flat_map; [apply seq_NoDup| |].
  - intros i _. unfold row_writes. destruct (base J i) as [b|]; [|constructor]. rewrite map_map.
    assert (E : forall a (l : list event), map (fun x : nat * event => fst (let '(k, e) := x in (b + k, row_of (j_scene J) e))) (combine (seq a (length l)) l) = map (fun k => b + k) (seq a (length l))).
    { intros a l; revert a. induction l as [|y l IH]; intros a; simpl; [reflexivity|]. now rewrite IH. }
    rewrite E. apply FinFun.Injective_map_NoDup; [intros x y H; lia|apply seq_NoDup].
  - intros i i' x _ _ H H'. apply in_map_iff in H. destruct H as ([? w] & <- & H). apply in_map_iff in H'. destruct H' as ([x' w'] & E & H').
    simpl in *. subst x'. apply in_row_writes in H. apply in_row_writes in H'.
    destruct H as (b & k & e & Hb & _ & E1 & _ & Hk). destruct H' as (b' & k' & e' & Hb' & _ & E2 & _ & Hk').
    apply base_some in Hb. apply base_some in Hb'. destruct Hb as (He & Hi & ->). destruct Hb' as (_ & Hi' & ->).
    rewrite Hi, Hi'. f_equal.
    assert (D : forall q k, k < j_max_events J -> (q * j_max_events J + k) / j_max_events J = q).
    { intros q k0 H0. rewrite Nat.div_add_l by lia. rewrite Nat.div_small by lia. lia. }
    rewrite <- (D (i / j_every J) k Hk), <- (D (i' / j_every J) k' Hk'). congruence.
Qed.
Lemma counts_nodup J n : NoDup (map fst (flat_map (count_writes J) (seq 0 n))).
Proof.
  rewrite flat_map_concat_map, concat_map, map_map, <- flat_map_concat_map.
  apply nodup_flat_map; [apply seq_NoDup| |].
  - intros i _. unfold count_writes. destruct (base J i); simpl; repeat constructor; intros [].
  - intros i i' x _ _. unfold count_writes. destruct (base J i) eqn:E; [|intros []]. destruct (base J i') eqn:E'; [|intros _ []].
    simpl. intros [<-|[]] [H|[]]. apply base_some in E. apply base_some in E'. destruct E as (_ & -> & _). destruct E' as (_ & -> & _). now f_equal.
Qed.

Lemma executed_log J threads M : deal J threads -> executes J threads M ->
  forall x, m_log M x = written (fun _ => blank) (flat_map (row_writes J) (seq 0 (length (j_rays J)))) x.
Proof.
  intros Hd (steps & Hi & ->) x. rewrite log_written. symmetry. apply written_perm; [apply rows_nodup|].
  apply Permutation_sym. eapply rows_perm; eauto.
Qed.
Lemma executed_counts J threads M : deal J threads -> executes J threads M ->
  forall j, m_counts M j = written (fun _ => 0) (flat_map (count_writes J) (seq 0 (length (j_rays J)))) j.
Proof.
  intros Hd (steps & Hi & ->) j. rewrite counts_written. symmetry. apply written_perm; [apply counts_nodup|].
  apply Permutation_sym. eapply counts_perm; eauto.
Qed.

(** What the log of slot j holds *)
Lemma slot_log J threads M i k e : deal J threads -> executes J threads M -> i < length (j_rays J) ->
  forall b, base J i = Some b -> nth_error (logged J i) k = Some e -> m_log M (b + k) = row_of (j_scene J) e.
Proof.
  intros Hd He Hi b Hb Hk. rewrite (executed_log J threads M Hd He). apply written_at; [apply rows_nodup|].
  apply in_flat_map. exists i. split; [apply in_seq; lia|]. now apply row_writes_in.
Qed.
Lemma slot_count J threads M i : deal J threads -> executes J threads M -> i < length (j_rays J) ->
  forall b, base J i = Some b -> m_counts M (i / j_every J) = length (logged J i).
Proof.
  intros Hd He Hi b Hb. rewrite (executed_counts J threads M Hd He). apply written_at; [apply counts_nodup|].
  apply in_flat_map. exists i. split; [apply in_seq; lia|]. unfold count_writes. rewrite Hb. now left.
Qed.

(** ** Well-formed events *)
Definition ok_node (K : kscene) (x : option nat) : Prop := match x with Some n => n < k_nodes K | None => True end.
Definition ok_comp (K : kscene) (n k : nat) : Prop := n < k_nodes K /\ k < length (k_comps K n).
Definition ok_source (K : kscene) (l : nat) (s : src) : Prop := match s with Light x => x = l | Emitter n k => ok_comp K n k end.
Definition ok_event (K : kscene) (l : nat) (e : event) : Prop :=
  ok_source K l (source (e_ray e)) /\ ok_node K (e_hit e) /\ ok_node K (e_container e) /\ ok_node K (e_adjacent e) /\
  (match e_comp e with Some k => exists c, e_container e = Some c /\ ok_comp K c k | None => True end) /\
  (match e_kind e with REFLECT | TRANSMIT => e_normal e <> None | _ => e_normal e = None end).

Lemma all_hits_nodes K p d x : In x (all_hits K p d) -> fst x < k_nodes K.
Proof.
  unfold all_hits. intros H. apply in_flat_map in H. destruct H as (n & Hn & Hx). apply in_map_iff in Hx.
  destruct Hx as (t & <- & _). apply in_seq in Hn. simpl. lia.
Qed.
Lemma hit_table_nodes K p d i : i < length (hit_table K p d) -> n_at (hit_table K p d) i < k_nodes K.
Proof.
  intros H. unfold n_at. apply (all_hits_nodes K p d).
  assert (In (nth i (hit_table K p d) (0, 0%R)) (hit_table K p d)) by now apply nth_In.
  assert (G : forall x, In x (hit_table K p d) -> In x (all_hits K p d)).
  { intros x Hx. unfold hit_table in Hx. rewrite <- (firstn_skipn MAX_HITS (all_hits K p d)). apply in_or_app. now left. }
  now apply G.
Qed.
Lemma k_first_lt h : h <> [] -> k_first h < length h.
Proof.
  intros H. unfold k_first. assert (L : 0 < length h) by (destruct h; [congruence|simpl; lia]).
  assert (G : forall l a, a < length h -> (forall i, In i l -> i < length h) ->
    fold_left (fun first i => if Rltb (t_of h i) (t_of h first) then i else first) l a < length h).
  { induction l as [|i l IH]; intros a Ha Hl; simpl; [exact Ha|]. apply IH; [|intros; apply Hl; now right].
    destruct (Rltb _ _); [apply Hl; now left|exact Ha]. }
  apply G; [exact L|]. intros i Hi. apply in_seq in Hi. lia.
Qed.
Lemma k_second_lt h f s : k_second h f = Some s -> s < length h.
Proof.
  unfold k_second. assert (G : forall l a, (forall x, a = Some x -> x < length h) -> (forall i, In i l -> i < length h) -> forall s,
    fold_left (fun second i => if Nat.eqb i f then second else match second with None => Some i | Some s => if Rltb (t_of h i) (t_of h s) then Some i else second end) l a = Some s -> s < length h).
  { induction l as [|i l IH]; intros a Ha Hl x; simpl; [apply Ha|]. apply IH; [|intros; apply Hl; now right].
    intros y Hy. destruct (Nat.eqb i f); [now apply Ha|]. destruct a as [b|].
    - destruct (Rltb _ _); [injection Hy as <-; apply Hl; now left|now apply Ha].
    - injection Hy as <-. apply Hl. now left. }
  apply G; [discriminate|]. intros i Hi. apply in_seq in Hi. lia.
Qed.
Lemma k_container_lt K p d c : k_container K p d = Some c -> c < k_nodes K.
Proof.
  unfold k_container. assert (G : forall l a, (forall x, fst a = Some x -> x < k_nodes K) -> (forall i, In i l -> i < k_nodes K) -> forall c,
    fst (fold_left (fun (acc : option nat * option R) n => let ts := node_ts K p d n in
         if Nat.eqb (length ts) 1 && lt_best (node_min ts) (snd acc) then (Some n, node_min ts) else acc) l a) = Some c -> c < k_nodes K).
  { induction l as [|i l IH]; intros a Ha Hl x; simpl; [apply Ha|]. apply IH; [|intros; apply Hl; now right].
    intros y. destruct (_ && _); [|apply Ha]. simpl. intros Hy. injection Hy as <-. apply Hl. now left. }
  apply G; [discriminate|]. intros i Hi. apply in_seq in Hi. lia.
Qed.
Lemma next_hit_nodes K p d h c a t : k_next_hit K p d = Some (h, c, a, t) -> h < k_nodes K /\ c < k_nodes K /\ ok_node K a.
Proof.
  unfold k_next_hit. destruct (hit_table K p d) as [|x l] eqn:Eh; [discriminate|]. rewrite <- Eh.
  assert (Hf : k_first (hit_table K p d) < length (hit_table K p d)) by (apply k_first_lt; congruence).
  pose proof (hit_table_nodes K p d _ Hf) as Hh.
  destruct (Nat.eqb (length (hit_table K p d)) 1).
  - intros E. injection E as <- <- <- <-. simpl. auto.
  - intros E. cbv zeta in E. injection E as <- E2 E3 _. split; [exact Hh|].
    assert (Hc : c < k_nodes K).
    { subst c. destruct (k_container K p d) eqn:Ec; [eapply k_container_lt; eauto|exact Hh]. }
    split; [exact Hc|]. rewrite <- E3. simpl. destruct (Nat.eqb _ _); [|exact Hh].
    destruct (k_second _ _) eqn:Es; [|exact Hh]. apply hit_table_nodes. eapply k_second_lt; eauto.
Qed.


Ltac okev := repeat (apply Forall_cons || apply Forall_nil); unfold ok_event;
  cbn [e_kind e_ray e_hit e_container e_adjacent e_comp e_normal source ok_node ok_source k_propagate with_direction];
  repeat (assumption || exact I || discriminate || reflexivity || split || (eexists; split; [reflexivity|assumption])).

Lemma pass_events K ms m u count r l : ok_source K l (source r) ->
  match k_pass K ms m u count r with
  | KNan => True
  | KStop evs _ => Forall (ok_event K l) evs
  | KContinue evs _ r' => Forall (ok_event K l) evs /\ ok_source K l (source r')
  end.
Proof.
  intros Hs. unfold k_pass. destruct (k_next_hit K (position r) (direction r)) as [[[[h c] a] t0]|] eqn:En; [|constructor].
  destruct (next_hit_nodes _ _ _ _ _ _ _ En) as (Hh & Hc & Ha).
  destruct (Nat.ltb ms count); [okev|].
  destruct (Nat.eqb h (k_root K)); [okev|].
  assert (G : match k_surface K u h c a t0 r with
    | KNan => True | KStop evs _ => Forall (ok_event K l) evs
    | KContinue evs _ r' => Forall (ok_event K l) evs /\ ok_source K l (source r') end).
  { unfold k_surface. cbv zeta. destruct a as [b|]; [|okev].
    destruct (if k_fresnel K h then _ else _) as [refl|]; [|exact I].
    destruct (k_is_reflected _ _); [split; [okev|exact Hs]|].
    destruct (if k_fresnel K h then _ else _); [|exact I]. split; [okev|exact Hs]. }
  destruct (k_depth _ _) as [x|]; [|exact G]. destruct (Rltb x t0); [|exact G].
  unfold k_absorb. cbv zeta. destruct (nth_error (k_comps K c) _) as [[cm ph]|] eqn:Ek; [|exact I].
  set (k := k_select _ _) in *. clearbody k.
  assert (Hk : ok_comp K c k) by (split; [exact Hc|apply nth_error_Some; congruence]).
  destruct (k_is_radiative _ _ _).
  - destruct (c_kind cm); try destruct (c_ems cm); try exact I;
      (split; [okev|exact Hk]).
  - destruct (c_kind cm); okev.
Qed.

Lemma record_forall (P : event -> Prop) b log e : Forall P log -> P e -> Forall P (record b log e).
Proof. intros H He. unfold record. destruct b; [|exact H]. destruct (Nat.leb _ _); [exact H|]. apply Forall_app; auto. Qed.
Lemma records_forall (P : event -> Prop) b evs : forall log, Forall P log -> Forall P evs -> Forall P (fold_left (record b) evs log).
Proof. induction evs as [|e evs IH]; intros log H He; simpl; [exact H|]. inversion He; subst. apply IH; [now apply record_forall|assumption]. Qed.
Lemma loop_events K b ms m us l : forall fuel count log r, ok_source K l (source r) -> Forall (ok_event K l) log ->
  Forall (ok_event K l) (log_of (k_loop fuel K b ms m us count log r)).
Proof.
  induction fuel as [|fuel IH]; intros count log r Hs Hl; [exact Hl|]. cbn [k_loop].
  destruct (budget_spent b log).
  - apply record_forall; [exact Hl|]. repeat split; simpl; auto.
  - pose proof (pass_events K ms m (us (S count)) (S count) r l Hs) as Hp.
    destruct (k_pass _ _ _ _ _ _) as [evs ts|evs ts r'|]; [|..|exact Hl].
    + apply records_forall; assumption.
    + destruct Hp as [Hp Hr]. specialize (IH (S count) (fold_left (record b) evs log) r' Hr (records_forall _ b evs log Hl Hp)).
      destruct (k_loop _ _ _ _ _ _ _ _ _) as [[lg t] st]. exact IH.
Qed.
Lemma trace_events fuel K b ms m us r l : source r = Light l -> Forall (ok_event K l) (log_of (trace_one fuel K b ms m us r)).
Proof.
  intros H. unfold trace_one. assert (Hs : ok_source K l (source r)) by (rewrite H; reflexivity).
  apply loop_events; [exact Hs|]. apply record_forall; [constructor|]. repeat split; simpl; auto.
Qed.

(** ** Decoding *)
Definition entry_of (e : event) : entry :=
  Entry (e_ray e) (e_kind e) (e_hit e) (e_container e) (e_adjacent e)
    (match e_container e, e_comp e with Some c, Some k => Some (c, k) | _, _ => None end) (e_normal e).

Lemma kind_round_trip k : event_of_code (kind_code k) = Some k.
Proof. destruct k; reflexivity. Qed.
Lemma start_length K n : length (flat_map (fun n => map (pair n) (seq 0 (length (k_comps K n)))) (seq 0 n)) = comp_start K n.
Proof.
  unfold comp_start. induction (seq 0 n) as [|m l IH]; simpl; [reflexivity|]. now rewrite app_length, map_length, seq_length, IH.
Qed.
Lemma nth_error_seq n : forall a k, k < n -> nth_error (seq a n) k = Some (a + k).
Proof. induction n as [|n IH]; intros a k H; [lia|]. destruct k as [|k]; simpl; [f_equal; lia|]. rewrite IH by lia. f_equal. lia. Qed.
Lemma component_at K n k : ok_comp K n k -> nth_error (component_names K) (comp_start K n + k) = Some (n, k).
Proof.
  intros [Hn Hk]. unfold component_names. replace (k_nodes K) with (n + S (k_nodes K - S n)) by lia.
  rewrite seq_app, flat_map_app. simpl seq. simpl flat_map. rewrite nth_error_app2 by (rewrite start_length; lia).
  rewrite start_length. replace (comp_start K n + k - comp_start K n) with k by lia.
  rewrite nth_error_app1 by (rewrite map_length, seq_length; exact Hk). rewrite nth_error_map, nth_error_seq by exact Hk. reflexivity.
Qed.
Lemma name_at_code K x : ok_node K x -> name_at (node_names K) (code x) = Some x.
Proof.
  intros H. unfold name_at, code. destruct x as [n|]; [|reflexivity]. destruct (Z.ltb_spec (Z.of_nat n) 0); [lia|].
  rewrite Nat2Z.id. unfold node_names. rewrite nth_error_seq by exact H. reflexivity.
Qed.
Lemma name_at_comp K n k : ok_comp K n k -> name_at (component_names K) (comp_code K n k) = Some (Some (n, k)).
Proof.
  intros H. unfold name_at, comp_code. destruct (Z.ltb_spec (Z.of_nat (comp_start K n + k)) 0); [lia|].
  rewrite Nat2Z.id. now rewrite component_at.
Qed.

Lemma decode_row K sources i l e : ok_event K l e -> nth_error sources i = Some l ->
  decode K sources (Some i) (row_of K e) = Some (entry_of e).
Proof.
  intros (Hs & Hh & Hc & Ha & Hk & Hn) Hl. unfold decode.
  destruct e as [kd r h c a k n]. cbn [e_kind e_ray e_hit e_container e_adjacent e_comp e_normal row_of w_kind w_hit w_container w_adjacent w_component w_source w_position w_direction w_normal w_wavelength w_travelled w_duration] in *.
  assert (Es : (if (match source r with Light _ => -1 | Emitter n0 k0 => comp_code K n0 k0 end <? 0)%Z
      then bind (Some i) (fun i0 => bind (nth_error sources i0) (fun l0 => Some (Light l0)))
      else bind (name_at (component_names K) (match source r with Light _ => -1 | Emitter n0 k0 => comp_code K n0 k0 end)) (fun c0 =>
               match c0 with Some (n0, k0) => Some (Emitter n0 k0) | None => None end)) = Some (source r)).
  { destruct (source r) as [x|n0 k0]; simpl in Hs.
    - simpl. rewrite Hl. now subst.
    - unfold comp_code at 1. destruct (Z.ltb_spec (Z.of_nat (comp_start K n0 + k0)) 0); [lia|]. rewrite name_at_comp by exact Hs. reflexivity. }
  rewrite Es. cbn [bind]. rewrite kind_round_trip. cbn [bind]. rewrite !name_at_code by assumption. cbn [bind].
  assert (Ec : name_at (component_names K) (match c with Some c0 => match k with Some k0 => comp_code K c0 k0 | None => (-1)%Z end | None => (-1)%Z end) =
    Some (match c with Some c0 => match k with Some k0 => Some (c0, k0) | None => None end | None => None end)).
  { destruct k as [k|]; [|destruct c; reflexivity]. destruct Hk as (c0 & -> & Hk). now apply name_at_comp. }
  rewrite Ec. cbn [bind]. unfold entry_of; cbn [e_kind e_ray e_hit e_container e_adjacent e_comp e_normal].
  f_equal. destruct r; simpl. f_equal. destruct kd; try (subst n; reflexivity); destruct n; congruence.
Qed.

Lemma all_some_map {A B} (f : A -> option B) (g : A -> B) l : (forall a, In a l -> f a = Some (g a)) -> all_some (map f l) = Some (map g l).
Proof. induction l as [|a l IH]; intros H; simpl; [reflexivity|]. rewrite H by now left. simpl. rewrite IH by (intros; apply H; now right). reflexivity. Qed.

(** The recorded rays: slot j holds ray j * every *)
Lemma multiples q n : 0 < q -> filter (fun i => Nat.eqb (i mod q) 0) (seq 0 n) = map (fun j => j * q) (seq 0 ((n + q - 1) / q)).
Proof.
  intros Hq. induction n as [|n IH].
  - rewrite (Nat.div_small (0 + q - 1)) by lia. reflexivity.
  - rewrite seq_snoc, filter_app, IH. simpl. destruct (Nat.eqb_spec (n mod q) 0) as [E|E].
    + assert (En : n = q * (n / q)) by (apply Nat.div_exact; lia). set (x := n / q) in *.
      replace (n + q - 1) with (x * q + (q - 1)) by lia. replace (S (n + q - 1)) with (S x * q + 0) by lia.
      replace (n + q - 0) with (S x * q + 0) by lia.
      rewrite !Nat.div_add_l by lia. rewrite (Nat.div_small (q - 1)) by lia. rewrite Nat.div_0_l by lia. rewrite !Nat.add_0_r.
      rewrite seq_snoc, map_app. simpl. f_equal. f_equal. lia.
    + rewrite app_nil_r. f_equal. f_equal.
      pose proof (Nat.div_mod_eq n q) as D. pose proof (Nat.mod_upper_bound n q ltac:(lia)). set (x := n / q) in *. set (y := n mod q) in *.
      replace (n + q - 1) with (S x * q + (y - 1)) by lia. replace (n + q - 0) with (S x * q + y) by lia.
      rewrite !Nat.div_add_l by lia. rewrite !Nat.div_small by lia. reflexivity.
Qed.
Lemma recorded_slots J : 0 < j_every J -> recorded_indices J = map (fun j => j * j_every J) (seq 0 (n_recorded J)).
Proof.
  intros H. unfold recorded_indices, n_recorded. destruct (Nat.leb_spec (j_every J) 0); [lia|].
  destruct (Nat.ltb_spec 0 (j_every J)); [|lia]. now apply multiples.
Qed.
Lemma slot_bound J j : 0 < j_every J -> j < n_recorded J -> j * j_every J < length (j_rays J) /\ base J (j * j_every J) = Some (j * j_max_events J) /\ j * j_every J / j_every J = j.
Proof.
  intros He Hj. unfold n_recorded in Hj. destruct (Nat.ltb_spec 0 (j_every J)) as [_|]; [|lia].
  split.
  - set (n := length (j_rays J)) in *. set (q := j_every J) in *.
    assert (H : S j * q <= (n + q - 1) / q * q) by (apply Nat.mul_le_mono_r; lia).
    pose proof (Nat.mul_div_le (n + q - 1) q ltac:(lia)). lia.
  - assert (E : j * j_every J / j_every J = j) by (apply Nat.div_mul; lia). split; [|exact E].
    unfold base. destruct (Nat.ltb_spec 0 (j_every J)); [|lia]. rewrite Nat.mod_mul by lia. simpl. now rewrite E.
Qed.
