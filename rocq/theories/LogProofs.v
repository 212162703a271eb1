(** The event log of one ray: what the event budget does to it. *)
From Coq Require Import Reals Lra List Bool Arith Lia.
From Verif Require Import Base Vec Interp DistModel MaterialModel OpticsModel PhaseModel TransformModel GeomModel
  TracerModel TracerProofs KernelModel KernelProofs.
Import ListNotations.
Open Scope R_scope.

(** The loop without any log: every event, every tally call. *)
Fixpoint free_run (fuel : nat) (K : kscene) (ms : nat) (m : emit_method) (us : nat -> draws) (count : nat) (r : ray)
    : list event * list tally_call * kstatus :=
  match fuel with
  | O => ([], [], KRunning)
  | S fuel' =>
      match k_pass K ms m (us (S count)) (S count) r with
      | KNan => ([], [], KBroken)
      | KStop evs ts => (evs, ts, KDone)
      | KContinue evs ts r' =>
          let '(l, t, st) := free_run fuel' K ms m us (S count) r' in (evs ++ l, ts ++ t, st)
      end
  end.

Lemma k_pass_shape K ms m u count r :
  match k_pass K ms m u count r with
  | KNan => True
  | KStop evs ts => (length evs <= 2)%nat /\ ((ms < count)%nat -> (length evs <= 1)%nat)
  | KContinue evs ts r' => (count <= ms)%nat /\
      (interaction (kinds evs) /\ (length evs <= 2)%nat)
  end.
Proof.
  unfold k_pass. destruct (k_next_hit _ _ _) as [[[[h c] a] t0]|]; [|simpl; lia].
  destruct (Nat.ltb_spec ms count) as [Hc|Hc]; [simpl; lia|].
  destruct (Nat.eqb h (k_root K)); [simpl; lia|].
  assert (Hs : match k_surface K u h c a t0 r with
    | KNan => True | KStop evs ts => (length evs <= 2)%nat /\ ((ms < count)%nat -> (length evs <= 1)%nat)
    | KContinue evs ts r' => (count <= ms)%nat /\ (interaction (kinds evs) /\ (length evs <= 2)%nat) end).
  { unfold k_surface. cbv zeta. destruct a as [b|]; [|simpl; lia].
    destruct (if k_fresnel K h then _ else _) as [refl|]; [|exact I].
    destruct (k_is_reflected _ _); [simpl; repeat split; try lia; constructor|].
    destruct (if k_fresnel K h then _ else _); [|exact I]. simpl. repeat split; try lia; constructor. }
  destruct (k_depth _ _) as [x|]; [|exact Hs]. destruct (Rltb x t0); [|exact Hs].
  unfold k_absorb. cbv zeta. destruct (nth_error _ _) as [[cm ph]|]; [|exact I].
  destruct (k_is_radiative _ _ _).
  - destruct (c_kind cm); try destruct (c_ems cm); simpl; try exact I; repeat split; try lia; constructor.
  - destruct (c_kind cm); simpl; lia.
Qed.

(** Without a log nothing depends on the budget. *)
Lemma unlogged fuel K ms m us : forall count log r,
  k_loop fuel K None ms m us count log r = (log, snd (fst (free_run fuel K ms m us count r)), snd (free_run fuel K ms m us count r)).
Proof.
  induction fuel as [|fuel IH]; intros count log r; simpl; [reflexivity|].
  assert (F : forall evs l, fold_left (record None) evs l = l) by (induction evs; simpl; auto).
  destruct (k_pass _ _ _ _ _ _) as [evs ts|evs ts r'|]; simpl; rewrite ?F; try reflexivity.
  rewrite IH. destruct (free_run fuel K ms m us (S count) r') as [[l t] st]. reflexivity.
Qed.

Lemma fill_log b evs : forall log, (length log + length evs <= b)%nat -> fold_left (record (Some b)) evs log = log ++ evs.
Proof.
  induction evs as [|e evs IH]; intros log H; simpl in *; [now rewrite app_nil_r|].
  destruct (Nat.leb_spec b (length log)); [lia|]. rewrite IH by (rewrite app_length; simpl; lia). now rewrite <- app_assoc.
Qed.

Definition kill_of (r : ray) : event := Event KILL r None None None None None.

(** What the budget leaves of a run: either all of it, or a prefix followed, if there is
    room, by a KILL record. *)
Inductive cut (b : nat) (log : list event) (full : list event * list tally_call * kstatus) :
    list event * list tally_call * kstatus -> Prop :=
| cut_none evs ts st : full = (evs, ts, st) -> cut b log full (log ++ evs, ts, st)
| cut_kill evs ts st pre rest pts trest r : full = (evs, ts, st) -> evs = pre ++ rest -> ts = pts ++ trest ->
    (length (log ++ pre) + 1 = b)%nat -> cut b log full (log ++ pre ++ [kill_of r], pts, KBudget)
| cut_silent evs ts st pre rest pts trest : full = (evs, ts, st) -> evs = pre ++ rest -> ts = pts ++ trest ->
    (length (log ++ pre) = b)%nat ->
    (pre = [] \/ exists p a e, pre = p ++ [a; e] /\ e_kind a = ABSORB /\ (e_kind e = EMIT \/ e_kind e = SCATTER)) ->
    cut b log full (log ++ pre, pts, KBudget).

Lemma interaction_last evs : interaction (kinds evs) -> length evs = 2%nat ->
  exists a e, evs = [a; e] /\ e_kind a = ABSORB /\ (e_kind e = EMIT \/ e_kind e = SCATTER).
Proof.
  intros H Hl. destruct evs as [|a [|e [|? ?]]]; try discriminate. exists a, e. split; [reflexivity|].
  unfold kinds in H. simpl in H. inversion H; auto.
Qed.

Lemma loop_cut K b ms m us : forall fuel count log r, (length log <= b)%nat ->
  cut b log (free_run fuel K ms m us count r) (k_loop fuel K (Some b) ms m us count log r).
Proof.
  induction fuel as [|fuel IH]; intros count log r Hl.
  - simpl. rewrite <- (app_nil_r log) at 2. apply cut_none. reflexivity.
  - simpl k_loop. destruct (Nat.leb_spec b (length log + 1)) as [Hb|Hb].
    + destruct (free_run (S fuel) K ms m us count r) as [[evs ts] st] eqn:E. unfold record.
      destruct (Nat.leb_spec b (length log)).
      * replace log with (log ++ []) at 2 by apply app_nil_r.
        apply (cut_silent b log _ evs ts st [] evs [] ts); auto. rewrite app_nil_r. lia.
      * change (log ++ [Event KILL r None None None None None]) with (log ++ [] ++ [kill_of r]).
        apply (cut_kill b log _ evs ts st [] evs [] ts r); auto. rewrite app_nil_r. lia.
    + pose proof (k_pass_shape K ms m (us (S count)) (S count) r) as Hs. simpl free_run.
      destruct (k_pass K ms m (us (S count)) (S count) r) as [evs ts|evs ts r'|].
      * rewrite fill_log by lia. now apply cut_none.
      * destruct Hs as (_ & Hi & H2). rewrite fill_log by lia.
        assert (Hl' : (length (log ++ evs) <= b)%nat) by (rewrite app_length; lia).
        specialize (IH (S count) (log ++ evs) r' Hl').
        destruct (free_run fuel K ms m us (S count) r') as [[l t] st'].
        inversion IH as [e1 t1 s1 E|e1 t1 s1 pre rest pts trest rk E Ee Et Hlen|e1 t1 s1 pre rest pts trest E Ee Et Hlen Hlast]; subst.
        -- injection E as -> -> ->. replace ((log ++ evs) ++ e1) with (log ++ (evs ++ e1)) by apply app_assoc. now apply cut_none.
        -- injection E as E1 E2 E3; subst. replace ((log ++ evs) ++ pre ++ [kill_of rk]) with (log ++ (evs ++ pre) ++ [kill_of rk]) by (now rewrite <- !app_assoc).
           apply (cut_kill _ log _ (evs ++ pre ++ rest) (ts ++ pts ++ trest) s1 (evs ++ pre) rest (ts ++ pts) trest rk); auto.
           ++ now rewrite app_assoc.
           ++ now rewrite app_assoc.
           ++ rewrite !app_length in *. lia.
        -- injection E as E1 E2 E3; subst. replace ((log ++ evs) ++ pre) with (log ++ (evs ++ pre)) by apply app_assoc.
           apply (cut_silent _ log _ (evs ++ pre ++ rest) (ts ++ pts ++ trest) s1 (evs ++ pre) rest (ts ++ pts) trest); auto.
           ++ now rewrite app_assoc.
           ++ now rewrite app_assoc.
           ++ right. destruct Hlast as [->|(p & a & e & -> & Ha & He)].
              ** rewrite app_nil_r in *. rewrite !app_length in Hb. cbn [length] in Hb.
                 destruct (interaction_last evs Hi) as (a & e & -> & Ha & He); [lia|].
                 exists [], a, e. simpl. auto.
              ** exists (evs ++ p), a, e. split; [now rewrite app_assoc|auto].
      * rewrite <- (app_nil_r log) at 2. now apply cut_none.
Qed.

(** The number of events of a run is bounded by the step budget. *)
Lemma free_run_length K ms m us : forall fuel count r,
  (length (fst (fst (free_run fuel K ms m us count r))) <= 2 * (ms - count) + 1)%nat.
Proof.
  induction fuel as [|fuel IH]; intros count r; simpl; [lia|].
  pose proof (k_pass_shape K ms m (us (S count)) (S count) r) as Hs.
  destruct (k_pass K ms m (us (S count)) (S count) r) as [evs ts|evs ts r'|]; simpl; [|..|lia].
  - destruct Hs as [H2 H1]. destruct (Nat.lt_ge_cases ms (S count)); [specialize (H1 H); lia|lia].
  - destruct Hs as (Hc & _ & H2). specialize (IH (S count) r').
    destruct (free_run fuel K ms m us (S count) r') as [[l t] st]. simpl in *. rewrite app_length. lia.
Qed.

Lemma free_run_status K ms m us : forall fuel count r, snd (free_run fuel K ms m us count r) <> KBudget.
Proof.
  induction fuel as [|fuel IH]; intros count r; simpl; [discriminate|].
  destruct (k_pass K ms m (us (S count)) (S count) r) as [e t|e t q'|]; try discriminate.
  specialize (IH (S count) q'). now destruct (free_run fuel K ms m us (S count) q') as [[l t'] st].
Qed.
