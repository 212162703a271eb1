(** C147: which figures the inspector shows beside a recorder. *)
From Coq Require Import Reals List Bool Arith Lia Permutation.
From Verif Require Import Base Vec DistModel MaterialModel TransformModel TracerModel TracerProps KernelModel KernelProofs LogProofs LogProps TallyModel TallyProofs RngModel BundleModel BundleProofs BundleProps
  StreamModel StreamProps LiveModel LiveProofs LiveProps PanelModel.
Import ListNotations.
Open Scope nat_scope.

(** Figures of the recorders [rs]: one for each, under its name, with its histograms. *)
Definition fits (rs : list (nat * recorder)) (fs : list figures) : Prop :=
  Forall2 (fun x f => f_name f = rec_name (snd x) /\ length (f_histograms f) = length (rec_hists (snd x))) rs fs.
Definition bundle_of (e : happening) : option (list figures) :=
  match e with Message (MBundle _ _ fs _) => Some fs | _ => None end.
(** What may happen after the announcement of a run with the recorders [rs], as long as no other run
    sends anything *)
Definition of_run (rs : list (nat * recorder)) (e : happening) : Prop :=
  match e with Message (MStarted _ _) => False | Message (MBundle _ _ fs _) => fits rs fs | _ => True end.
(** The figures received last *)
Fixpoint newest (es : list happening) (old : list figures) : list figures :=
  match es with [] => old | e :: es' => newest es' (match bundle_of e with Some fs => fs | None => old end) end.
(** The plots of the recorder [n] with the histograms [hs] and the values of [f] *)
Definition plots_of (n : nat) (hs : list hspec) (f : figures) : list canvas :=
  map (fun '(i, (h, v)) => Canvas n i (Some (h, v))) (combine (seq 0 (length hs)) (combine hs (f_histograms f))).

Lemma fits_lookup rs fs n : fits rs fs ->
  match meta_of n rs, latest_of n fs with
  | Some hs, Some f => f_name f = n /\ In f fs /\ length (f_histograms f) = length hs
  | None, None => True
  | _, _ => False
  end.
Proof.
  unfold meta_of, latest_of. intros H. induction H as [|x f rs fs [H1 H2] _ IH]; cbn [find]; [exact I|].
  rewrite H1. destruct (Nat.eqb_spec (rec_name (snd x)) n) as [E|_].
  - cbn [option_map]. split; [congruence|]. split; [now left|exact H2].
  - destruct (option_map _ _), (find _ _); try contradiction; [|exact I]. destruct IH as (h1 & h2 & h3). repeat split; auto. now right.
Qed.

(** Drawing plots of [n] numbered from [i] on *)
Lemma draw_some meta latest n hs f (old : nat -> option (hspec * list nat)) : meta_of n meta = Some hs -> latest_of n latest = Some f ->
  length (f_histograms f) = length hs ->
  draw_plots meta latest (map (fun i => Canvas n i (old i)) (seq 0 (length hs))) = (plots_of n hs f, false).
Proof.
  intros Hm Hl Hn. unfold plots_of.
  assert (G : forall k i, i + k = length hs ->
    draw_plots meta latest (map (fun i => Canvas n i (old i)) (seq i k)) =
    (map (fun '(i, (h, v)) => Canvas n i (Some (h, v))) (combine (seq i k) (combine (skipn i hs) (skipn i (f_histograms f)))), false)).
  { induction k as [|k IH]; intros i Hk; [reflexivity|]. cbn [seq map draw_plots c_name c_index]. rewrite Hm, Hl.
    destruct (nth_error (f_histograms f) i) as [v|] eqn:Ev; [|apply nth_error_None in Ev; lia].
    destruct (nth_error hs i) as [h|] eqn:Eh; [|apply nth_error_None in Eh; lia].
    rewrite (IH (S i)) by lia.
    assert (Q : forall (A : Type) (l : list A) j x, nth_error l j = Some x -> skipn j l = x :: skipn (S j) l).
    { clear. intros A l. induction l as [|y l IH]; intros [|j] x H; try discriminate; [now injection H as ->|]. exact (IH j x H). }
    rewrite (Q _ _ _ _ Eh), (Q _ _ _ _ Ev). reflexivity. }
  rewrite (G (length hs) 0) by lia. reflexivity.
Qed.
Lemma plots_of_shape n hs f : length (f_histograms f) = length hs ->
  exists old, plots_of n hs f = map (fun i => Canvas n i (old i)) (seq 0 (length hs)).
Proof.
  intros Hn. unfold plots_of. set (d := nth 0 hs (H1 (Histogram PWavelength 0 0 0))).
  exists (fun i => Some (nth i hs d, nth i (f_histograms f) [])).
  assert (G : forall (l : list hspec) (m : list (list nat)) i, length m = length l ->
     map (fun '(i, (h, v)) => Canvas n i (Some (h, v))) (combine (seq i (length l)) (combine l m)) =
     map (fun j => Canvas n j (Some (nth (j - i) l d, nth (j - i) m []))) (seq i (length l))).
  { induction l as [|h l IH]; intros [|v m] i L; try discriminate; [reflexivity|]. cbn [length seq combine map]. rewrite Nat.sub_diag. cbn [nth]. f_equal.
    injection L as L. rewrite (IH m (S i) L). apply map_ext_in. intros j Hj. apply in_seq in Hj. replace (j - i) with (S (j - S i)) by lia. reflexivity. }
  rewrite (G hs (f_histograms f) 0 Hn). apply map_ext. intros j. now rewrite Nat.sub_0_r.
Qed.

(** What the panel shows: [fs] are the figures drawn, [seen] those that the line above may tell *)
Definition displays (rs : list (nat * recorder)) (fs seen : list figures) (p : panel) : Prop :=
  if p_segment p then
    match p_selected p with
    | None => p_note p = None /\ p_plots p = []
    | Some n =>
        match meta_of n rs, latest_of n fs with
        | Some hs, Some f => p_plots p = plots_of n hs f /\ exists f', In f' seen /\ f_name f' = n /\ p_note p = Some (Stats f')
        | _, _ => p_note p = Some Collect /\ p_plots p = []
        end
    end
  else p_plots p = [].
Definition good (rs : list (nat * recorder)) (fs seen : list figures) (t : nat) (p : panel) : Prop :=
  p_meta p = rs /\ p_latest p = fs /\ p_threw p = t /\ displays rs fs seen p.
(** and the line tells the figures drawn *)
Definition fresh (fs : list figures) (p : panel) : Prop :=
  p_segment p = true -> forall f', p_note p = Some (Stats f') -> In f' fs /\ p_selected p = Some (f_name f').

Lemma render_good rs fs p : p_meta p = rs -> p_latest p = fs -> (fits rs fs \/ fs = []) ->
  good rs fs fs (p_threw p) (render p) /\ (forall n hs f, p_segment (render p) = true -> p_selected (render p) = Some n ->
    meta_of n rs = Some hs -> latest_of n fs = Some f -> p_note (render p) = Some (Stats f)).
Proof.
  intros Hm Hl Hf. unfold render. cbv zeta. set (chosen := match p_selected p with Some n => _ | None => _ end). clearbody chosen.
  destruct (p_segment p) eqn:Es.
  2:{ split; [|cbn; discriminate]. unfold good, displays. cbn. rewrite Hm, Hl. repeat split. }
  destruct chosen as [n|].
  2:{ split; [|cbn; discriminate]. unfold good, displays. cbn. rewrite Hm, Hl. repeat split. }
  unfold build_plots. cbn [p_meta p_latest]. rewrite Hm, Hl.
  assert (Hx : match meta_of n rs, latest_of n fs with Some hs, Some f => f_name f = n /\ In f fs /\ length (f_histograms f) = length hs | _, _ => True end).
  { destruct Hf as [Hf| ->]; [|destruct (meta_of n rs); exact I]. pose proof (fits_lookup rs fs n Hf) as X.
    destruct (meta_of n rs), (latest_of n fs); auto. }
  destruct (meta_of n rs) as [hs|] eqn:E1; [destruct (latest_of n fs) as [f|] eqn:E2|].
  - destruct Hx as (h1 & h2 & h3). rewrite (draw_some rs fs n hs f (fun _ => None) E1 E2 h3).
    unfold good, displays, with_plots. cbn. rewrite E1, E2. split.
    + split; [reflexivity|]. split; [reflexivity|]. split; [lia|]. split; [reflexivity|]. exists f. repeat split; auto.
    + intros n' hs' f' _ [= <-]. rewrite E1, E2. congruence.
  - unfold good, displays. cbn. rewrite E1, E2. split; [repeat split; auto|]. intros n' hs' f' _ [= <-]. congruence.
  - unfold good, displays. cbn. rewrite E1. split; [repeat split; auto|]. intros n' hs' f' _ [= <-]. congruence.
Qed.

Lemma displays_seen rs fs seen seen' p : incl seen seen' -> displays rs fs seen p -> displays rs fs seen' p.
Proof.
  unfold displays. intros Hi. destruct (p_segment p); [|auto]. destruct (p_selected p); [|auto].
  destruct (meta_of _ _); [|auto]. destruct (latest_of _ _); [|auto]. intros (h1 & f' & h2 & h3 & h4). split; [exact h1|]. exists f'. auto.
Qed.

Lemma react_good rs fs seen t p e : (fits rs fs \/ fs = []) -> incl fs seen -> good rs fs seen t p -> of_run rs e ->
  let fs' := match bundle_of e with Some x => x | None => fs end in
  good rs fs' (seen ++ fs') t (react p e) /\ (fits rs fs' \/ fs' = []).
Proof.
  intros Hf Hi (Hm & Hl & Ht & Hd) He fs'.
  assert (Weak : forall q, good rs fs' fs' t q -> good rs fs' (seen ++ fs') t q).
  { intros q (h1 & h2 & h3 & h4). repeat split; auto. eapply displays_seen; [|exact h4]. apply incl_appr, incl_refl. }
  assert (Keep : fs' = fs -> good rs fs' (seen ++ fs') t p).
  { intros E. rewrite E. repeat split; auto. eapply displays_seen; [|exact Hd]. apply incl_appl, incl_refl. }
  assert (Ren : fs' = fs -> forall q, p_meta q = rs -> p_latest q = fs -> p_threw q = t -> good rs fs' (seen ++ fs') t (render q)).
  { intros E q h1 h2 h3. apply Weak. rewrite E. rewrite <- h3. apply (render_good rs fs q h1 h2 Hf). }
  destruct e as [[tot rs'|tr tot fs1 ps| |]|rs'|n|n]; cbn [of_run bundle_of] in *; try contradiction; subst fs'.
  - split; [|now left]. unfold react. cbv zeta. rewrite Hm.
    assert (Dr : exists cs, draw_plots rs fs1 (p_plots p) = (cs, false) /\
       (p_latest p = [] /\ p_segment p = true -> cs = []) /\
       displays rs fs1 (seen ++ fs1) (Panel (p_scene p) (p_segment p) (p_selected p) rs fs1 (p_note p) cs t) \/
       (p_latest p = [] /\ p_segment p = true /\ draw_plots rs fs1 (p_plots p) = ([], false))).
    { unfold displays in *. cbn [p_segment p_selected p_note p_plots] in *. destruct (p_segment p) eqn:Es.
      2:{ exists []. left. rewrite Hd. split; [reflexivity|]. split; reflexivity. }
      destruct (p_selected p) as [n|] eqn:En.
      2:{ destruct Hd as [h1 h2]. exists []. left. rewrite h1, h2. repeat split. }
      destruct (p_latest p) as [|f0 l0] eqn:El.
      - rewrite <- Hl in Hd. cbn in Hd. exists []. right. destruct (meta_of n rs); destruct Hd as [h1 h2]; rewrite h2; repeat split.
      - destruct Hf as [Hf|Hf]; [|congruence]. pose proof (fits_lookup rs fs n Hf) as X. pose proof (fits_lookup rs fs1 n He) as Y.
        destruct (meta_of n rs) as [hs|] eqn:E1.
        + destruct (latest_of n fs) as [f|] eqn:E2; [|contradiction]. destruct (latest_of n fs1) as [f1|] eqn:E3; [|contradiction].
          destruct X as (_ & _ & X3). destruct Y as (_ & _ & Y3). destruct Hd as (h1 & f' & h2 & h3 & h4).
          destruct (plots_of_shape n hs f X3) as [old Eo]. exists (plots_of n hs f1). left. rewrite h1, Eo.
          rewrite (draw_some rs fs1 n hs f1 old E1 E3 Y3). split; [reflexivity|]. split; [intros [? _]; discriminate|].
          split; [reflexivity|]. exists f'. split; [apply in_or_app; now left|]. auto.
        + destruct (latest_of n fs); [contradiction|]. destruct Hd as [h1 h2]. exists []. left. rewrite h1, h2. repeat split. }
    destruct Dr as (cs & [(Ed & Ec & Hd')|(El & Es & Ed)]); rewrite Ed; cbn [snd].
    + destruct (negb _ && p_segment p) eqn:Eb.
      * apply Weak. set (q := with_plots _ _).
        replace t with (p_threw q) by (cbn; lia). apply render_good; auto.
      * unfold good, with_plots. cbn. repeat split; [lia|]. replace (p_threw p + 0) with t by lia. exact Hd'.
    + rewrite El, Es. cbn [negb andb]. apply Weak. set (q := with_plots _ _).
      replace t with (p_threw q) by (cbn; lia). apply render_good; auto.
  - split; [|exact Hf]. cbn [react]. destruct (p_segment p); [|now apply Keep]. now apply Ren.
  - split; [|exact Hf]. cbn [react]. now apply Keep.
  - split; [|exact Hf]. cbn [react]. now apply Ren.
  - split; [|exact Hf]. cbn [react]. now apply Ren.
  - split; [|exact Hf]. cbn [react]. now apply Ren.
Qed.

Lemma no_plots es : p_segment (play panel0 es) = false -> p_plots (play panel0 es) = [].
Proof.
  assert (Rn : forall q, p_segment (render q) = p_segment q /\ (p_segment q = false -> p_plots (render q) = [])).
  { intros q. unfold render. cbv zeta. set (chosen := match p_selected q with Some n => _ | None => _ end). clearbody chosen.
    destruct (p_segment q); [|split; reflexivity]. split; [|discriminate]. destruct chosen; [|reflexivity].
    unfold build_plots. destruct (meta_of _ _); [|reflexivity]. destruct (latest_of _ _); reflexivity. }
  unfold play. rewrite <- (rev_involutive es). induction (rev es) as [|e l IH]; [reflexivity|]. cbn [rev]. rewrite fold_left_app. cbn [fold_left].
  set (p := fold_left react (rev l) panel0) in *. clearbody p.
  destruct e as [[tot rs|tr tot fs ps| |]|rs|n|n]; cbn [react]; cbv zeta.
  - destruct (p_segment p) eqn:E; [intros H; rewrite (proj1 (Rn _)) in H; discriminate|]. cbn. intros _. exact (IH eq_refl).
  - destruct (p_segment p) eqn:E.
    + assert (Q : forall b : bool, p_segment (if b then render (with_plots (Panel (p_scene p) true (p_selected p) (p_meta p) fs (p_note p) (p_plots p) (p_threw p)) (draw_plots (p_meta p) fs (p_plots p)))
        else with_plots (Panel (p_scene p) true (p_selected p) (p_meta p) fs (p_note p) (p_plots p) (p_threw p)) (draw_plots (p_meta p) fs (p_plots p))) = true).
      { intros [|]; [rewrite (proj1 (Rn _))|]; reflexivity. }
      destruct (snd _); [cbn; discriminate|]. rewrite Q. discriminate.
    + rewrite (IH eq_refl), andb_false_r. reflexivity.
  - destruct (p_segment p) eqn:E; [rewrite (proj1 (Rn p)); congruence|]. intros _. exact (IH eq_refl).
  - exact IH.
  - rewrite (proj1 (Rn _)). apply Rn.
  - rewrite (proj1 (Rn _)). cbn. discriminate.
  - intros _. apply Rn. reflexivity.
Qed.
Lemma started_good before total rs : let p := play panel0 before in
  good rs [] [] (p_threw p) (react p (Message (MStarted total rs))).
Proof.
  intros p. pose proof (no_plots before) as N. fold p in N. clearbody p. cbn [react]. destruct (p_segment p) eqn:E.
  - set (q := Panel _ _ _ _ _ _ _ _). change (p_threw p) with (p_threw q). apply render_good; auto.
  - unfold good, displays. cbn. rewrite (N eq_refl). repeat split.
Qed.
Lemma play_good rs : forall es fs seen t p, (fits rs fs \/ fs = []) -> incl fs seen -> good rs fs seen t p -> Forall (of_run rs) es ->
  exists seen', good rs (newest es fs) seen' t (play p es) /\ (fits rs (newest es fs) \/ newest es fs = []) /\
    forall f, In f seen' -> In f seen \/ In f fs \/ exists e x, In e es /\ bundle_of e = Some x /\ In f x.
Proof.
  induction es as [|e es IH]; intros fs seen t p Hf Hi Hg Hes.
  - exists seen. cbn. split; [exact Hg|]. split; [exact Hf|]. auto.
  - inversion Hes as [|? ? He Hes']; subst. destruct (react_good rs fs seen t p e Hf Hi Hg He) as [Hg' Hf'].
    set (fs' := match bundle_of e with Some x => x | None => fs end) in *.
    destruct (IH fs' (seen ++ fs') t (react p e) Hf' (incl_appr _ (incl_refl _)) Hg' Hes') as (seen' & h1 & h2 & h3).
    exists seen'. split; [exact h1|]. split; [exact h2|]. intros f Hin.
    assert (Q : In f fs' -> In f fs \/ exists e0 x, In e0 (e :: es) /\ bundle_of e0 = Some x /\ In f x).
    { unfold fs'. destruct (bundle_of e) as [x|] eqn:Eb; intros H; [|now left]. right. exists e, x. split; [now left|auto]. }
    destruct (h3 f Hin) as [H|[H|(e0 & x & H1 & H2 & H3)]].
    + apply in_app_or in H. destruct H as [H|H]; [now left|]. right. exact (Q H).
    + right. exact (Q H).
    + right. right. exists e0, x. split; [now right|auto].
Qed.

(** From the announcement of a run with the recorders [rs] on, while no other run sends anything, and
    whatever is selected and edited meanwhile: the plots beside the selected recorder show all the
    histograms it had in that run, with the values received last; the line above shows what one of the
    reports of this run said about it.  Without a report, or if the run had no recorder of that name,
    the user is told to run the simulation.  No handler fails. *)
Theorem C147_panel_partial : forall before total rs es n, Forall (of_run rs) es ->
  let p := play panel0 (before ++ Message (MStarted total rs) :: es) in
  p_segment p = true -> p_selected p = Some n ->
  p_threw p = p_threw (play panel0 before) /\
  ((~ In n (names rs) \/ newest es [] = []) -> p_note p = Some Collect /\ p_plots p = []) /\
  (forall node rc f, find (fun x => Nat.eqb (rec_name (snd x)) n) rs = Some (node, rc) -> latest_of n (newest es []) = Some f ->
     p_plots p = plots_of n (rec_hists rc) f /\
     exists e x f', In e es /\ bundle_of e = Some x /\ In f' x /\ f_name f' = n /\ p_note p = Some (Stats f')).
Proof.
  intros before total rs es n Hes p Hs Hn.
  assert (Ep : p = play (react (play panel0 before) (Message (MStarted total rs))) es) by (unfold p, play; rewrite fold_left_app; reflexivity).
  destruct (play_good rs es [] [] _ _ (or_intror eq_refl) (incl_refl _) (started_good before total rs) Hes) as (seen & (G1 & G2 & G3 & G4) & Hf & Hseen).
  rewrite <- Ep in *. unfold displays in G4. rewrite Hs, Hn in G4. split; [exact G3|]. split.
  - intros Hno. destruct Hno as [Hno|Hno].
    + assert (Em : meta_of n rs = None).
      { unfold meta_of. destruct (find _ rs) as [x|] eqn:Ef; [exfalso|reflexivity]. apply find_some in Ef. destruct Ef as [h1 h2].
        apply Nat.eqb_eq in h2. apply Hno. unfold names. apply in_map_iff. exists x. auto. }
      rewrite Em in G4. exact G4.
    + rewrite Hno in G4. cbn in G4. destruct (meta_of n rs); exact G4.
  - intros node rc f Hfind Hl. unfold meta_of in G4. rewrite Hfind, Hl in G4. cbn in G4. destruct G4 as (h1 & f' & h2 & h3 & h4).
    split; [exact h1|]. destruct (Hseen f' h2) as [[]|[[]|(e & x & q1 & q2 & q3)]]. exists e, x, f'. auto.
Qed.
Print Assumptions C147_panel_partial.

(** When the run is done, and whenever the recorder is selected or a scene comes in, the line above
    the plots tells the figures received last. *)
Theorem C147_line_partial : forall before total rs es e n f, Forall (of_run rs) es ->
  match e with Message MDone | Scene _ | Select _ => True | _ => False end ->
  let p := play panel0 (before ++ Message (MStarted total rs) :: es ++ [e]) in
  p_segment p = true -> p_selected p = Some n -> In n (names rs) -> latest_of n (newest es []) = Some f ->
  p_note p = Some (Stats f).
Proof.
  intros before total rs es e n f Hes He p Hs Hn Hin Hl.
  assert (Ep : p = react (play (react (play panel0 before) (Message (MStarted total rs))) es) e).
  { unfold p, play. rewrite fold_left_app. cbn [fold_left]. rewrite fold_left_app. reflexivity. }
  destruct (play_good rs es [] [] _ _ (or_intror eq_refl) (incl_refl _) (started_good before total rs) Hes) as (seen & (G1 & G2 & G3 & G4) & Hf & _).
  set (q := play (react (play panel0 before) (Message (MStarted total rs))) es) in *. clearbody q p. clear G4 Hes.
  assert (Hm : exists hs, meta_of n rs = Some hs).
  { unfold meta_of. unfold names in Hin. apply in_map_iff in Hin. destruct Hin as (x & h1 & h2).
    destruct (find (fun x => Nat.eqb (rec_name (snd x)) n) rs) eqn:Ef; [eexists; reflexivity|]. exfalso.
    pose proof (find_none _ _ Ef x h2) as Q. cbn in Q. apply Nat.eqb_neq in Q. contradiction. }
  destruct Hm as [hs Hm]. subst p.
  assert (R : forall q', p_meta q' = rs -> p_latest q' = newest es [] -> p_segment (render q') = true -> p_selected (render q') = Some n ->
     p_note (render q') = Some (Stats f)).
  { intros q' h1 h2 h3 h4. exact (proj2 (render_good rs (newest es []) q' h1 h2 Hf) n hs f h3 h4 Hm Hl). }
  destruct e as [[tot rs'|tr tot fs1 ps| |]|rs'|m|m]; cbn [react] in *; try contradiction; try (now apply R).
  destruct (p_segment q) eqn:E; [now apply R|congruence].
Qed.
Print Assumptions C147_line_partial.

(** ** A whole run *)
Lemma shows_fits rs A fs : shows rs A fs -> fits rs fs.
Proof.
  unfold shows. destruct (kernel_tables rs) as [[ks rows] total] eqn:Et. intros [L H].
  destruct (tables_ok rs ks rows total Et) as (_ & _ & Lk & Hk & _). unfold fits.
  assert (G : forall r x f, nth_error rs r = Some x -> nth_error fs r = Some f ->
     f_name f = rec_name (snd x) /\ length (f_histograms f) = length (rec_hists (snd x))).
  { intros r [node rc] f Hr Hf. specialize (Hk r node rc Hr). destruct (H r _ f Hk Hf) as (h1 & _ & _ & h2 & _).
    split; [exact h1|]. rewrite h2. unfold engine_result. cbn [r_bins kr_n snd]. now rewrite map_length, seq_length. }
  clear - L G. revert fs L G. induction rs as [|x rs IH]; intros [|f fs] L G; try discriminate; constructor.
  - exact (G 0 x f eq_refl eq_refl).
  - apply IH; [now injection L|]. intros r. exact (G (S r)).
Qed.
Lemma one_task (scene params : Type) specs stream rays max_paths s0 : forall hs p,
  runs hs = [p] ->
  let w := LiveModel.happens scene params specs stream rays max_paths (socket0 (Some s0)) hs in
  map m_content (s_sent w) = sent_by 0 w.
Proof.
  intros hs p Hr. cbv zeta.
  assert (G : forall hs, let w := LiveModel.happens scene params specs stream rays max_paths (socket0 (Some s0)) hs in
     s_scene w <> None /\ length (s_tasks w) = length (runs hs) /\
     Forall (fun m => exists j, m_task m = Some j /\ j < length (s_tasks w)) (s_sent w)).
  { clear. intros hs. unfold LiveModel.happens. rewrite <- (rev_involutive hs). induction (rev hs) as [|h l IH]; [cbn; split; [discriminate|]; split; [reflexivity|constructor]|].
    cbn [rev]. cbv zeta in *. rewrite fold_left_app. cbn [fold_left].
    set (w := fold_left (LiveModel.react scene params specs stream rays max_paths) (rev l) (socket0 (Some s0))) in *. clearbody w.
    destruct IH as (h1 & h2 & h3). unfold runs in *. rewrite flat_map_app, app_length, <- h2. destruct h as [q| |s|i]; cbn [LiveModel.react flat_map app length].
    - destruct (s_scene w) eqn:E; [|congruence]. cbn. rewrite app_length. cbn. split; [congruence|]. split; [reflexivity|].
      eapply Forall_impl; [|exact h3]. intros m (j & q1 & q2). exists j. split; [exact q1|lia].
    - cbn. split; [exact h1|]. split; [lia|exact h3].
    - cbn. split; [discriminate|]. split; [lia|exact h3].
    - destruct (nth_error (s_tasks w) i) as [t|] eqn:Ei; [|split; [exact h1|]; split; [lia|exact h3]].
      destruct (continue_task _ _ _ _ _ _ _ _ t) as [t' out]. cbn. rewrite set_nth_length. split; [exact h1|]. split; [lia|].
      apply Forall_app. split; [exact h3|]. apply Forall_forall. intros m Hm. apply in_map_iff in Hm. destruct Hm as (c & <- & _). exists i. split; [reflexivity|].
      apply nth_error_Some. congruence. }
  specialize (G hs). cbv zeta in G. set (w := LiveModel.happens scene params specs stream rays max_paths (socket0 (Some s0)) hs) in *. clearbody w.
  destruct G as (_ & h2 & h3). rewrite Hr in h2. cbn in h2. unfold sent_by. f_equal. induction h3 as [|m l (j & q1 & q2) _ IH]; [reflexivity|].
  cbn [filter]. rewrite q1. destruct (Nat.eqb_spec j 0); [|lia]. now rewrite <- IH.
Qed.

Lemma newest_map ms : forall old, (forall m, In m ms -> exists t n fs ps, m = MBundle t n fs ps) ->
  forall t n fs ps, newest (map Message (ms ++ [MBundle t n fs ps])) old = fs.
Proof. induction ms as [|m ms IH]; intros old H t n fs ps; [reflexivity|]. cbn [app map newest]. apply IH. intros m' Hm. apply H. now right. Qed.

(** One run in a scene that is left alone, to its end: the inspector then shows, beside every
    recorder, the result of one simulate call on the same rays. *)
Theorem C147_final_partial : forall (scene params : Type) (specs : scene -> list (nat * recorder)) stream (rays max_paths : params -> nat)
    J bundle execs threads M s0 hs p before n r node rc ks rows total k,
  1 <= bundle -> (j_every J = 0 \/ Nat.divide (j_every J) bundle) -> 1 <= length (j_rays J) ->
  bundle_runs J bundle execs -> Permutation (concat threads) (seq 0 (length (j_rays J))) -> executes J threads M ->
  specs s0 = j_recorders J -> stream s0 p = map Some (engine_data J bundle execs) ->
  runs hs = [p] -> ~ In Stop hs -> (forall s, ~ In (Apply s) hs) ->
  let w := LiveModel.happens scene params specs stream rays max_paths (socket0 (Some s0)) hs in
  In MDone (map m_content (s_sent w)) ->
  let page := play panel0 (before ++ map (fun m => Message (m_content m)) (s_sent w)) in
  p_segment page = true -> p_selected page = Some n ->
  NoDup (names (j_recorders J)) -> nth_error (j_recorders J) r = Some (node, rc) -> rec_name rc = n ->
  kernel_tables (j_recorders J) = (ks, rows, total) -> nth_error ks r = Some k ->
  let x := engine_result rows k r (merged (length threads) M) in
  exists f, p_note page = Some (Stats f) /\ p_plots page = plots_of n (rec_hists rc) f /\
    f_rays f = r_rays x /\ f_crossings f = r_cross x /\ f_histograms f = r_bins x /\
    (r_rays x <> 0 -> mean x 0 = Some (f_mean_wavelength f) /\ mean x 1 = Some (f_mean_angle f)).
Proof.
  intros scene params specs stream rays max_paths J bundle execs threads M s0 hs p before n r node rc ks rows total k
    Hb He Hn Hr Hd Hx Hs Hst Hruns Hstop Happ w Hdone page Hseg Hsel Hnd Hnth Hname Et Hk x.
  assert (Hi : nth_error (runs hs) 0 = Some p) by (rewrite Hruns; reflexivity).
  pose proof (one_task scene params specs stream rays max_paths s0 hs p Hruns) as Eo. cbv zeta in Eo. fold w in Eo.
  rewrite Eo in Hdone.
  destruct (C92_final_report scene params specs stream rays max_paths J bundle execs threads M s0 hs 0 p Hb He Hn Hr Hd Hx Hs Hst Hi Hstop Happ Hdone)
    as (pre & fs & ps & E1 & Sh). fold w in E1.
  destruct (C92_reports scene params specs stream rays max_paths s0 hs 0 p Hi) as [E|(c & u & ds & ms & rest & ending & Hc & _ & _ & E & L & R & En)]; fold w in E.
  { rewrite E in Hdone. destruct Hdone. }
  assert (c = s0) as ->.
  { destruct Hc as [<-|H]; [reflexivity|]. exfalso. apply in_flat_map in H. destruct H as (h & Hh & H).
    destruct h as [?| |s'|?]; cbn in H; try contradiction. exact (Happ s' Hh). }
  assert (Bms : forall m, In m ms -> exists t n fs ps, m = MBundle t n fs ps).
  { intros m Hm. apply In_nth_error in Hm. destruct Hm as [i Hm]. destruct (R i m Hm) as (d & fs' & ps' & _ & -> & _). eauto. }
  assert (Fms : Forall (of_run (j_recorders J)) (map Message ms)).
  { apply Forall_forall. intros e Hin. apply in_map_iff in Hin. destruct Hin as (m & <- & Hm). apply In_nth_error in Hm. destruct Hm as [i Hm].
    destruct (R i m Hm) as (d & fs' & ps' & _ & -> & S'). cbn. rewrite <- Hs. now apply shows_fits in S'. }
  rewrite E1 in E. assert (ending = [MDone]) as ->.
  { destruct En as [->|[-> _]]; [exfalso|reflexivity]. rewrite app_nil_r in E. change (pre ++ [MBundle (length (j_rays J)) (rays p) fs ps; MDone]) with (pre ++ [MBundle (length (j_rays J)) (rays p) fs ps] ++ [MDone]) in E.
    rewrite app_assoc in E. destruct ms as [|m0 ms0] using rev_ind; [destruct pre as [|? [|? ?]]; discriminate|].
    rewrite app_comm_cons in E. apply app_inj_tail in E. destruct E as [_ E]. destruct (Bms m0 ltac:(apply in_or_app; right; now left)) as (? & ? & ? & ? & Q). congruence. }
  assert (Ems : exists ms', ms = ms' ++ [MBundle (length (j_rays J)) (rays p) fs ps]).
  { change (pre ++ [MBundle (length (j_rays J)) (rays p) fs ps; MDone]) with (pre ++ [MBundle (length (j_rays J)) (rays p) fs ps] ++ [MDone]) in E.
    rewrite app_assoc, app_comm_cons in E. apply app_inj_tail in E. destruct E as [E _].
    destruct ms as [|m0 ms0 _] using rev_ind; [destruct pre as [|? [|? ?]]; discriminate|]. rewrite app_comm_cons in E. apply app_inj_tail in E. destruct E as [_ <-]. now exists ms0. }
  destruct Ems as [ms' Ems].
  assert (Nw : newest (map Message ms) [] = fs).
  { rewrite Ems. apply newest_map. intros m Hm. apply Bms. rewrite Ems. apply in_or_app. now left. }
  assert (Epage : page = play panel0 (before ++ Message (MStarted (rays p) (j_recorders J)) :: map Message ms ++ [Message MDone])).
  { unfold page. rewrite <- (map_map m_content Message), Eo, E1, E, Hs. cbn [map]. rewrite map_app. reflexivity. }
  assert (Fit : fits (j_recorders J) fs) by (now apply shows_fits in Sh).
  assert (Hfind : find (fun y => Nat.eqb (rec_name (snd y)) n) (j_recorders J) = Some (node, rc) /\ exists f, nth_error fs r = Some f /\ latest_of n fs = Some f).
  { clear - Fit Hnd Hnth Hname. revert r Hnth. unfold latest_of. induction Fit as [|y f rs fs [h1 h2] _ IH]; intros [|r] Hr; try discriminate.
    - injection Hr as ->. cbn [snd] in *. cbn [find snd]. rewrite h1, Hname, Nat.eqb_refl. split; [reflexivity|]. exists f. now split.
    - cbn in Hr. cbn [names map] in Hnd. inversion Hnd as [|? ? Hno Hnd']; subst. destruct (IH Hnd' r Hr) as (q1 & f' & q2 & q3).
      assert (Ne : Nat.eqb (rec_name (snd y)) (rec_name rc) = false).
      { apply Nat.eqb_neq. intros Q. apply Hno. rewrite Q. apply in_map_iff. exists (node, rc). split; [reflexivity|]. eapply nth_error_In, Hr. }
      cbn [find]. rewrite h1, Ne. split; [exact q1|]. exists f'. split; [exact q2|exact q3]. }
  destruct Hfind as (Hfind & f & Hf & Hl).
  assert (Hin : In n (names (j_recorders J))) by (unfold names; apply in_map_iff; exists (node, rc); split; [exact Hname|eapply nth_error_In, Hnth]).
  exists f. rewrite Epage in Hseg, Hsel |- *. split.
  - apply (C147_line_partial before (rays p) (j_recorders J) (map Message ms) (Message MDone) n f Fms I Hseg Hsel Hin). rewrite Nw. exact Hl.
  - assert (Fes : Forall (of_run (j_recorders J)) (map Message ms ++ [Message MDone])) by (apply Forall_app; split; [exact Fms|repeat constructor]).
    destruct (C147_panel_partial before (rays p) (j_recorders J) _ n Fes Hseg Hsel) as (_ & _ & Q).
    assert (Nw' : newest (map Message ms ++ [Message MDone]) [] = fs).
    { rewrite <- Nw. generalize (@nil figures). clear. induction (map Message ms) as [|e l IH]; intros old; [reflexivity|]. cbn [app newest]. apply IH. }
    rewrite Nw' in Q. destruct (Q node rc f Hfind Hl) as [Q1 _]. split; [exact Q1|].
    unfold shows in Sh. rewrite Et in Sh. destruct Sh as [_ Sh]. destruct (Sh r k f Hk Hf) as (_ & s2 & s3 & s4 & s5 & _). fold x in s2, s3, s4, s5. auto.
Qed.
Print Assumptions C147_final_partial.

(** ** Counterexamples *)
(** A recorder with one histogram in a scene, and another scene with a recorder of the same name
    at another node, with other bins. *)
Definition wavelength_bins : hspec := H1 (Histogram PWavelength 400 800 2).
Definition angle_bins : hspec := H1 (Histogram PAngle 0 1 2).
Definition shown_scene : list (nat * recorder) := [(1, Recorder 5 Entering None 0 [wavelength_bins])].
Definition edited_scene : list (nat * recorder) := [(2, Recorder 5 Escaping None 0 [angle_bins])].
Definition bigger_scene : list (nat * recorder) := [(2, Recorder 5 Escaping None 0 [angle_bins; wavelength_bins])].
Definition report (k : nat) : list figures := [Figures 5 (3 * k) (4 * k) 500 1 [[k; 2 * k]]].
Definition bundle (k : nat) : happening := Message (MBundle (10 * k) 30 (report k) []).
Definition started_run : list happening := [Scene shown_scene; Select (Some 5); Message (MStarted 30 shown_scene)].

(** While a run is under way the line above the plots keeps the counts of the first report. *)
Theorem C147_line_refuted : exists es, Forall (of_run shown_scene) es /\
  let p := play panel0 (started_run ++ es) in
  p_selected p = Some 5 /\ p_note p = Some (Stats (Figures 5 3 4 500 1 [[1; 2]])) /\
  p_plots p = [Canvas 5 0 (Some (wavelength_bins, [2; 4]))] /\ p_latest p = [Figures 5 6 8 500 1 [[2; 4]]].
Proof.
  exists [bundle 1; bundle 2]. split; [repeat constructor|]. cbn. repeat split.
Qed.
Print Assumptions C147_line_refuted.

(** After an edit without a new run the inspector shows, under the name of a recorder of the new
    scene, the figures of the recorder that had that name in the old scene. *)
Theorem C147_scene_refuted : exists es, Forall (of_run shown_scene) es /\
  let p := play panel0 (started_run ++ es) in
  p_scene p = edited_scene /\ p_selected p = Some 5 /\ meta_of 5 (p_scene p) = Some [angle_bins] /\
  p_note p = Some (Stats (Figures 5 3 4 500 1 [[1; 2]])) /\ p_plots p = [Canvas 5 0 (Some (wavelength_bins, [1; 2]))].
Proof.
  exists [bundle 1; Message MDone; Scene edited_scene]. split; [repeat constructor|]. cbn. repeat split.
Qed.
Print Assumptions C147_scene_refuted.

(** Stop and run after an edit, as reactive mode does, while the first run waits for a bundle (C93):
    the report of the first run is drawn over the bins of the second scene; if the recorder has more
    histograms than before, the handler fails. *)
Definition two_runs (s : list (nat * recorder)) : list msg :=
  s_sent (LiveModel.happens (list (nat * recorder)) nat (fun s => s)
    (fun s _ => [Some (BData (Acc (fun _ => 7) (fun _ => 7) (fun _ => 0%R) (fun i => i + 1)) 0 8 (fun _ => 0) (fun _ => blank) 10)])
    (fun p => p) (fun _ => 2) (socket0 (Some shown_scene)) [Run 30; Continue 0; Continue 0; Stop; Apply s; Run 30; Continue 1; Continue 0]).
Definition page_of (s : list (nat * recorder)) : panel :=
  play panel0 ([Scene shown_scene; Select (Some 5)] ++ map (fun m => Message (m_content m)) (firstn 1 (two_runs s)) ++
    [Scene s] ++ map (fun m => Message (m_content m)) (skipn 1 (two_runs s))).
Theorem C147_mixed_refuted :
  (let p := page_of edited_scene in
   p_scene p = edited_scene /\ p_meta p = edited_scene /\ p_plots p = [Canvas 5 0 (Some (angle_bins, [1; 2]))] /\
   exists f, p_note p = Some (Stats f) /\ f_rays f = 7) /\
  p_threw (page_of bigger_scene) = 1.
Proof.
  split; [|reflexivity]. cbn. repeat split. eexists. split; reflexivity.
Qed.
Print Assumptions C147_mixed_refuted.

(** ** The recorder that is shown *)
Definition choice (items : list nat) (sel : option nat) : option nat :=
  match sel with Some n => if existsb (Nat.eqb n) items then Some n else hd_error items | None => hd_error items end.
Lemma build_same n p : p_scene (build_plots n p) = p_scene p /\ p_segment (build_plots n p) = p_segment p /\ p_selected (build_plots n p) = p_selected p.
Proof. unfold build_plots. destruct (meta_of _ _); [destruct (latest_of _ _)|]; repeat split. Qed.
Lemma render_same p : p_scene (render p) = p_scene p /\ p_segment (render p) = p_segment p /\
  p_selected (render p) = if p_segment p then choice (names (p_scene p)) (p_selected p) else p_selected p.
Proof.
  unfold render. cbv zeta. fold (choice (names (p_scene p)) (p_selected p)).
  destruct (p_segment p) eqn:Es; [|now repeat split].
  destruct (choice _ _) as [n|] eqn:Ec; [|now repeat split]. match goal with |- context [build_plots n ?q] => destruct (build_same n q) as (-> & -> & ->) end. now repeat split.
Qed.
Lemma choice_in items n : In n items -> choice items (Some n) = Some n.
Proof. intros H. unfold choice. enough (existsb (Nat.eqb n) items = true) as -> by reflexivity. apply existsb_exists. exists n. split; [exact H|apply Nat.eqb_refl]. Qed.
Lemma choice_good items sel : match choice items sel with Some n => In n items | None => items = [] end.
Proof.
  assert (H : match hd_error items with Some n => In n items | None => items = [] end) by (destruct items; [reflexivity|now left]).
  unfold choice. destruct sel as [n|]; [|exact H]. destruct (existsb (Nat.eqb n) items) eqn:E; [|exact H].
  apply existsb_exists in E. destruct E as (m & Hm & Em). apply Nat.eqb_eq in Em. now subst.
Qed.
Lemma choice_none items sel : match sel with Some n => ~ In n items | None => True end -> choice items sel = hd_error items.
Proof.
  destruct sel as [n|]; [|reflexivity]. intros H. unfold choice. destruct (existsb (Nat.eqb n) items) eqn:E; [|reflexivity].
  apply existsb_exists in E. destruct E as (m & Hm & Em). apply Nat.eqb_eq in Em. now subst.
Qed.
Definition valid_choice (p : panel) : Prop :=
  p_segment p = true -> match p_selected p with Some n => In n (names (p_scene p)) | None => p_scene p = [] end.
Lemma render_valid p : valid_choice (render p).
Proof.
  destruct (render_same p) as (E1 & E2 & E3). intros Hs. rewrite E2 in Hs. rewrite E1, E3, Hs. pose proof (choice_good (names (p_scene p)) (p_selected p)) as G.
  destruct (choice _ _); [exact G|]. now apply map_eq_nil in G.
Qed.
Lemma react_valid p e : valid_choice p -> valid_choice (react p e).
Proof.
  intros H. destruct e as [c|rs|n|n]; try apply render_valid. destruct c; cbn [react]; try exact H.
  - destruct (p_segment p) eqn:Es; [apply render_valid|]. intros Hs. cbn in Hs. congruence.
  - cbv zeta. destruct (snd _); [exact H|]. destruct (_ && _); [apply render_valid|exact H].
  - destruct (p_segment p); [apply render_valid|exact H].
Qed.
Lemma play_valid es : forall p, valid_choice p -> valid_choice (play p es).
Proof. induction es as [|e es IH]; intros p H; [exact H|]. apply IH, react_valid, H. Qed.

(** While the recorders are listed, the one that is shown is one of the scene, and none only if the
    scene has none.  A click on a recorder of the scene shows that one; a new scene and the
    messages of a run leave the choice as it is as long as the scene has a recorder of that name,
    otherwise the first recorder of the list is shown. *)
Theorem C147_selection : forall es,
  let p := play panel0 es in
  (p_segment p = true -> match p_selected p with Some n => In n (names (p_scene p)) | None => p_scene p = [] end) /\
  (forall n, In n (names (p_scene p)) -> p_selected (react p (Select (Some n))) = Some n /\ p_segment (react p (Select (Some n))) = true) /\
  (forall c, p_selected (react p (Message c)) = p_selected p /\ p_scene (react p (Message c)) = p_scene p) /\
  (forall rs, p_segment p = true -> p_scene (react p (Scene rs)) = rs /\
     p_selected (react p (Scene rs)) = match p_selected p with
                                       | Some n => if in_dec Nat.eq_dec n (names rs) then Some n else hd_error (names rs)
                                       | None => hd_error (names rs) end).
Proof.
  intros es p. assert (V : valid_choice p) by (apply play_valid; intros H; discriminate H). clearbody p. split; [exact V|]. split; [|split].
  - intros n Hn. cbn [react]. match goal with |- context [render ?q] => destruct (render_same q) as (_ & -> & ->) end. cbn. split; [now apply choice_in|reflexivity].
  - assert (R : forall q, p_scene q = p_scene p -> p_segment q = p_segment p -> p_selected q = p_selected p -> p_segment p = true ->
        p_selected (render q) = p_selected p /\ p_scene (render q) = p_scene p).
    { intros q E1 E2 E3 Es. destruct (render_same q) as (-> & _ & ->). rewrite E1, E2, E3, Es. split; [|reflexivity]. specialize (V Es).
      destruct (p_selected p) as [n|]; [now apply choice_in|]. now rewrite V. }
    intros c. destruct c; cbn [react]; try (split; reflexivity).
    + destruct (p_segment p) eqn:Es; [|split; reflexivity]. now apply R.
    + cbv zeta. destruct (snd _); [split; reflexivity|]. destruct (p_segment p) eqn:Es; [|rewrite andb_false_r; split; reflexivity].
      rewrite andb_true_r. destruct (negb _); [|split; reflexivity]. now apply R.
    + destruct (p_segment p) eqn:Es; [|split; reflexivity]. now apply R.
  - intros rs Es. cbn [react]. match goal with |- context [render ?q] => destruct (render_same q) as (-> & _ & ->) end. cbn. rewrite Es. split; [reflexivity|].
    destruct (p_selected p) as [n|]; [|reflexivity]. destruct (in_dec Nat.eq_dec n (names rs)) as [Hi|Hi]; [now apply choice_in|now apply choice_none].
Qed.
Print Assumptions C147_selection.

Example C147_example :
  let p := play panel0 (started_run ++ [bundle 1; bundle 2; Elsewhere None; bundle 3; Select None; Message MDone; Scene shown_scene]) in
  p_note p = Some (Stats (Figures 5 9 12 500 1 [[3; 6]])) /\ p_plots p = [Canvas 5 0 (Some (wavelength_bins, [3; 6]))] /\ p_threw p = 0.
Proof. repeat split. Qed.

(** The run of a real job: two rays in an empty world, one a bundle, and a recorder at the world. *)
Definition job2 : job :=
  Job k_world [(0, Recorder 5 Exit None 0 [wavelength_bins])] [start; start] 7 (fun _ _ _ => mid_draws) 5 4 KT 0.
Lemma sequential J : exists M, executes J [seq 0 (length (j_rays J))] M.
Proof.
  eexists. exists (concat (thread_steps J [seq 0 (length (j_rays J))])). split; [|reflexivity]. unfold thread_steps. cbn [length seq combine map concat].
  rewrite app_nil_r. induction (flat_map _ _) as [|x l IH]; [apply inter_nil; repeat constructor|]. exact (inter_cons [] x l [] l IH).
Qed.
Example C147_final_example : exists (M : memory) stream,
  let w := LiveModel.happens unit nat (fun _ => j_recorders job2) stream (fun p => p) (fun _ => 2) (socket0 (Some tt)) (Run 2 :: repeat (Continue 0) 5) in
  let page := play panel0 ([Scene (j_recorders job2); Select None] ++ map (fun m => Message (m_content m)) (s_sent w)) in
  executes job2 [[0; 1]] M /\ length (stream tt 2) = 2 /\
  exists f ks rows total k, kernel_tables (j_recorders job2) = (ks, rows, total) /\ nth_error ks 0 = Some k /\
    p_note page = Some (Stats f) /\ f_rays f = r_rays (engine_result rows k 0 (merged 1 M)).
Proof.
  destruct (sequential job2) as [M X]. destruct (sequential (bundle_job job2 0 1)) as [M0 X0]. destruct (sequential (bundle_job job2 1 1)) as [M1 X1].
  exists M. set (execs := [([[0]], M0); ([[0]], M1)]).
  set (data := map Some (engine_data job2 1 execs)). exists (fun _ _ => data). intros w page.
  split; [exact X|]. split; [reflexivity|].
  destruct (kernel_tables (j_recorders job2)) as [[ks rows] total] eqn:Et.
  destruct (tables_ok _ _ _ _ Et) as (_ & _ & _ & Hk & _). specialize (Hk 0 0 (Recorder 5 Exit None 0 [wavelength_bins]) eq_refl).
  set (k := KRec _ _ _ _) in Hk.
  destruct (C147_final_partial unit nat (fun _ => j_recorders job2) (fun _ _ => data) (fun p => p) (fun _ => 2)
    job2 1 execs [[0; 1]] M tt (Run 2 :: repeat (Continue 0) 5) 2 [Scene (j_recorders job2); Select None] 5 0 0
    (Recorder 5 Exit None 0 [wavelength_bins]) ks rows total k) as (f & h1 & _ & h2 & _).
  - lia.
  - now left.
  - cbn. lia.
  - unfold bundle_runs. change (stream_bundles job2 1) with [(0, 1); (1, 1)]. constructor; [split; [apply Permutation_refl|exact X0]|].
    constructor; [split; [apply Permutation_refl|exact X1]|constructor].
  - apply Permutation_refl.
  - exact X.
  - reflexivity.
  - reflexivity.
  - reflexivity.
  - cbn. intuition discriminate.
  - intros s. cbn. intuition discriminate.
  - cbn. tauto.
  - reflexivity.
  - reflexivity.
  - repeat constructor. intros [].
  - reflexivity.
  - reflexivity.
  - exact Et.
  - exact Hk.
  - exists f, ks, rows, total, k. auto.
Qed.
