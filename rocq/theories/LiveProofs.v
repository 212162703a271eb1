(** Lemmas about simulation runs in the studio. *)
From Coq Require Import Reals ZArith List Bool Arith Lia Lra.
From Verif Require Import Base Vec TracerModel KernelModel TallyModel TallyProofs BundleModel BundleProofs LiveModel.
Import ListNotations.
Open Scope nat_scope.

(** The arrays of several bundles added entry by entry *)
Definition summed (ds : list bdata) : acc :=
  Acc (fun i => list_sum (map (fun d => a_distinct (bd_acc d) i) ds)) (fun i => list_sum (map (fun d => a_cross (bd_acc d) i) ds))
      (fun i => fold_right Rplus 0%R (map (fun d => a_sums (bd_acc d) i) ds)) (fun i => list_sum (map (fun d => a_bins (bd_acc d) i) ds)).
(** [fs] is what EngineResult.recorders (api.py 118-137) reads out of the arrays [A] *)
Definition shows (rs : list (nat * recorder)) (A : acc) (fs : list figures) : Prop :=
  let '(ks, rows, _) := kernel_tables rs in
  length fs = length rs /\
  forall r k f, nth_error ks r = Some k -> nth_error fs r = Some f ->
    let x := engine_result rows k r A in
    f_name f = rec_name (kr_rec k) /\ f_rays f = r_rays x /\ f_crossings f = r_cross x /\ f_histograms f = r_bins x /\
    (r_rays x <> 0 -> mean x 0 = Some (f_mean_wavelength f) /\ mean x 1 = Some (f_mean_angle f)) /\
    (r_rays x = 0 -> f_mean_wavelength f = fst (moment x 0) /\ f_mean_angle f = fst (moment x 1)).

Lemma summed_snoc ds d : acc_eq (acc_add (summed ds) (bd_acc d)) (summed (ds ++ [d])).
Proof.
  unfold summed, acc_add, acc_eq. cbn [a_distinct a_cross a_sums a_bins].
  repeat split; intros i; rewrite !map_app; try (rewrite !list_sum_app; cbn; lia).
  induction ds as [|x l IH]; cbn; [lra|]. cbn in IH. rewrite <- IH. lra.
Qed.
Lemma slice_ext f g o n : (forall i, f i = g i) -> slice f o n = slice g o n.
Proof. intros H. unfold slice. now apply map_ext. Qed.
Lemma payload_acc_eq rs A B : acc_eq A B -> recorder_payload rs A = recorder_payload rs B.
Proof.
  intros (H1' & H2' & H3' & H4'). unfold recorder_payload. destruct (compile_recorders rs 0 0) as [[ks rows] total].
  apply map_ext. intros [r k]. unfold payload_entry. rewrite H1', H2', !H3'. f_equal.
  apply map_ext. intros [h [a|a b]]; cbn [payload_histogram]; unfold payload_histogram; now apply slice_ext.
Qed.

Lemma map_combine_seq {A B} (f : nat -> A -> B) (l : list A) : forall a r x, nth_error l r = Some x ->
  nth_error (map (fun '(i, y) => f i y) (combine (seq a (length l)) l)) r = Some (f (a + r) x).
Proof.
  induction l as [|y l IH]; intros a [|r] x H; cbn in *; try discriminate.
  - injection H as ->. now rewrite Nat.add_0_r.
  - rewrite (IH (S a) r x H). do 2 f_equal. lia.
Qed.
Lemma combine_seq_length {A B} (f : nat * A -> B) (l : list A) a : length (map f (combine (seq a (length l)) l)) = length l.
Proof. rewrite map_length, combine_length, seq_length. lia. Qed.

Lemma payload_shows rs A : shows rs A (recorder_payload rs A).
Proof.
  unfold shows, recorder_payload. change (compile_recorders rs 0 0) with (kernel_tables rs).
  destruct (kernel_tables rs) as [[ks rows] total] eqn:E.
  destruct (tables_ok rs ks rows total E) as (Erows & Etot & Elen & Hks & _ & _).
  split.
  - rewrite combine_seq_length. exact Elen.
  - intros r k f Hk Hf. cbv zeta.
    rewrite (map_combine_seq (fun r k => payload_entry rows r k A) ks 0 r k Hk) in Hf. cbn [Nat.add] in Hf. injection Hf as <-.
    assert (Hr : exists nd rc, nth_error rs r = Some (nd, rc)).
    { destruct (nth_error rs r) as [[nd rc]|] eqn:Er; [eauto|]. exfalso. apply nth_error_None in Er.
      assert (r < length ks) by (apply nth_error_Some; congruence). lia. }
    destruct Hr as (nd & rc & Hr).
    assert (Ek : k = KRec nd rc (first_hist rs r) (length (rec_hists rc))) by (specialize (Hks r nd rc Hr); congruence).
    unfold payload_entry, engine_result, mean, moment. cbn [f_name f_rays f_crossings f_histograms f_mean_wavelength f_mean_angle r_rays r_cross r_bins r_moments].
    split; [reflexivity|]. split; [reflexivity|]. split; [reflexivity|]. split.
    { rewrite Ek. cbn [kr_rec kr_start kr_n].
      assert (G : forall (l : list hspec) a, (forall h s, nth_error l h = Some s -> nth_error (specs rs) (first_hist rs r + (a + h)) = Some s) ->
        map (fun '(h, spec) => payload_histogram rows (first_hist rs r) A h spec) (combine (seq a (length l)) l) =
        map (fun h => let row := nth (first_hist rs r + h) rows default_row in slice (a_bins A) (hr_offset row) (hr_na row * hr_nb row)) (seq a (length l))).
      { induction l as [|s l IH]; intros a Hl; [reflexivity|]. cbn [length seq combine map]. f_equal.
        - specialize (Hl 0 s eq_refl). rewrite Nat.add_0_r in Hl. destruct (hist_rows_spec (specs rs) 0) as (_ & _ & N).
          unfold payload_histogram. rewrite Erows, (N _ s default_row Hl).
          destruct (row_size s (off (specs rs) 0 (first_hist rs r + a))) as [-> ->]. destruct s; reflexivity.
        - apply IH. intros h t Ht. specialize (Hl (S h) t Ht). rewrite <- Hl. f_equal. lia. }
      apply G. intros h s Hs. cbn [Nat.add]. apply (nth_specs rs r nd rc h s Hr Hs). }
    change (nth 0 (map (fun i => (a_sums A (r * 8 + 2 * i), a_sums A (r * 8 + 2 * i + 1))) (seq 0 4)) (0, 0)%R)
      with (a_sums A (r * 8 + 0), a_sums A (r * 8 + 0 + 1)).
    change (nth 1 (map (fun i => (a_sums A (r * 8 + 2 * i), a_sums A (r * 8 + 2 * i + 1))) (seq 0 4)) (0, 0)%R)
      with (a_sums A (r * 8 + 2), a_sums A (r * 8 + 2 + 1)).
    cbn [fst]. split; intros Hn.
    + destruct (Nat.eqb_spec (a_distinct A r) 0); [contradiction|]. rewrite Nat.max_l by lia. split; reflexivity.
    + rewrite Hn. cbn [Nat.max INR]. split; lra.
Qed.

(** ** Rounding *)
Lemma rint_near x : (Rabs (IZR (rint x) - x) <= 1 / 2)%R.
Proof.
  unfold rint. destruct (archimed x) as [U1 U2]. set (u := up x) in *. clearbody u.
  assert (E : IZR (u - 1) = (IZR u - 1)%R) by (rewrite minus_IZR; reflexivity).
  assert (E' : IZR (u - 1 + 1) = IZR u) by (f_equal; lia).
  destruct (Rltb (x - IZR (u - 1)) (1 / 2)) eqn:C1.
  - apply Rltb_true in C1. rewrite E in *. apply Rabs_le. lra.
  - apply Rltb_false in C1. destruct (Rltb (1 / 2) (x - IZR (u - 1))) eqn:C2.
    + apply Rltb_true in C2. rewrite E', E in *. apply Rabs_le. lra.
    + apply Rltb_false in C2. destruct (Z.even (u - 1)); rewrite ?E', ?E in *; apply Rabs_le; lra.
Qed.
Lemma np_round_near x n : (Rabs (np_round x n - x) <= 1 / 2 / 10 ^ n)%R.
Proof.
  assert (P : (0 < 10 ^ n)%R) by (apply pow_lt; lra). unfold np_round.
  replace (IZR (rint (x * 10 ^ n)) / 10 ^ n - x)%R with ((IZR (rint (x * 10 ^ n)) - x * 10 ^ n) / 10 ^ n)%R by (field; lra).
  unfold Rdiv at 1. rewrite Rabs_mult, (Rabs_right (/ 10 ^ n)) by (apply Rle_ge, Rlt_le, Rinv_0_lt_compat, P).
  apply Rmult_le_compat_r; [apply Rlt_le, Rinv_0_lt_compat, P|]. apply rint_near.
Qed.

(** ** Paths *)
Lemma flat_map_le {A B} (f : A -> list B) l : (forall a, length (f a) <= 1) -> length (flat_map f l) <= length l.
Proof. intros H. induction l as [|a l IH]; cbn; [lia|]. rewrite app_length. specialize (H a). lia. Qed.
Lemma extract_limit d limit : length (extract_paths d limit) <= limit.
Proof.
  unfold extract_paths. etransitivity; [apply flat_map_le|rewrite seq_length; lia].
  intros j. destruct (Nat.ltb (bd_counts d j) 2); cbn; lia.
Qed.

(** ** Tasks *)
Section Tasks.
Variables (scene params : Type) (specs : scene -> list (nat * recorder)) (stream : scene -> params -> list (option bdata))
          (rays max_paths : params -> nat).
Let socket := socket scene params.
Let happens := happens scene params specs stream rays max_paths.
Let react := react scene params specs stream rays max_paths.
Let happening := happening scene params.

(** What task [i] has sent *)
Definition sent_by (i : nat) (w : socket) : list content :=
  map m_content (filter (fun m => match m_task m with Some j => Nat.eqb j i | None => false end) (s_sent w)).
(** The runs started *)
Definition runs (hs : list happening) : list params := flat_map (fun h => match h with Run p => [p] | _ => [] end) hs.
(** The scenes that were in force at some time *)
Definition scenes_of (s0 : scene) (hs : list happening) : list scene := s0 :: flat_map (fun h => match h with Apply s => [s] | _ => [] end) hs.

Definition paths_in (c : content) : nat := match c with MBundle _ _ _ ps => length ps | _ => 0 end.
(** one bundle message *)
Definition is_report (p : params) (c : scene) (ds : list bdata) (k : nat) (m : content) : Prop :=
  exists d fs ps, nth_error ds k = Some d /\ m = MBundle (bd_traced d) (rays p) fs ps /\
    shows (specs c) (summed (firstn (S k) ds)) fs /\ (exists n, ps = extract_paths d n) .
Definition reports (p : params) (c : scene) (ds : list bdata) (ms : list content) : Prop :=
  length ms = length ds /\ (forall k m, nth_error ms k = Some m -> is_report p c ds k m) /\ list_sum (map paths_in ms) <= max_paths p.

(** what a task has sent, by its state *)
Definition follows (ss : list scene) (stopped : Prop) (p : params) (t : task scene params) (out : list content) : Prop :=
  match t with
  | Created q => q = p /\ out = []
  | Announced q c => q = p /\ In c ss /\ out = [MStarted (rays p) (specs c)]
  | Tracing q c u rest tot sent =>
      q = p /\ In c ss /\ In u ss /\
      exists ds ms, stream u p = map Some ds ++ rest /\ out = MStarted (rays p) (specs c) :: ms /\ reports p c ds ms /\
        acc_eq tot (summed ds) /\ sent = list_sum (map paths_in ms) /\ (ds <> [] -> same_shape scene specs c u = true)
  | Ended => exists c u ds ms rest, In c ss /\ In u ss /\ stream u p = map Some ds ++ rest /\
      out = MStarted (rays p) (specs c) :: ms ++ [MDone] /\ reports p c ds ms /\ (rest = [] \/ stopped) /\ (ds <> [] -> same_shape scene specs c u = true)
  | Crashed => exists c u ds ms x rest, In c ss /\ In u ss /\ stream u p = map Some ds ++ x :: rest /\
      out = MStarted (rays p) (specs c) :: ms /\ reports p c ds ms /\ (x = None \/ same_shape scene specs c u = false) /\ (ds <> [] -> same_shape scene specs c u = true)
  end.
Lemma follows_mono ss ss' (P P' : Prop) p t out : incl ss ss' -> (P -> P') -> follows ss P p t out -> follows ss' P' p t out.
Proof.
  intros H I. destruct t; cbn; auto.
  - intros (A & B & C). auto.
  - intros (A & B & C & D). auto.
  - intros (c & u & ds & ms & rest & A & B & C & D & E & F & G). exists c, u, ds, ms, rest. do 5 (split; [auto|]). split; [tauto|auto].
  - intros (c & u & ds & ms & x & rest & A & B & C). exists c, u, ds, ms, x, rest. auto.
Qed.

Lemma set_nth_length {A} (l : list A) : forall i x, length (set_nth l i x) = length l.
Proof. induction l as [|y l IH]; intros [|i] x; cbn; auto. Qed.
Lemma set_nth_at {A} (l : list A) : forall i x, i < length l -> nth_error (set_nth l i x) i = Some x.
Proof. induction l as [|y l IH]; intros [|i] x H; cbn in *; try lia; [reflexivity|]. apply IH. lia. Qed.
Lemma set_nth_other {A} (l : list A) : forall i j x, i <> j -> nth_error (set_nth l i x) j = nth_error l j.
Proof. induction l as [|y l IH]; intros [|i] [|j] x H; cbn in *; try lia; try reflexivity. apply IH. lia. Qed.

Lemma sent_snoc i w out : sent_by i (Socket (s_scene w) (s_stop w) (s_tasks w) (s_sent w ++ map (Msg (Some i)) out)) = sent_by i w ++ out.
Proof.
  unfold sent_by. cbn [s_sent]. rewrite filter_app, map_app. f_equal. induction out as [|c out IH]; [reflexivity|].
  cbn. rewrite Nat.eqb_refl. cbn. now rewrite IH.
Qed.
Lemma sent_other i j scn st ts l out : j <> i -> sent_by i (Socket scn st ts (l ++ map (Msg (Some j)) out)) = sent_by i (Socket scn st ts l).
Proof.
  intros H. unfold sent_by. cbn [s_sent]. rewrite filter_app, map_app. rewrite <- app_nil_r. f_equal. induction out as [|c out IH]; [reflexivity|].
  cbn. destruct (Nat.eqb_spec j i); [contradiction|]. exact IH.
Qed.
Lemma sent_app i scn st ts l l' out : sent_by i (Socket scn st ts l) = sent_by i (Socket scn st ts l') ->
  sent_by i (Socket scn st ts (l ++ out)) = sent_by i (Socket scn st ts l') ++ map m_content (filter (fun m => match m_task m with Some j => Nat.eqb j i | None => false end) out).
Proof. unfold sent_by. cbn [s_sent]. intros <-. now rewrite filter_app, map_app. Qed.

Lemma firstn_snoc {A} (l : list A) x : forall k, k <= length l -> firstn k (l ++ [x]) = firstn k l.
Proof. intros k H. rewrite firstn_app. replace (k - length l) with 0 by lia. cbn. now rewrite app_nil_r. Qed.

Lemma reports_snoc p c ds ms d paths n : reports p c ds ms -> paths = extract_paths d n ->
  list_sum (map paths_in ms) + length paths <= max_paths p ->
  forall tot, acc_eq tot (summed ds) ->
  reports p c (ds ++ [d]) (ms ++ [MBundle (bd_traced d) (rays p) (recorder_payload (specs c) (acc_add tot (bd_acc d))) paths]).
Proof.
  intros (L & H & S0) E Hs tot Ht. split; [|split].
  - rewrite !app_length. cbn. lia.
  - intros k m Hk. destruct (Nat.lt_ge_cases k (length ms)) as [Hlt|Hge].
    + rewrite nth_error_app1 in Hk by exact Hlt. destruct (H k m Hk) as (d' & fs & ps & N & Em & Sh & P).
      exists d', fs, ps. split; [|split; [exact Em|split; [|exact P]]].
      * rewrite nth_error_app1 by lia. exact N.
      * rewrite firstn_snoc by lia. exact Sh.
    + rewrite nth_error_app2 in Hk by exact Hge. destruct (k - length ms) as [|x] eqn:D; [|destruct x; discriminate Hk].
      injection Hk as <-. do 3 eexists. split; [|split; [reflexivity|split; [|now exists n]]].
      * rewrite nth_error_app2 by lia. replace (k - length ds) with 0 by lia. reflexivity.
      * rewrite firstn_all2 by (rewrite app_length; cbn; lia).
        rewrite (payload_acc_eq (specs c) _ (summed (ds ++ [d]))); [apply payload_shows|].
        eapply acc_eq_trans; [|apply summed_snoc]. apply acc_add_eq; [exact Ht|apply acc_eq_refl].
  - rewrite map_app, list_sum_app. cbn. lia.
Qed.

Lemma continue_follows ss P p t out scn stop t' new : follows ss P p t out -> (exists s, scn = Some s /\ In s ss) -> (stop = true -> P) ->
  continue_task scene params specs stream rays max_paths scn stop t = (t', new) -> follows ss P p t' (out ++ new).
Proof.
  intros F (s & -> & Hs) Hst. destruct t as [q|q c|q c u rest tot sent| |]; cbn [continue_task].
  - destruct F as (-> & ->). intros E. injection E as <- <-. cbn. auto.
  - destruct F as (-> & Hc & ->). intros E. injection E as <- <-. cbn. do 3 (split; [auto|]). exists [], [].
    split; [reflexivity|]. split; [reflexivity|]. split; [|split; [apply acc_eq_refl|split; [reflexivity|congruence]]].
    split; [reflexivity|]. split; [intros [|k] m Hk; discriminate|cbn; lia].
  - destruct F as (-> & Hc & Hu & ds & ms & St & -> & R & T & -> & Fit). destruct rest as [|[d|] rest].
    + intros E. injection E as <- <-. cbn. exists c, u, ds, ms, []. do 3 (split; [auto|]). split; [reflexivity|]. split; [exact R|]. auto.
    + destruct stop.
      * intros E. injection E as <- <-. cbn. exists c, u, ds, ms, (Some d :: rest). do 3 (split; [auto|]). split; [reflexivity|]. auto.
      * destruct (same_shape scene specs c u) eqn:Sh; cbn [negb].
        -- cbv zeta. intros E. injection E as <- <-. cbn [follows]. do 3 (split; [auto|]).
           set (paths := if Nat.ltb (list_sum (map paths_in ms)) (max_paths p) then extract_paths d (max_paths p - list_sum (map paths_in ms)) else []).
           assert (Hp : exists n, paths = extract_paths d n).
           { unfold paths. destruct (Nat.ltb _ _); [eauto|]. exists 0. unfold extract_paths. now rewrite Nat.min_0_r. }
           assert (Hle : list_sum (map paths_in ms) + length paths <= max_paths p).
           { unfold paths. destruct R as (_ & _ & R). destruct (Nat.ltb_spec (list_sum (map paths_in ms)) (max_paths p)); cbn [length]; [|lia].
             pose proof (extract_limit d (max_paths p - list_sum (map paths_in ms))). lia. }
           destruct Hp as [n Hp].
           exists (ds ++ [d]), (ms ++ [MBundle (bd_traced d) (rays p) (recorder_payload (specs c) (acc_add tot (bd_acc d))) paths]).
           split; [|split; [reflexivity|split; [|split; [|split]]]].
           ++ rewrite St, map_app, <- app_assoc. reflexivity.
           ++ exact (reports_snoc p c ds ms d paths n R Hp Hle tot T).
           ++ eapply acc_eq_trans; [|apply summed_snoc]. apply acc_add_eq; [exact T|apply acc_eq_refl].
           ++ rewrite map_app, list_sum_app. cbn. lia.
           ++ intros _; exact Sh.
        -- intros E. injection E as <- <-. rewrite app_nil_r. cbn. exists c, u, ds, ms, (Some d), rest.
           do 3 (split; [auto|]). split; [reflexivity|]. split; [exact R|]. split; [now right|rewrite Sh; exact Fit].
    + intros E. injection E as <- <-. rewrite app_nil_r. cbn. exists c, u, ds, ms, None, rest.
      do 3 (split; [auto|]). split; [reflexivity|]. split; [exact R|]. split; [now left|exact Fit].
  - intros E. injection E as <- <-. rewrite app_nil_r. exact F.
  - intros E. injection E as <- <-. rewrite app_nil_r. exact F.
Qed.

(** The invariant *)
Definition in_order (s0 : scene) (hs : list happening) (w : socket) : Prop :=
  (exists s, s_scene w = Some s /\ In s (scenes_of s0 hs)) /\ (s_stop w = true -> In Stop hs) /\
  length (s_tasks w) = length (runs hs) /\
  (forall i t, nth_error (s_tasks w) i = Some t -> exists p, nth_error (runs hs) i = Some p /\ follows (scenes_of s0 hs) (In Stop hs) p t (sent_by i w)) /\
  (forall i, length (s_tasks w) <= i -> sent_by i w = []).
Lemma runs_snoc hs h : runs (hs ++ [h]) = runs hs ++ match h with Run p => [p] | _ => [] end.
Proof. unfold runs. rewrite flat_map_app. cbn. now rewrite app_nil_r. Qed.
Lemma scenes_snoc s0 hs h : scenes_of s0 (hs ++ [h]) = scenes_of s0 hs ++ match h with Apply s => [s] | _ => [] end.
Proof. unfold scenes_of. rewrite flat_map_app. cbn. now rewrite app_nil_r. Qed.
Lemma follows_later s0 hs h p t out : follows (scenes_of s0 hs) (In Stop hs) p t out -> follows (scenes_of s0 (hs ++ [h])) (In Stop (hs ++ [h])) p t out.
Proof.
  apply follows_mono.
  - rewrite scenes_snoc. intros x Hx. apply in_app_iff. now left.
  - intros H. apply in_app_iff. now left.
Qed.
Lemma in_order_react s0 hs w h : in_order s0 hs w -> in_order s0 (hs ++ [h]) (react w h).
Proof.
  intros ((s & Es & Hs) & Hst & Hlen & Ht & Hno).
  assert (Sc : exists s', Some s = Some s' /\ In s' (scenes_of s0 (hs ++ [h]))).
  { exists s. split; [reflexivity|]. rewrite scenes_snoc. apply in_app_iff. now left. }
  destruct h as [p| |s'|i]; unfold react; cbn [LiveModel.react].
  - rewrite Es. split; [exact Sc|]. split; [discriminate|]. cbn [s_tasks]. split; [rewrite runs_snoc, !app_length; cbn; lia|]. split.
    + intros i t Hi. change (sent_by i _) with (sent_by i w). destruct (Nat.lt_ge_cases i (length (s_tasks w))) as [L|L].
      * rewrite nth_error_app1 in Hi by exact L. destruct (Ht i t Hi) as (q & Hq & F). exists q. split; [|now apply follows_later].
        rewrite runs_snoc, nth_error_app1 by lia. exact Hq.
      * rewrite nth_error_app2 in Hi by exact L. destruct (i - length (s_tasks w)) as [|x] eqn:D; [|destruct x; discriminate Hi].
        injection Hi as <-. exists p. split; [|cbn; split; [reflexivity|apply Hno; exact L]].
        rewrite runs_snoc, nth_error_app2 by lia. replace (i - length (runs hs)) with 0 by lia. reflexivity.
    + intros i Hi. rewrite app_length in Hi. apply Hno. lia.
  - split; [rewrite Es in *; exact Sc|]. split; [intros _; apply in_app_iff; right; now left|]. split; [rewrite runs_snoc, app_nil_r; exact Hlen|]. split; [|exact Hno].
    intros i t Hi. destruct (Ht i t Hi) as (q & Hq & F). exists q. rewrite runs_snoc, app_nil_r. split; [exact Hq|now apply follows_later].
  - split; [exists s'; split; [reflexivity|]; rewrite scenes_snoc; apply in_app_iff; right; now left|].
    split; [intros H; apply in_app_iff; left; now apply Hst|]. split; [rewrite runs_snoc, app_nil_r; exact Hlen|]. split; [|exact Hno].
    intros i t Hi. destruct (Ht i t Hi) as (q & Hq & F). exists q. rewrite runs_snoc, app_nil_r. split; [exact Hq|now apply follows_later].
  - destruct (nth_error (s_tasks w) i) as [t|] eqn:Ei.
    + destruct (continue_task _ _ _ _ _ _ (s_scene w) (s_stop w) t) as [t' new] eqn:Ec.
      assert (Li : i < length (s_tasks w)) by (apply nth_error_Some; congruence).
      split; [cbn [s_scene]; rewrite Es; exact Sc|]. split; [cbn [s_stop]; intros H; apply in_app_iff; left; now apply Hst|].
      cbn [s_tasks]. rewrite set_nth_length, runs_snoc, app_nil_r. split; [exact Hlen|]. split.
      * intros j u Hj. destruct (Nat.eq_dec i j) as [<-|N].
        -- rewrite set_nth_at in Hj by exact Li. injection Hj as <-. destruct (Ht i t Ei) as (q & Hq & F). exists q. split; [exact Hq|].
           change (sent_by i _) with (sent_by i (Socket (s_scene w) (s_stop w) (s_tasks w) (s_sent w ++ map (Msg (Some i)) new))).
           rewrite sent_snoc. refine (continue_follows _ _ _ _ _ (s_scene w) (s_stop w) _ _ (follows_later s0 hs (Continue i) _ _ _ F) _ _ Ec).
           ++ rewrite Es. exact Sc.
           ++ intros H. apply in_app_iff. left. now apply Hst.
        -- rewrite set_nth_other in Hj by exact N. destruct (Ht j u Hj) as (q & Hq & F). exists q. split; [exact Hq|].
           rewrite sent_other by exact N. now apply follows_later.
      * intros j Hj. rewrite sent_other by lia. now apply Hno.
    + split; [rewrite Es; exact Sc|]. split; [intros H; apply in_app_iff; left; now apply Hst|]. rewrite runs_snoc, app_nil_r. split; [exact Hlen|]. split; [|exact Hno].
      intros j u Hj. destruct (Ht j u Hj) as (q & Hq & F). exists q. split; [exact Hq|now apply follows_later].
Qed.
Lemma happens_snoc w hs h : happens w (hs ++ [h]) = react (happens w hs) h.
Proof. unfold happens, LiveModel.happens. now rewrite fold_left_app. Qed.
Lemma happens_app w hs hs' : happens w (hs ++ hs') = happens (happens w hs) hs'.
Proof. unfold happens, LiveModel.happens. now rewrite fold_left_app. Qed.
Lemma in_order_always s0 hs : in_order s0 hs (happens (socket0 (Some s0)) hs).
Proof.
  induction hs as [|h hs IH] using rev_ind.
  - split; [exists s0; split; [reflexivity|now left]|]. split; [discriminate|]. split; [reflexivity|]. split; [intros [|i] t H; discriminate|]. reflexivity.
  - rewrite happens_snoc. now apply in_order_react.
Qed.
End Tasks.
Arguments sent_by {scene params}. Arguments runs {scene params}. Arguments scenes_of {scene params}.
