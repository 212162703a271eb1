(** C154: what the run controls of the studio say. *)
From Coq Require Import ZArith Bool Arith Ascii String List Lia.
From Verif Require Import Base TallyModel BundleModel BundleProofs StreamModel StreamProps LiveModel LiveProofs LiveProps PanelProps BarModel.
Import ListNotations.
Open Scope nat_scope.

(** ** The number of rays *)
Definition digit_char (d : nat) : ascii := ascii_of_nat (48 + d).
Definition number (ds : list nat) : string := fold_right (fun d s => String (digit_char d) s) EmptyString ds.
Definition number_value (ds : list nat) : Z := fold_left (fun a d => 10 * a + Z.of_nat d)%Z ds 0%Z.
Definition all_blank (s : string) : Prop := forall c, In c (list_ascii_of_string s) -> c = " "%char.
Definition no_digit_first (s : string) : Prop := match s with EmptyString => True | String c _ => forall d, d < 10 -> c <> digit_char d end.

Lemma digit_of_char d : d < 10 -> digit (digit_char d) = Some d /\ blank (digit_char d) = false.
Proof. intros H. do 10 (destruct d as [|d]; [split; reflexivity|]). lia. Qed.
Lemma digit_none c : (forall d, d < 10 -> c <> digit_char d) -> digit c = None.
Proof.
  intros H. unfold digit. destruct (Nat.leb 48 (nat_of_ascii c) && Nat.leb (nat_of_ascii c) 57) eqn:E; [|reflexivity].
  apply andb_true_iff in E. destruct E as [E1 E2]. apply Nat.leb_le in E1, E2. exfalso. apply (H (nat_of_ascii c - 48)); [lia|].
  unfold digit_char. replace (48 + (nat_of_ascii c - 48)) with (nat_of_ascii c) by lia. symmetry. apply ascii_nat_embedding.
Qed.
Lemma leading_number ds tail : Forall (fun d => d < 10) ds -> no_digit_first tail -> forall acc,
  leading acc (number ds ++ tail)%string = fold_left (fun a d => 10 * a + Z.of_nat d)%Z ds acc.
Proof.
  intros H T. induction H as [|d ds Hd H IH]; intros acc.
  - destruct tail as [|c t]; [reflexivity|]. cbn in *. now rewrite (digit_none c T).
  - cbn [number fold_right append leading fold_left]. rewrite (proj1 (digit_of_char d Hd)). apply IH.
Qed.
Lemma digit_char_sign d : d < 10 -> digit_char d <> "-"%char /\ digit_char d <> "+"%char.
Proof. intros H. do 10 (destruct d as [|d]; [split; discriminate|]). lia. Qed.
Lemma parse_number blanks ds tail : all_blank blanks -> Forall (fun d => d < 10) ds -> ds <> [] -> no_digit_first tail ->
  parse_int (blanks ++ number ds ++ tail) = Some (number_value ds).
Proof.
  intros B H N T. unfold parse_int.
  assert (E : skip_blanks (blanks ++ number ds ++ tail) = (number ds ++ tail)%string).
  { induction blanks as [|c b IH].
    - destruct H as [|d ds Hd H]; [contradiction|]. cbn [number fold_right append skip_blanks]. now rewrite (proj2 (digit_of_char d Hd)).
    - cbn. rewrite (B c) by now left. cbn. apply IH. intros x Hx. apply B. now right. }
  rewrite E. assert (D : digits_of (number ds ++ tail) = Some (number_value ds)).
  { unfold digits_of. pose proof (leading_number ds tail H T 0%Z) as L. destruct H as [|d ds Hd H]; [contradiction|].
    cbn [number fold_right append] in *. rewrite (proj1 (digit_of_char d Hd)). f_equal. exact L. }
  destruct H as [|d ds Hd H]; [contradiction|]. destruct (digit_char_sign d Hd) as [S1 S2].
  cbn [number fold_right append] in *. rewrite <- D. generalize dependent (digit_char d). intros c _ _ S1 S2.
  destruct c as [[] [] [] [] [] [] [] []]; try reflexivity; [exfalso; now apply S2 | exfalso; now apply S1].
Qed.

(** A whole number above zero, perhaps with blanks around it, is the number of rays traced. *)
Theorem C154_rays_partial : forall blanks ds after, all_blank blanks -> all_blank after ->
  Forall (fun d => d < 10) ds -> (0 < number_value ds)%Z ->
  requested_rays (blanks ++ number ds ++ after) = number_value ds /\
  requested_every (blanks ++ number ds ++ after) = number_value ds.
Proof.
  intros blanks ds after B A H P. assert (N : ds <> []) by (intros ->; cbn in P; lia).
  assert (T : no_digit_first after).
  { destruct after as [|c t]; [exact I|]. intros d Hd. rewrite (A c) by now left. do 10 (destruct d as [|d]; [discriminate|]). lia. }
  unfold requested_rays, requested_every, requested. rewrite (parse_number blanks ds after B H N T).
  destruct (number_value ds); [lia|split; reflexivity|lia].
Qed.
Print Assumptions C154_rays_partial.
(** What follows the first digits is ignored, and 0 is replaced by the default: one million
    written with an exponent starts a run of one ray, with a comma a run of one ray too; no rays
    become a hundred thousand. *)
Theorem C154_rays_refuted : exists ten_to_six million none,
  ten_to_six = (number [1] ++ "e" ++ number [6])%string /\ million = (number [1] ++ "," ++ number [0; 0; 0] ++ "," ++ number [0; 0; 0])%string /\
  none = number [0] /\ requested_rays ten_to_six = 1%Z /\ requested_rays million = 1%Z /\ requested_rays none = 100000%Z.
Proof. do 3 eexists. repeat split. Qed.
Print Assumptions C154_rays_refuted.

(** ** Progress *)
Section Run.
Variables (scene params : Type) (specs : scene -> list (nat * recorder)) (stream : scene -> params -> list (option bdata))
          (rays max_paths : params -> nat).
Notation happens := (happens scene params specs stream rays max_paths).

(** simulate_stream traces the rays bundle by bundle, up to the end or to an exception *)
Definition counted (bundle : nat) (s : scene) (p : params) : Prop :=
  let sizes := map (fun '(o, n) => Some (o + n)) (bundles (rays p) 0 (rays p) bundle) in
  map (option_map bd_traced) (stream s p) = sizes \/ exists k, map (option_map bd_traced) (stream s p) = firstn k sizes ++ [None].
(** the rays of the newest report *)
Definition reported (cs : list content) : nat := fold_left (fun t c => match c with MBundle t' _ _ _ => t' | MStarted _ _ => 0 | _ => t end) cs 0.

Lemma bundles_nth bundle n : 1 <= bundle -> forall fuel traced k o m, n - traced <= fuel ->
  nth_error (bundles fuel traced n bundle) k = Some (o, m) -> o + m = Nat.min (traced + S k * bundle) n /\ 0 < n.
Proof.
  intros Hb. induction fuel as [|fuel IH]; intros traced k o m Hf H; [destruct k; discriminate|]. cbn [bundles] in H.
  destruct (Nat.ltb_spec traced n) as [L|L]; [|destruct k; discriminate].
  destruct k as [|k]; cbn in H.
  - injection H as <- <-. cbn. lia.
  - destruct (IH (traced + Nat.min bundle (n - traced)) k o m ltac:(lia) H) as [E P]. split; [|exact P]. rewrite E.
    destruct (Nat.min_spec bundle (n - traced)) as [[C ->]|[C ->]]; cbn; lia.
Qed.
Lemma bundles_enough bundle n : 1 <= bundle -> forall fuel traced, n - traced <= fuel -> traced < n ->
  exists o m, nth_error (bundles fuel traced n bundle) (length (bundles fuel traced n bundle) - 1) = Some (o, m) /\ o + m = n /\ 0 < length (bundles fuel traced n bundle).
Proof.
  intros Hb fuel traced Hf Ht. destruct (bundles_last bundle n Hb fuel traced Hf Ht) as (l & o & m & E & S). exists o, m. rewrite E, app_length. cbn [length].
  replace (length l + 1 - 1) with (length l) by lia. rewrite nth_error_app2, Nat.sub_diag by lia. split; [reflexivity|]. split; [exact S|lia].
Qed.
Lemma counted_nth bundle s p k d : 1 <= bundle -> counted bundle s p -> nth_error (stream s p) k = Some (Some d) ->
  bd_traced d = Nat.min (S k * bundle) (rays p) /\ 0 < rays p.
Proof.
  intros Hb C H. assert (M : nth_error (map (option_map bd_traced) (stream s p)) k = Some (Some (bd_traced d))) by (rewrite nth_error_map, H; reflexivity).
  assert (G : forall k, nth_error (map (fun '(o, n) => Some (o + n)) (bundles (rays p) 0 (rays p) bundle)) k = Some (Some (bd_traced d)) ->
     bd_traced d = Nat.min (S k * bundle) (rays p) /\ 0 < rays p).
  { intros j Hj. rewrite nth_error_map in Hj. destruct (nth_error (bundles _ _ _ _) j) as [[o m]|] eqn:E; [|discriminate]. cbn in Hj. injection Hj as <-.
    apply (bundles_nth bundle (rays p) Hb (rays p) 0 j o m ltac:(lia) E). }
  destruct C as [C|[j C]]; rewrite C in M; [apply G, M|].
  destruct (Nat.lt_ge_cases k (length (firstn j (map (fun '(o, n) => Some (o + n)) (bundles (rays p) 0 (rays p) bundle))))) as [L|L].
  - rewrite nth_error_app1 in M by exact L. apply G. rewrite <- M. rewrite firstn_length in L. symmetry.
    clear - L. revert k L. generalize (map (fun '(o, n) => Some (o + n)) (bundles (rays p) 0 (rays p) bundle)) as l. induction j as [|j IH]; intros l k L; [lia|].
    destruct l as [|x l]; [cbn in L; lia|]. destruct k as [|k]; [reflexivity|]. cbn. apply IH. cbn in L. lia.
  - rewrite nth_error_app2 in M by exact L. destruct (k - _) as [|[|]]; discriminate.
Qed.
Lemma counted_complete bundle s p ds : 1 <= bundle -> counted bundle s p -> stream s p = map Some ds -> 0 < rays p ->
  exists d, nth_error ds (length ds - 1) = Some d /\ bd_traced d = rays p /\ 0 < length ds.
Proof.
  intros Hb C E P. rewrite <- (map_length Some ds), <- E. destruct C as [C|[k C]].
  - destruct (bundles_enough bundle (rays p) Hb (rays p) 0 ltac:(lia) P) as (o & m & En & S & L).
    assert (Ll : length (stream s p) = length (bundles (rays p) 0 (rays p) bundle)) by (rewrite <- (map_length (option_map bd_traced)), C, map_length; reflexivity).
    rewrite Ll. assert (M : nth_error (map (option_map bd_traced) (stream s p)) (length (bundles (rays p) 0 (rays p) bundle) - 1) = Some (Some (rays p))).
    { rewrite C, nth_error_map, En. cbn. now rewrite S. }
    rewrite E, map_map, nth_error_map in M. destruct (nth_error ds _) as [d|] eqn:Ed; [|discriminate]. cbn in M. injection M as M. exists d. auto.
  - exfalso. rewrite E, map_map in C. assert (In None (map (fun x => option_map bd_traced (Some x)) ds)) as H by (rewrite C; apply in_or_app; right; now left).
    apply in_map_iff in H. destruct H as (x & Hx & _). discriminate.
Qed.

Lemma firstn_more {A} (l : list A) : forall k x, nth_error l k = Some x -> firstn (S k) l = firstn k l ++ [x].
Proof.
  induction l as [|y l IH]; intros [|k] x H; try discriminate; cbn in H; [now injection H as ->|].
  change (firstn (S (S k)) (y :: l)) with (y :: firstn (S k) l). now rewrite (IH k x H).
Qed.
Lemma shows_snoc b cs c : shows_all b (cs ++ [c]) = show (shows_all b cs) c.
Proof. unfold shows_all. now rewrite fold_left_app. Qed.
Lemma reported_snoc cs c : reported (cs ++ [c]) = match c with MBundle t' _ _ _ => t' | MStarted _ _ => 0 | _ => reported cs end.
Proof. unfold reported. now rewrite fold_left_app. Qed.
Lemma tenths_near t n : 0 < n -> (2 * Z.abs (tenths t n * Z.of_nat n - 1000 * Z.of_nat t) <= Z.of_nat n)%Z.
Proof.
  intros P. unfold tenths. pose proof (Z.div_mod (2000 * Z.of_nat t + Z.of_nat n) (2 * Z.of_nat n) ltac:(lia)) as D.
  pose proof (Z.mod_pos_bound (2000 * Z.of_nat t + Z.of_nat n) (2 * Z.of_nat n) ltac:(lia)) as B. lia.
Qed.
Lemma tenths_mono a b n : 0 < n -> a <= b -> (tenths a n <= tenths b n)%Z.
Proof. intros P L. unfold tenths. apply Z.div_le_mono; lia. Qed.
Lemma tenths_nonneg a n : (0 <= tenths a n)%Z.
Proof. unfold tenths. destruct n; [rewrite Zdiv_0_r; lia|]. apply Z.div_pos; lia. Qed.
Lemma tenths_le a n : 0 < n -> a <= n -> (tenths a n <= 1000)%Z.
Proof. intros P L. replace 1000%Z with (tenths n n); [now apply tenths_mono|]. unfold tenths. symmetry. apply Z.div_unique with (Z.of_nat n); lia. Qed.

(** the shape of what a run sends, with the numbers of its reports *)
Lemma run_sends bundle s0 hs p : 1 <= bundle -> (forall s, counted bundle s p) -> runs hs = [p] ->
  let cs := map m_content (s_sent (happens (socket0 (Some s0)) hs)) in
  cs = [] \/ exists meta ms ending, cs = MStarted (rays p) meta :: ms ++ ending /\
    (forall k m, nth_error ms k = Some m -> 0 < rays p /\ exists fs ps, m = MBundle (Nat.min (S k * bundle) (rays p)) (rays p) fs ps) /\
    (ending = [] \/ ending = [MDone] /\ (In Stop hs \/ rays p = 0 \/ exists m, nth_error ms (length ms - 1) = Some m /\ exists fs ps, m = MBundle (rays p) (rays p) fs ps)).
Proof.
  intros Hb C R cs. pose proof (one_task scene params specs stream rays max_paths s0 hs p R) as E. cbv zeta in E. fold cs in E.
  destruct (C92_reports scene params specs stream rays max_paths s0 hs 0 p) as [H|(c & u & ds & ms & rest & ending & _ & _ & St & H & L & N & En)]; [rewrite R; reflexivity| |].
  - left. congruence.
  - right. rewrite H in E. exists (specs c), ms, ending. split; [exact E|]. split.
    + intros k m Hm. destruct (N k m Hm) as (d & fs & ps & Hd & -> & _).
      destruct (counted_nth bundle u p k d Hb (C u)) as [T P].
      { rewrite St, nth_error_app1 by (rewrite map_length; apply nth_error_Some; congruence). rewrite nth_error_map, Hd. reflexivity. }
      split; [exact P|]. rewrite T. eauto.
    + destruct En as [->|[-> [->|S]]]; [now left| |right; auto]. right. split; [reflexivity|]. destruct (Nat.eq_dec (rays p) 0) as [Z|Z]; [auto|]. right. right.
      rewrite app_nil_r in St. destruct (counted_complete bundle u p ds Hb (C u) St ltac:(lia)) as (d & Hd & T & P). rewrite L.
      destruct (nth_error ms (length ds - 1)) as [m|] eqn:Em; [|apply nth_error_None in Em; lia].
      exists m. split; [reflexivity|]. destruct (N _ _ Em) as (d' & fs & ps & Hd' & -> & _). rewrite Hd in Hd'. injection Hd' as <-. rewrite T. eauto.
Qed.

(** The first run on a page, without a stop.  While it has not said "done" the bar is within a
    twentieth of a percent of the share of the rays that the newest report covers, and at most
    full; it is full only when 99.95 percent are traced.  When the status says "done" the bar is full and all rays have been traced. *)
Theorem C154_bar_partial : forall bundle s0 hs p, 1 <= bundle -> (forall s, counted bundle s p) -> runs hs = [p] -> ~ In Stop hs -> 0 < rays p ->
  let cs := map m_content (s_sent (happens (socket0 (Some s0)) hs)) in
  let b := shows_all bar0 cs in
  (In MDone cs <-> says_done b = true) /\
  (says_done b = true -> width b = 1000%Z /\ reported cs = rays p) /\
  (says_done b = false -> (2 * Z.abs (width b * Z.of_nat (rays p) - 1000 * Z.of_nat (reported cs)) <= Z.of_nat (rays p))%Z) /\
  (0 <= width b <= 1000)%Z /\ reported cs <= rays p /\
  (width b = 1000%Z -> 1999 * rays p <= 2000 * reported cs).
Proof.
  intros bundle s0 hs p Hb C R NS P cs b. destruct (run_sends bundle s0 hs p Hb C R) as [E|(meta & ms & ending & E & N & En)]; fold cs in E.
  { unfold b. rewrite E. cbn. split; [split; [tauto|discriminate]|]. split; [discriminate|]. split; [intros _; lia|]. split; [lia|]. split; [lia|discriminate]. }
  assert (G : forall k, let cs := MStarted (rays p) meta :: firstn k ms in let b := shows_all bar0 cs in
      dones b = 0 /\ (2 * Z.abs (width b * Z.of_nat (rays p) - 1000 * Z.of_nat (reported cs)) <= Z.of_nat (rays p))%Z /\ (0 <= width b <= 1000)%Z /\ reported cs <= rays p /\
      ~ In MDone cs).
  { induction k as [|k IH]; [cbn; split; [reflexivity|]; split; [lia|]; split; [lia|]; split; [lia|]; intros [H|[]]; discriminate|].
    destruct (nth_error ms k) as [m|] eqn:Em.
    - assert (F : firstn (S k) ms = firstn k ms ++ [m]).
      { now apply firstn_more. }
      rewrite F, app_comm_cons. cbv zeta in *. rewrite shows_snoc, reported_snoc. destruct (N k m Em) as (_ & fs & ps & ->). cbn [show dones width].
      split; [reflexivity|]. split; [now apply tenths_near|]. split; [split; [apply tenths_nonneg|apply tenths_le; lia]|]. split; [lia|].
      intros H. rewrite <- app_comm_cons in H. change (In MDone ((MStarted (rays p) meta :: firstn k ms) ++ [MBundle (Nat.min (S k * bundle) (rays p)) (rays p) fs ps])) in H.
      apply in_app_or in H. destruct H as [H|[H|[]]]; [now apply (proj2 (proj2 (proj2 (proj2 IH))))|discriminate].
    - apply nth_error_None in Em. rewrite firstn_all2 by lia. rewrite firstn_all2 in IH by lia. exact IH. }
  specialize (G (length ms)). rewrite firstn_all in G. cbv zeta in G. destruct G as (G1 & G2 & G3 & G4 & G5).
  destruct En as [->|[-> En]].
  - rewrite app_nil_r in E. unfold b. rewrite E. unfold says_done. rewrite G1. cbn [Nat.ltb Nat.leb].
    split; [split; [contradiction|discriminate]|]. split; [discriminate|]. split; [auto|]. split; [exact G3|]. split; [exact G4|]. intros Wf. rewrite Wf in G2. lia.
  - rewrite app_comm_cons in E. unfold b. rewrite E, shows_snoc, reported_snoc. cbn [show width dones].
    assert (Rp : reported (MStarted (rays p) meta :: ms) = rays p).
    { destruct En as [H|[H|(m & Hm & fs & ps & ->)]]; [contradiction|lia|]. destruct ms as [|m0 ms _] using rev_ind; [discriminate|].
      rewrite app_length in Hm. cbn in Hm. replace (length ms + 1 - 1) with (length ms) in Hm by lia. rewrite nth_error_app2, Nat.sub_diag in Hm by lia. injection Hm as ->.
      rewrite app_comm_cons, reported_snoc. reflexivity. }
    rewrite Rp. split; [split; [reflexivity|intros _; apply in_or_app; right; now left]|]. split; [auto|]. split; [discriminate|]. split; [lia|]. split; lia.
Qed.

(** From the first message of a run on, the bar never goes back, stopped or not. *)
Theorem C154_never_back_partial : forall bundle s0 before after p b0, 1 <= bundle -> (forall s, counted bundle s p) -> runs (before ++ after) = [p] ->
  let early := map m_content (s_sent (happens (socket0 (Some s0)) before)) in
  let late := map m_content (s_sent (happens (socket0 (Some s0)) (before ++ after))) in
  early <> [] -> (width (shows_all b0 early) <= width (shows_all b0 late))%Z.
Proof.
  intros bundle s0 before after p b0 Hb C R early late Ne.
  assert (Pre : exists more, late = early ++ more).
  { unfold late, early. rewrite (happens_app scene params specs stream rays max_paths). generalize (happens (socket0 (Some s0)) before) as w. clear.
    induction after as [|h l IH]; intros w; [exists []; now rewrite app_nil_r|]. change (happens w (h :: l)) with (happens (LiveModel.react scene params specs stream rays max_paths w h) l).
    destruct (IH (LiveModel.react scene params specs stream rays max_paths w h)) as [m Hm].
    assert (K : exists m', map m_content (s_sent (LiveModel.react scene params specs stream rays max_paths w h)) = map m_content (s_sent w) ++ m').
    { destruct h as [q| |s|i]; cbn [LiveModel.react].
      - destruct (s_scene w); cbn [s_sent]; [exists []; now rewrite app_nil_r|]. rewrite map_app. eauto.
      - exists []. now rewrite app_nil_r.
      - exists []. now rewrite app_nil_r.
      - destruct (nth_error (s_tasks w) i); [|exists []; now rewrite app_nil_r]. destruct (LiveModel.continue_task _ _ _ _ _ _ _ _ _). cbn [s_sent]. rewrite map_app. eauto. }
    destruct K as [m' K]. exists (m' ++ m). rewrite Hm, K. now rewrite app_assoc. }
  destruct Pre as [more Pre]. rewrite Pre.
  destruct (run_sends bundle s0 (before ++ after) p Hb C R) as [E|(meta & ms & ending & E & N & En)]; fold late in E.
  { exfalso. rewrite Pre in E. apply app_eq_nil in E. tauto. }
  rewrite Pre in E. assert (Le : length ending <= 1 /\ forall c, In c ending -> c = MDone).
  { destruct En as [->|[-> _]]; (split; [cbn; lia|]); intros c H; [destruct H|destruct H as [<-|[]]; reflexivity]. }
  clear Pre late R En C. destruct early as [|c0 early']; [contradiction|]. cbn [app] in E. injection E as -> E. clear Ne.
  set (b1 := show b0 (MStarted (rays p) meta)). change (width (shows_all b1 early') <= width (shows_all b1 (early' ++ more)))%Z.
  set (W := fun k => if Nat.eqb k 0 then 0%Z else if Nat.leb k (length ms) then tenths (Nat.min (k * bundle) (rays p)) (rays p) else 1000%Z).
  assert (Wk : forall k, k <= length (ms ++ ending) -> width (shows_all b1 (firstn k (ms ++ ending))) = W k).
  { destruct k as [|k]; intros L; [reflexivity|]. destruct (nth_error (ms ++ ending) k) as [c|] eqn:Ec; [|apply nth_error_None in Ec; lia].
    assert (F : firstn (S k) (ms ++ ending) = firstn k (ms ++ ending) ++ [c]).
    { now apply firstn_more. }
    rewrite F, shows_snoc. unfold W. cbn [Nat.eqb]. destruct (Nat.leb_spec (S k) (length ms)) as [Lk|Lk].
    - rewrite nth_error_app1 in Ec by lia. destruct (N k c Ec) as (_ & fs & ps & ->). reflexivity.
    - rewrite nth_error_app2 in Ec by lia. apply nth_error_In in Ec. rewrite (proj2 Le c Ec). reflexivity. }
  assert (Pos : forall k, 0 < k <= length ms -> 0 < rays p).
  { intros k Hk. destruct (nth_error ms 0) as [m|] eqn:Em; [exact (proj1 (N 0 m Em))|apply nth_error_None in Em; lia]. }
  assert (Mono : forall a c, a <= c -> (W a <= W c)%Z).
  { intros a c Hac. unfold W. destruct (Nat.eqb_spec a 0) as [->|Na]; destruct (Nat.eqb_spec c 0) as [->|Nc]; try lia.
    - destruct (Nat.leb c (length ms)); [apply tenths_nonneg|lia].
    - destruct (Nat.leb_spec a (length ms)) as [La|La]; destruct (Nat.leb_spec c (length ms)) as [Lc|Lc]; try lia.
      + apply tenths_mono; [apply (Pos a); lia|]. apply Nat.min_le_compat_r. now apply Nat.mul_le_mono_r.
      + apply tenths_le; [apply (Pos a); lia|lia]. }
  rewrite E. assert (Fe : early' = firstn (length early') (ms ++ ending)) by (rewrite <- E, firstn_app, Nat.sub_diag, firstn_all, firstn_O, app_nil_r; reflexivity).
  assert (Lt : length early' <= length (ms ++ ending)) by (rewrite <- E, app_length; lia).
  rewrite Fe at 1. rewrite Wk by exact Lt. pose proof (Wk (length (ms ++ ending)) (le_n _)) as Wt. rewrite firstn_all in Wt. rewrite Wt. now apply Mono.
Qed.

Lemma traces p s i : forall ds w tot sent, s_stop w = false -> nth_error (s_tasks w) i = Some (Tracing p s s (map Some ds) tot sent) ->
  exists ms, map m_content (s_sent (happens w (repeat (Continue i) (length ds + 1)))) = map m_content (s_sent w) ++ ms ++ [MDone] /\
    map (fun c => match c with MBundle t n _ _ => Some (t, n) | _ => None end) ms = map (fun d => Some (bd_traced d, rays p)) ds.
Proof.
  induction ds as [|d ds IH]; intros w tot sent Hs Hi.
  - exists []. split; [|reflexivity]. cbn. rewrite Hi. cbn. now rewrite map_app.
  - change (repeat (Continue i) (length (d :: ds) + 1)) with (@Continue scene params i :: repeat (Continue i) (length ds + 1)).
    change (happens w (?h :: ?t)) with (happens (LiveModel.react scene params specs stream rays max_paths w h) t).
    assert (L : i < length (s_tasks w)) by (apply nth_error_Some; congruence).
    set (tot' := acc_add tot (bd_acc d)).
    set (paths := if Nat.ltb sent (max_paths p) then extract_paths d (max_paths p - sent) else []).
    assert (E : LiveModel.react scene params specs stream rays max_paths w (Continue i) =
      Socket (s_scene w) false (set_nth (s_tasks w) i (Tracing p s s (map Some ds) tot' (sent + length paths)))
        (s_sent w ++ [Msg (Some i) (MBundle (bd_traced d) (rays p) (recorder_payload (specs s) tot') paths)])).
    { cbn [LiveModel.react]. rewrite Hi, Hs. cbn [map LiveModel.continue_task].
      assert (Sh : same_shape scene specs s s = true) by (unfold same_shape; now rewrite !Nat.eqb_refl). rewrite Sh. reflexivity. }
    rewrite E. destruct (IH (Socket (s_scene w) false (set_nth (s_tasks w) i (Tracing p s s (map Some ds) tot' (sent + length paths)))
        (s_sent w ++ [Msg (Some i) (MBundle (bd_traced d) (rays p) (recorder_payload (specs s) tot') paths)])) tot' (sent + length paths) eq_refl) as (ms & M1 & M2).
    { cbn [s_tasks]. now apply set_nth_at. }
    exists (MBundle (bd_traced d) (rays p) (recorder_payload (specs s) tot') paths :: ms). rewrite M1. cbn [s_sent map]. rewrite map_app, <- app_assoc. split; [reflexivity|].
    now rewrite M2.
Qed.
(** The run button starts a run that is traced to its end, whatever was running or stopped before:
    given its turns it announces itself, reports each bundle of its stream and says "done". *)
Theorem C154_button : forall w s p ds, s_scene w = Some s -> stream s p = map Some ds ->
  let i := length (s_tasks w) in
  exists ms, map m_content (s_sent (happens w (start_run p ++ repeat (Continue i) (length ds + 3)))) =
      map m_content (s_sent w) ++ MStarted (rays p) (specs s) :: ms ++ [MDone] /\
    map (fun c => match c with MBundle t n _ _ => Some (t, n) | _ => None end) ms = map (fun d => Some (bd_traced d, rays p)) ds.
Proof.
  intros w s p ds Hs St i. rewrite (happens_app scene params specs stream rays max_paths). replace (length ds + 3) with (2 + (length ds + 1)) by lia.
  rewrite repeat_app, (happens_app scene params specs stream rays max_paths).
  set (w1 := happens w (start_run p)). assert (E1 : w1 = Socket (Some s) false (s_tasks w ++ [Created p]) (s_sent w)) by (unfold w1; cbn; rewrite Hs; reflexivity).
  set (w2 := happens w1 (repeat (Continue i) 2)).
  assert (E2 : w2 = Socket (Some s) false (set_nth (set_nth (s_tasks w ++ [Created p]) i (Announced p s)) i (Tracing p s s (map Some ds) acc0 0))
     ((s_sent w ++ [Msg (Some i) (MStarted (rays p) (specs s))]) ++ [])).
  { unfold w2. rewrite E1. cbn [repeat LiveModel.happens fold_left LiveModel.react s_tasks s_scene s_stop s_sent].
    assert (A : nth_error (s_tasks w ++ [Created p]) i = Some (Created p)) by (unfold i; rewrite nth_error_app2, Nat.sub_diag by lia; reflexivity).
    rewrite A. cbn [LiveModel.continue_task map s_tasks s_scene s_stop s_sent]. rewrite set_nth_at by (rewrite app_length; cbn; unfold i; lia).
    cbn [LiveModel.continue_task map]. now rewrite St. }
  destruct (traces p s i ds w2 acc0 0) as (ms & M1 & M2).
  - now rewrite E2.
  - rewrite E2. cbn [s_tasks]. apply set_nth_at. assert (Ln : forall (l : list (task scene params)) j x, length (set_nth l j x) = length l) by (clear; induction l as [|y l IH]; intros [|j] x; cbn; auto).
    rewrite Ln, app_length. cbn. unfold i. lia.
  - exists ms. split; [|exact M2]. rewrite M1, E2. cbn [s_sent]. rewrite app_nil_r, map_app, <- app_assoc. reflexivity.
Qed.
End Run.
Print Assumptions C154_button.
Print Assumptions C154_bar_partial.
Print Assumptions C154_never_back_partial.

(** The streams of the engine count their rays in this way. *)
Theorem C154_engine_counts : forall (scene params : Type) (stream : scene -> params -> list (option bdata)) (rays : params -> nat) J bundle execs s p,
  stream s p = map Some (engine_data J bundle execs) -> length (stream_bundles J bundle) = length execs -> rays p = length (j_rays J) ->
  counted scene params stream rays bundle s p.
Proof.
  intros scene params stream rays J bundle execs s p E L R. left. rewrite E, map_map, R. fold (stream_bundles J bundle). unfold engine_data. rewrite map_map.
  revert execs L E. generalize (stream_bundles J bundle) as os. intros os execs L _. revert execs L.
  induction os as [|[o n] os IH]; intros [|[th mem] ex] L; try discriminate; [reflexivity|]. cbn. f_equal. apply IH. cbn in L. lia.
Qed.
Print Assumptions C154_engine_counts.

(** ** Counterexamples *)
(** A run of 20 rays in bundles of 10 *)
Definition tick (n : nat) : option bdata := Some (BData acc0 0 0 (fun _ => 0) (fun _ => BundleModel.blank) n).
Definition ticks (_ : unit) (_ : nat) : list (option bdata) := [tick 10; tick 20].
Definition page (hs : list (happening unit nat)) : list content :=
  map m_content (s_sent (happens unit nat (fun _ => []) ticks (fun p => p) (fun _ => 0) (socket0 (Some tt)) hs)).
Lemma ticks_counted : forall s, counted unit nat ticks (fun p => p) 10 s 20.
Proof. intros s. left. reflexivity. Qed.

(** A run that was stopped after half of its rays: the bar is full and the status says "done". *)
Theorem C154_stopped_refuted : exists hs : list (happening unit nat), runs hs = [20] /\
  let cs := page hs in let b := shows_all bar0 cs in
  reported cs = 10 /\ width b = 1000%Z /\ says_done b = true.
Proof. exists [Run 20; Continue 0; Continue 0; Continue 0; Stop; Continue 0]. repeat split. Qed.
Print Assumptions C154_stopped_refuted.
(** When the next run starts, the status still says "done" until its first report. *)
Theorem C154_status_refuted : exists first second : list (happening unit nat), second = start_run 20 ++ [Continue 1] /\
  says_done (shows_all bar0 (page first)) = true /\
  let cs := page (first ++ second) in let b := shows_all bar0 cs in
  cs = page first ++ [MStarted 20 []] /\ reported cs = 0 /\ width b = 0%Z /\ says_done b = true.
Proof. exists (Run 20 :: repeat (Continue 0) 5), (start_run 20 ++ [Continue 1]). repeat split. Qed.
Print Assumptions C154_status_refuted.
(** In a run of many bundles the bar can be full before all rays are traced. *)
Theorem C154_rounded_refuted : exists traced total, traced < total /\ width (show bar0 (MBundle traced total [] [])) = 1000%Z.
Proof. exists 1999, 2000. split; [|reflexivity]. apply Nat.ltb_lt. reflexivity. Qed.
Print Assumptions C154_rounded_refuted.

Example C154_example :
  let hs := Run 20 :: repeat (Continue 0) 3 in
  let b := shows_all bar0 (page hs) in let e := shows_all bar0 (page (hs ++ repeat (Continue 0) 2)) in
  reported (page hs) = 10 /\ width b = 500%Z /\ says_done b = false /\
  reported (page (hs ++ repeat (Continue 0) 2)) = 20 /\ width e = 1000%Z /\ says_done e = true /\ tenths 25 700 = 36%Z /\
  requested_rays "  500000 " = 500000%Z /\ requested_rays "+7" = 7%Z /\ requested_rays "-7" = (-7)%Z /\ requested_every "" = 500%Z.
Proof. repeat split. Qed.
Example C154_theorem_applies : let hs := Run 20 :: repeat (Continue 0) 5 in
  says_done (shows_all bar0 (page hs)) = true /\ reported (page hs) = 20.
Proof.
  intros hs. destruct (C154_bar_partial unit nat (fun _ => []) ticks (fun p => p) (fun _ => 0) 10 tt hs 20) as (h1 & h2 & _).
  - lia.
  - exact ticks_counted.
  - reflexivity.
  - cbn. intuition discriminate.
  - lia.
  - assert (D : says_done (shows_all bar0 (page hs)) = true) by (apply h1; cbn; tauto). split; [exact D|exact (proj2 (h2 D))].
Qed.
