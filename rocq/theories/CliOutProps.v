(** C96: pvtrace-cli time and spectrum print every matching sample. *)
From Coq Require Import Reals Lra List Bool Arith ZArith Lia Permutation.
From Verif Require Import Base Vec TracerModel CliModel CliProofs CliProps CliOutModel.
Import ListNotations.
Open Scope nat_scope.

(** ** numpy.histogram *)
Lemma fold_min_le l : forall x y, (In y (x :: l) -> fold_left Rmin l x <= y)%R.
Proof.
  induction l as [|a l IH]; intros x y; cbn [fold_left].
  - intros [->|[]]. lra.
  - intros [->|[->|H]].
    + eapply Rle_trans; [apply IH; now left|apply Rmin_l].
    + eapply Rle_trans; [apply IH; now left|apply Rmin_r].
    + apply IH. now right.
Qed.
Lemma fold_max_ge l : forall x y, (In y (x :: l) -> y <= fold_left Rmax l x)%R.
Proof.
  induction l as [|a l IH]; intros x y; cbn [fold_left].
  - intros [->|[]]. lra.
  - intros [->|[->|H]].
    + eapply Rle_trans; [apply (Rmax_l y a)|apply IH; now left].
    + eapply Rle_trans; [apply (Rmax_r x y)|apply IH; now left].
    + apply IH. now right.
Qed.
Lemma range_spec l x : In x l -> let '(a, b) := range_of l in (a < b /\ a <= x <= b)%R.
Proof.
  intros H. assert (A : (lmin l <= x <= lmax l)%R).
  { destruct l as [|y l]; [destruct H|]. split; [now apply fold_min_le|now apply fold_max_ge]. }
  unfold range_of. destruct (Reqb (lmin l) (lmax l)) eqn:E.
  - apply Reqb_true in E. lra.
  - apply Reqb_false in E. lra.
Qed.
Definition in_bin (l : list R) (k : nat) (x : R) : Prop :=
  (edge l k <= x < edge l (S k))%R \/ (S k = n_bins /\ x = edge l n_bins).
Lemma bin_spec l x : In x l -> bin_of l x < n_bins /\ in_bin l (bin_of l x) x.
Proof.
  intros H. pose proof (range_spec l x H) as Rg. unfold in_bin, edge, bin_of, n_bins. destruct (range_of l) as [a b].
  destruct Rg as [Hab Hx]. set (y := ((x - a) * (INR 10 / (b - a)))%R).
  assert (E10 : INR 10 = 10%R) by (simpl; lra).
  assert (Hy : (0 <= y <= 10)%R).
  { unfold y. rewrite E10. split.
    - apply Rmult_le_pos; [lra|]. apply Rlt_le, Rdiv_lt_0_compat; lra.
    - replace 10%R with ((b - a) * (10 / (b - a)))%R at 2 by (field; lra). apply Rmult_le_compat_r; [apply Rlt_le, Rdiv_lt_0_compat; lra|lra]. }
  assert (Ex : x = (a + y * ((b - a) / INR 10))%R) by (unfold y; rewrite E10; field; lra).
  destruct (archimed y) as [U1 U2]. set (u := up y) in *.
  assert (Z0 : (0 <= u - 1)%Z). { assert (0 < u)%Z by (apply lt_IZR; lra). lia. }
  assert (Z1 : (u - 1 <= 10)%Z). { assert (u < 12)%Z by (apply lt_IZR; lra). lia. }
  assert (Es : IZR (u - 1) = (IZR u - 1)%R) by (rewrite minus_IZR; reflexivity).
  assert (En : INR (Z.to_nat (u - 1)) = (IZR u - 1)%R) by (rewrite INR_IZR_INZ, Z2Nat.id by exact Z0; exact Es).
  destruct (Nat.eqb_spec (Z.to_nat (u - 1)) 10) as [E|N].
  - rewrite E in En. rewrite E10 in *. assert (y = 10%R) by lra. rewrite E. split; [cbn; lia|]. right. split; [reflexivity|]. rewrite Ex, H0. reflexivity.
  - assert (L : Z.to_nat (u - 1) < 10) by lia. split; [exact L|]. left. rewrite (S_INR (Z.to_nat (u - 1))), En.
    assert (P : (0 < (b - a) / INR 10)%R) by (rewrite E10; lra). rewrite Ex. split.
    + apply Rplus_le_compat_l, Rmult_le_compat_r; lra.
    + apply Rplus_lt_compat_l, Rmult_lt_compat_r; lra.
Qed.
Lemma edge_mono l j k : l <> [] -> j < k -> (edge l j < edge l k)%R.
Proof.
  intros H Hjk. destruct l as [|x l]; [contradiction|]. pose proof (range_spec (x :: l) x (or_introl eq_refl)) as Rg.
  unfold edge. destruct (range_of (x :: l)) as [a b]. destruct Rg as [Hab _]. apply Rplus_lt_compat_l, Rmult_lt_compat_r; [|now apply lt_INR].
  unfold n_bins. simpl INR. lra.
Qed.
Lemma bin_unique l x k : In x l -> k < n_bins -> (in_bin l k x <-> bin_of l x = k).
Proof.
  intros H Hk. destruct (bin_spec l x H) as [L B]. split; [|intros <-; exact B]. intros B'.
  assert (Ne : l <> []) by (intros ->; destruct H). set (j := bin_of l x) in *. clearbody j.
  assert (Le : forall i m, i <= m -> (edge l i <= edge l m)%R).
  { intros i m Him. destruct (Nat.eq_dec i m) as [->|]; [lra|]. apply Rlt_le, edge_mono; [exact Ne|lia]. }
  destruct (lt_eq_lt_dec j k) as [[C|C]|C]; [exfalso|exact C|exfalso].
  - destruct B as [[_ B]|[B _]]; [|lia]. specialize (Le (S j) k ltac:(lia)).
    destruct B' as [[B' _]|[_ ->]]; [lra|]. pose proof (edge_mono l k n_bins Ne Hk). lra.
  - destruct B' as [[_ B']|[B' _]]; [|lia]. specialize (Le (S k) j ltac:(lia)).
    destruct B as [[B _]|[_ ->]]; [lra|]. pose proof (edge_mono l j n_bins Ne L). lra.
Qed.
Lemma partition_sum (f : R -> nat) n : forall l, (forall x, In x l -> f x < n) ->
  list_sum (map (fun k => length (filter (fun x => Nat.eqb (f x) k) l)) (seq 0 n)) = length l.
Proof.
  induction l as [|x l IH]; intros H.
  - cbn. induction (seq 0 n); cbn; auto.
  - assert (E : forall m a, list_sum (map (fun k => length (filter (fun x => Nat.eqb (f x) k) (x :: l))) (seq a m)) =
       list_sum (map (fun k => length (filter (fun x => Nat.eqb (f x) k) l)) (seq a m)) + (if Nat.leb a (f x) && Nat.ltb (f x) (a + m) then 1 else 0)).
    { induction m as [|m IHm]; intros a; cbn [seq map].
      - destruct (Nat.leb_spec a (f x)), (Nat.ltb_spec (f x) (a + 0)); cbn [andb]; cbn; lia.
      - change (list_sum (?h :: ?t)) with (h + list_sum t). rewrite IHm. cbn [filter].
        destruct (Nat.eqb_spec (f x) a); cbn [length];
        destruct (Nat.leb_spec a (f x)), (Nat.leb_spec (S a) (f x)), (Nat.ltb_spec (f x) (a + S m)), (Nat.ltb_spec (f x) (S a + m)); cbn; lia. }
    rewrite E, IH by (intros; apply H; now right). specialize (H x (or_introl eq_refl)). cbn [length Nat.leb].
    destruct (Nat.ltb_spec (f x) (0 + n)); cbn; lia.
Qed.
Lemma count_with (f : R -> bool) (P : R -> Prop) l : (forall x, In x l -> (P x <-> f x = true)) ->
  exists m, Permutation l (m ++ filter (fun x => negb (f x)) l) /\ length m = length (filter f l) /\ Forall P m.
Proof.
  intros H. exists (filter f l). split; [|split; [reflexivity|]].
  - clear H. induction l as [|x l IH]; [constructor|]. cbn. destruct (f x); cbn; [now constructor|].
    eapply perm_trans; [apply perm_skip, IH|]. apply Permutation_middle.
  - apply Forall_forall. intros x Hx. apply filter_In in Hx. apply H; tauto.
Qed.

(** ** What a right answer is *)
(** [P] says which (throw id, value) pairs match.  A histogram of ten bins over edges that
    increase, where count k says how many of the samples are in bin k. *)
Definition counts_bins (samples : list R) (counts : list nat) (edges : list R) : Prop :=
  length counts = 10 /\ length edges = 11 /\
  (forall j k, j < k -> k < 11 -> (nth j edges 0 < nth k edges 0)%R) /\
  list_sum counts = length samples /\
  (forall k, k < 10 -> exists inside outside, Permutation samples (inside ++ outside) /\ length inside = nth k counts 0 /\
     (forall x, In x inside -> (nth k edges 0 <= x)%R /\ ((x < nth (S k) edges 0)%R \/ k = 9 /\ x = nth 10 edges 0%R)) /\
     (forall x, In x outside -> (x < nth k edges 0 \/ nth (S k) edges 0 <= x)%R)).
Definition right_answer (P : nat * R -> Prop) (out : printed) : Prop :=
  match out with
  | Nothing => forall x, ~ P x
  | Table rows => rows <> [] /\ NoDup rows /\ (forall x, In x rows <-> P x)
  | Object fields => fields <> [] /\ NoDup (map fst fields) /\ (forall x, In x fields <-> P x)
  | Histogram counts edges => exists rows, NoDup rows /\ (forall x, In x rows <-> P x) /\ counts_bins (map snd rows) counts edges
  | Raised => False
  end.
(** The pairs of a database that match a query *)
Definition matching (value : ray -> R) (q : query) (node : nat) (f : filters) (db : database) (x : nat * R) : Prop :=
  exists re, In re (joined db) /\ query_where q node f re = true /\ throw_id (fst re) = fst x /\ value (row_ray (fst re)) = snd x.

Lemma histogram_counts l : l <> [] -> counts_bins l (fst (np_histogram l)) (snd (np_histogram l)).
Proof.
  intros Ne. unfold np_histogram, counts_bins. cbn [fst snd]. split; [reflexivity|]. split; [reflexivity|].
  assert (Ed : forall k, k < 11 -> nth k (map (edge l) (seq 0 (S n_bins))) 0%R = edge l k).
  { intros k Hk. rewrite (nth_indep _ 0%R (edge l 0)) by (rewrite map_length, seq_length; exact Hk). rewrite map_nth, seq_nth by exact Hk. reflexivity. }
  split; [intros j k Hjk Hk; rewrite !Ed by lia; now apply edge_mono|].
  split; [apply partition_sum; intros x Hx; apply (bin_spec l x Hx)|].
  intros k Hk. rewrite !Ed by lia.
  assert (Ec : nth k (map (fun k => length (filter (fun x => Nat.eqb (bin_of l x) k) l)) (seq 0 n_bins)) 0 = length (filter (fun x => Nat.eqb (bin_of l x) k) l)).
  { rewrite (nth_indep _ 0 (length (filter (fun x => Nat.eqb (bin_of l x) 0) l))) by (rewrite map_length, seq_length; exact Hk).
    rewrite (map_nth (fun k => length (filter (fun x => Nat.eqb (bin_of l x) k) l))), seq_nth by exact Hk. reflexivity. }
  rewrite Ec. destruct (count_with (fun x => Nat.eqb (bin_of l x) k) (in_bin l k) l) as (m & Pm & Lm & _).
  { intros x Hx. rewrite Nat.eqb_eq. apply bin_unique; [exact Hx|exact Hk]. }
  exists (filter (fun x => Nat.eqb (bin_of l x) k) l), (filter (fun x => negb (Nat.eqb (bin_of l x) k)) l). split; [|split; [reflexivity|split]].
  - clear. induction l as [|x l' IH] at 1 3 5; [constructor|]. cbn. destruct (Nat.eqb (bin_of l x) k); cbn; [now constructor|].
    eapply perm_trans; [apply perm_skip, IH|]. apply Permutation_middle.
  - intros x Hx. apply filter_In in Hx. destruct Hx as [Hx B]. apply Nat.eqb_eq in B. apply (bin_unique l x k Hx Hk) in B.
    destruct B as [[B1 B2]|[B1 ->]]; [split; [exact B1|now left]|]. split.
    + apply Rlt_le, edge_mono; [exact Ne|exact Hk].
    + right. split; [unfold n_bins in B1; lia|]. reflexivity.
  - intros x Hx. apply filter_In in Hx. destruct Hx as [Hx B]. apply negb_true_iff, Nat.eqb_neq in B.
    destruct (Rlt_le_dec x (edge l k)) as [|G]; [now left|]. right. apply Rnot_lt_le. intros L. apply B.
    apply bin_unique; [exact Hx|exact Hk|]. left. split; assumption.
Qed.

Lemma combine_fst_snd {A B} (l : list (A * B)) : combine (map fst l) (map snd l) = l.
Proof. induction l as [|[a b] l IH]; [reflexivity|]. cbn. now rewrite IH. Qed.
Lemma rows_answer P rows output : rows <> [] -> NoDup rows -> (forall x, In x rows <-> P x) ->
  output <> Json \/ (forall x y, P x -> P y -> fst x = fst y -> snd x = snd y) -> right_answer P (handle_output (Rows rows) output).
Proof.
  intros Ne Nd Hin Hj. unfold handle_output. cbn [column0 column1]. destruct output.
  - pose proof (histogram_counts (map snd rows)) as C. destruct (np_histogram (map snd rows)) as [counts edges]. cbn [right_answer].
    exists rows. split; [exact Nd|]. split; [exact Hin|]. apply C. destruct rows; [contradiction|discriminate].
  - cbn [right_answer]. rewrite combine_fst_snd. auto.
  - destruct Hj as [Hj|Hj]; [congruence|].
    assert (N : NoDup (map fst rows)).
    { clear Ne. assert (H : forall x y, In x rows -> In y rows -> fst x = fst y -> snd x = snd y) by (intros x y Hx Hy; apply Hj; now apply Hin).
      clear - Nd H. induction Nd as [|x l Hx Nd IH]; [constructor|]. cbn. constructor.
      - intros C. apply in_map_iff in C. destruct C as (y & Ey & Hy). apply Hx.
        assert (snd y = snd x) by (apply H; [now right|now left|exact Ey]). destruct x, y; cbn in *; subst. exact Hy.
      - apply IH. intros a b Ha Hb. apply H; now right. }
    rewrite (nodup_fixed_point Nat.eq_dec N), Nat.eqb_refl. cbn [right_answer]. rewrite combine_fst_snd. auto.
Qed.
Lemma distinct_rows value q node f db :
  let rows := select_distinct pair_eq_dec (fun r => (throw_id r, value (row_ray r))) (query_where q node f) db in
  NoDup rows /\ forall x, In x rows <-> matching value q node f db x.
Proof.
  cbv zeta. unfold select_distinct. split; [apply NoDup_nodup|]. intros [i w]. rewrite nodup_In, in_map_iff. unfold matching. cbn [fst snd]. split.
  - intros (re & E & H). apply filter_In in H. injection E as <- <-. exists re. tauto.
  - intros (re & H1 & H2 & <- & <-). exists re. split; [reflexivity|]. apply filter_In. tauto.
Qed.

(** ** C96 *)
(** spectrum prints exactly the matching pairs, as CSV, and as JSON if each ray has one
    wavelength; the plot counts each matching pair in the bin it belongs to. *)
Theorem C96_spectrum_partial : forall q node f db output,
  output <> Json \/ (forall x y, matching wavelength q node f db x -> matching wavelength q node f db y -> fst x = fst y -> snd x = snd y) ->
  right_answer (matching wavelength q node f db) (spectrum_command q node f db output).
Proof.
  intros q node f db output Hj. unfold spectrum_command. destruct (distinct_rows wavelength q node f db) as [Nd Hin]. fold (sql_spectrum q node f db) in Nd, Hin.
  destruct (Nat.ltb_spec 0 (length (sql_spectrum q node f db))) as [L|L].
  - apply rows_answer; auto. intros E. rewrite E in L. cbn in L. lia.
  - cbn. intros x Hx. apply Hin in Hx. destruct (sql_spectrum q node f db); [destruct Hx|cbn in L; lia].
Qed.
Print Assumptions C96_spectrum_partial.
(** So does time for reflected, entering and escaping rays. *)
Theorem C96_time_partial : forall q node f db output, q = QReflected \/ q = QEntering \/ q = QEscaping ->
  output <> Json \/ (forall x y, matching duration q node f db x -> matching duration q node f db y -> fst x = fst y -> snd x = snd y) ->
  right_answer (matching duration q node f db) (time_command q node f db output).
Proof.
  intros q node f db output Hq Hj. unfold time_command. destruct (distinct_rows duration q node f db) as [Nd Hin]. fold (sql_time q node f db) in Nd, Hin.
  destruct (Nat.ltb_spec 0 (length (sql_time q node f db))) as [L|L].
  - assert (E : (match q with QLost | QReacted | QKilled => handle_output (Flat (map snd (sql_time q node f db))) output
                 | _ => handle_output (Rows (sql_time q node f db)) output end) = handle_output (Rows (sql_time q node f db)) output)
      by (destruct Hq as [->|[->| ->]]; reflexivity).
    rewrite E. apply rows_answer; auto. intros E'. rewrite E' in L. cbn in L. lia.
  - cbn. intros x Hx. apply Hin in Hx. destruct (sql_time q node f db); [destruct Hx|cbn in L; lia].
Qed.
Print Assumptions C96_time_partial.

(** time lost, reacted and killed fail whenever there is anything to print, in every format. *)
Theorem C96_time_volume_refuted :
  (forall q node f db output, q = QLost \/ q = QReacted \/ q = QKilled -> (exists x, matching duration q node f db x) ->
     time_command q node f db output = Raised) /\
  (exists pool ms node f x, one_task pool /\ received true pool ms /\ matching duration QLost node f (on_disk (monitor_queue ms)) x).
Proof.
  split.
  - intros q node f db output Hq [x Hx]. unfold time_command. apply (distinct_rows duration q node f db) in Hx. fold (sql_time q node f db) in Hx.
    destruct (Nat.ltb_spec 0 (length (sql_time q node f db))) as [L|L].
    + destruct Hq as [->|[->| ->]]; reflexivity.
    + destruct (sql_time q node f db); [destruct Hx|cbn in L; lia].
  - exists [[[ [ev_generate 500; ev_enter 500; ev_absorb 500; ev_lost 500] ]]], (in_turn true [[[ [ev_generate 500; ev_enter 500; ev_absorb 500; ev_lost 500] ]]]), 1, all_faces, (0, duration (ray_nm 500)).
    split; [intros [|p] ts; simpl; [intros [= <-]; simpl; lia|destruct p; discriminate]|]. split; [apply in_turn_received|].
    unfold matching, on_disk. rewrite joined_spec. eexists. split; [right; right; left; reflexivity|]. split; [|split; reflexivity]. reflexivity.
Qed.
Print Assumptions C96_time_volume_refuted.

(** spectrum --output json fails when a ray escapes twice with different wavelengths. *)
Theorem C96_json_refuted : exists pool ms q node f,
  one_task pool /\ received false pool ms /\ (exists x, matching wavelength q node f (on_disk (monitor_queue ms)) x) /\
  spectrum_command q node f (on_disk (monitor_queue ms)) Json = Raised.
Proof.
  destruct C66_spectrum_refuted as (pool & ms & q & node & f & H1 & H2 & _ & _ & H5 & H6). exists pool, ms, q, node, f.
  split; [exact H1|]. split; [exact H2|]. set (db := on_disk (monitor_queue ms)) in *. split.
  - exists (0, 500%R). apply (distinct_rows wavelength q node f db). exact H5.
  - unfold spectrum_command. destruct (Nat.ltb_spec 0 (length (sql_spectrum q node f db))) as [L|L]; [|destruct (sql_spectrum q node f db); [destruct H5|cbn in L; lia]].
    cbn [handle_output column0 column1]. destruct (Nat.eqb_spec (length (nodup Nat.eq_dec (map fst (sql_spectrum q node f db)))) (length (map fst (sql_spectrum q node f db)))) as [E|]; [exfalso|reflexivity].
    assert (N : NoDup (map fst (sql_spectrum q node f db))).
    { apply (NoDup_incl_NoDup (NoDup_nodup Nat.eq_dec (map fst (sql_spectrum q node f db)))); [lia|]. intros x. apply nodup_In. }
    clear E L. revert H5 H6 N. generalize (sql_spectrum q node f db) as l. clear. intros l.
    induction l as [|[i w] l IH]; [intros []|]. cbn. intros [E|H] [E'|H'] N; inversion N as [|? ? N1 N2]; subst.
    + injection E as -> ->. injection E' as E'. lra.
    + injection E as -> ->. apply N1. apply in_map_iff. now exists (0, 600%R).
    + injection E' as -> ->. apply N1. apply in_map_iff. now exists (0, 500%R).
    + auto.
Qed.
Print Assumptions C96_json_refuted.

(** Two rays that enter, ids 0 and 1 *)
Example C96_example :
  exists pool ms x y, received false pool ms /\ x <> y /\
    matching wavelength QEntering 1 all_faces (on_disk (monitor_queue ms)) x /\ matching wavelength QEntering 1 all_faces (on_disk (monitor_queue ms)) y /\
    exists counts edges, spectrum_command QEntering 1 all_faces (on_disk (monitor_queue ms)) Plot = Histogram counts edges /\ 2 <= list_sum counts.
Proof.
  set (pool := [[[ [ev_generate 500; ev_enter 500; ev_exit 500]; [ev_generate 600; ev_enter 600; ev_exit 600] ]]]).
  exists pool, (in_turn false pool), (0, 500%R), (1, 600%R). split; [apply in_turn_received|]. split; [discriminate|].
  set (db := on_disk (monitor_queue (in_turn false pool))).
  assert (M1 : matching wavelength QEntering 1 all_faces db (0, 500%R)).
  { unfold matching, db, on_disk. rewrite joined_spec. eexists. split; [right; left; reflexivity|]. split; [reflexivity|]. split; reflexivity. }
  assert (M2 : matching wavelength QEntering 1 all_faces db (1, 600%R)).
  { unfold matching, db, on_disk. rewrite joined_spec. eexists. split; [right; right; right; right; left; reflexivity|]. split; [reflexivity|]. split; reflexivity. }
  split; [exact M1|]. split; [exact M2|].
  clearbody db. assert (NJ : Plot <> Json) by discriminate. pose proof (C96_spectrum_partial QEntering 1 all_faces db Plot (or_introl NJ)) as A.
  destruct (spectrum_command QEntering 1 all_faces db Plot) as [|counts edges|rows|rows|] eqn:E.
  - exfalso. exact (A _ M1).
  - exists counts, edges. split; [reflexivity|]. destruct A as (rows & Nd & Hin & (_ & _ & _ & S & _)). rewrite S, map_length.
    apply Hin in M1, M2. destruct rows as [|a [|b r]]; cbn; [destruct M1| |lia]. exfalso. destruct M1 as [->|[]], M2 as [M2|[]]. discriminate.
  - exfalso. unfold spectrum_command in E. destruct (Nat.ltb 0 _); [|discriminate]. cbn in E. discriminate.
  - exfalso. unfold spectrum_command in E. destruct (Nat.ltb 0 _); [|discriminate]. cbn in E. discriminate.
  - destruct A.
Qed.
