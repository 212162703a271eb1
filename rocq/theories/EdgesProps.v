(** C160: the edges and the counts of a histogram belong together. *)
From Coq Require Import Reals ZArith List Bool Arith Lia Lra.
From Verif Require Import Base Vec TracerModel KernelModel TallyModel TallyProofs TallyProps LiveModel LiveProofs BrowserModel BrowserProps EdgesModel.
Import ListNotations.
Open Scope R_scope.

(** ** The edges *)
Lemma nth_error_seq n : forall a i, (i < n)%nat -> nth_error (seq a n) i = Some (a + i)%nat.
Proof.
  induction n as [|n IH]; intros a [|i] H; try lia; cbn [seq nth_error]; [f_equal; lia|]. rewrite IH by lia. f_equal. lia.
Qed.
Lemma edges_length h : length (edges h) = S (h_bins h).
Proof. unfold edges, linspace. rewrite map_length, seq_length. lia. Qed.
Lemma edges_nth h i : valid_histogram h -> (i <= h_bins h)%nat -> nth_error (edges h) i = Some (h_start h + INR i * width h).
Proof.
  intros H Hi. destruct (width_pos h H) as [W B]. destruct H as [H1 H2]. unfold edges, linspace.
  rewrite (map_nth_error _ i (seq 0 (h_bins h + 1)) (nth_error_seq (h_bins h + 1) 0 i ltac:(lia))). cbn [Nat.add].
  destruct (Nat.ltb_spec 1 (h_bins h + 1)); [|lia]. cbn [andb]. replace (h_bins h + 1 - 1)%nat with (h_bins h) by lia.
  f_equal. unfold width. destruct (Nat.eqb_spec (S i) (h_bins h + 1)) as [E|E]; [|ring]. replace i with (h_bins h) by lia. field. lra.
Qed.
Theorem C160_edges : forall h, valid_histogram h -> length (edges h) = S (h_bins h) /\
  nth_error (edges h) 0 = Some (h_start h) /\ nth_error (edges h) (h_bins h) = Some (h_stop h) /\
  forall i lo hi, nth_error (edges h) i = Some lo -> nth_error (edges h) (S i) = Some hi ->
    lo < hi /\ hi - lo = (h_stop h - h_start h) / INR (h_bins h).
Proof.
  intros h H. destruct (width_pos h H) as [W B]. split; [apply edges_length|].
  split; [rewrite edges_nth by (try exact H; lia); f_equal; simpl; ring|].
  split; [rewrite edges_nth by (try exact H; lia); f_equal; unfold width; field; lra|].
  intros i lo hi L U. assert (Hi : (S i < S (h_bins h))%nat) by (rewrite <- edges_length; apply nth_error_Some; congruence).
  rewrite edges_nth in L, U by (try exact H; lia). assert (El : lo = h_start h + INR i * width h) by congruence. assert (Eu : hi = h_start h + INR (S i) * width h) by congruence. rewrite El, Eu, S_INR. fold (width h). split; lra.
Qed.
Print Assumptions C160_edges.

(** ** The counts *)
(** how many of the values lie between two edges, the lower one included *)
Definition between (lo hi x : R) : bool := Rleb lo x && Rltb x hi.
Definition number_between (lo hi : R) (p : prop) (vs : list values) : nat :=
  length (filter (fun v => between lo hi (prop_value v p)) vs).
Definition number_in_cell (alo ahi : R) (pa : prop) (blo bhi : R) (pb : prop) (vs : list values) : nat :=
  length (filter (fun v => between alo ahi (prop_value v pa) && between blo bhi (prop_value v pb)) vs).
(** no value is below the start of the axis; only asked of the first bin *)
Definition fine (h : histogram) (i : nat) (vs : list values) : Prop :=
  i = 0%nat -> forall v, In v vs -> h_start h <= prop_value v (h_prop h).

Lemma between_spec lo hi x : between lo hi x = true <-> lo <= x < hi.
Proof. unfold between. rewrite andb_true_iff, Rleb_true, Rltb_true. reflexivity. Qed.
Definition falls (o : option nat) (i : nat) : bool := match o with Some x => Nat.eqb x i | None => false end.
Lemma falls_spec o i : falls o i = true <-> o = Some i.
Proof. destruct o; cbn; [rewrite Nat.eqb_eq; split; congruence|split; discriminate]. Qed.
Lemma falls_between h i lo hi vs v : valid_histogram h -> nth_error (edges h) i = Some lo -> nth_error (edges h) (S i) = Some hi ->
  fine h i vs -> In v vs -> falls (bin_index (prop_value v (h_prop h)) h) i = between lo hi (prop_value v (h_prop h)).
Proof.
  intros H L U F Hv. set (x := prop_value v (h_prop h)) in *.
  assert (Hi : (S i < S (h_bins h))%nat) by (rewrite <- edges_length; apply nth_error_Some; congruence).
  rewrite edges_nth in L, U by (try exact H; lia). assert (El : lo = h_start h + INR i * width h) by congruence. assert (Eu : hi = h_start h + INR (S i) * width h) by congruence. rewrite El, Eu, S_INR.
  apply eq_true_iff_eq. rewrite falls_spec, between_spec. destruct (bin_index_exact h x H) as [P N]. destruct (width_pos h H) as [W B].
  destruct (Rle_lt_dec (h_start h) x) as [C|C].
  - rewrite (P C i). split; [tauto|]. intros K. split; [lia|exact K].
  - rewrite (N C i). split.
    + intros [E _]. specialize (F E v Hv). fold x in F. lra.
    + intros [K _]. pose proof (pos_INR i). nra.
Qed.
Lemma filter_length_ext {A} (f g : A -> bool) l : (forall x, In x l -> f x = g x) -> length (filter f l) = length (filter g l).
Proof. intros H. now rewrite (filter_ext_in f g l H). Qed.
Lemma bins_nth vs s c : (c < bins_size s)%nat -> nth_error (bins_of vs s) c = Some (length (filter (fun v => falls (cell v s) c) vs)).
Proof. intros H. unfold bins_of. rewrite (map_nth_error _ c _ (nth_error_seq _ 0 c H)). reflexivity. Qed.
Lemma bins_length vs s : length (bins_of vs s) = bins_size s.
Proof. unfold bins_of. now rewrite map_length, seq_length. Qed.
Lemma edge_bin h i hi : nth_error (edges h) (S i) = Some hi -> (i < h_bins h)%nat.
Proof. intros U. assert (S i < S (h_bins h))%nat by (rewrite <- edges_length; apply nth_error_Some; congruence). lia. Qed.
Lemma line_count vs h i lo hi : valid_histogram h -> nth_error (edges h) i = Some lo -> nth_error (edges h) (S i) = Some hi -> fine h i vs ->
  nth_error (bins_of vs (H1 h)) i = Some (number_between lo hi (h_prop h) vs).
Proof.
  intros H L U F. rewrite bins_nth by (cbn; now apply (edge_bin h i hi)). f_equal. apply filter_length_ext. intros v Hv.
  cbn [cell]. now apply (falls_between h i lo hi vs).
Qed.
Lemma cell_falls v a b ia ib : (ib < h_bins b)%nat ->
  falls (cell v (H2 a b)) (ia * h_bins b + ib) = falls (bin_index (prop_value v (h_prop a)) a) ia && falls (bin_index (prop_value v (h_prop b)) b) ib.
Proof.
  intros Hb. apply eq_true_iff_eq. rewrite andb_true_iff, !falls_spec. cbn [cell].
  destruct (bin_index _ a) as [x|]; [|split; [discriminate|intros [? _]; discriminate]].
  destruct (bin_index _ b) as [y|] eqn:Eb; [|split; [discriminate|intros [_ ?]; discriminate]].
  apply bin_index_lt in Eb. split; [|intros [[= ->] [= ->]]; reflexivity]. intros [= E].
  assert (x = ia) by nia. subst. assert (y = ib) by lia. now subst.
Qed.
Lemma cell_count vs a b ia ib alo ahi blo bhi : valid_histogram a -> valid_histogram b ->
  nth_error (edges a) ia = Some alo -> nth_error (edges a) (S ia) = Some ahi ->
  nth_error (edges b) ib = Some blo -> nth_error (edges b) (S ib) = Some bhi -> fine a ia vs -> fine b ib vs ->
  nth_error (bins_of vs (H2 a b)) (ia * h_bins b + ib) = Some (number_in_cell alo ahi (h_prop a) blo bhi (h_prop b) vs).
Proof.
  intros Ha Hb La Ua Lb Ub Fa Fb. pose proof (edge_bin a ia ahi Ua). pose proof (edge_bin b ib bhi Ub).
  rewrite bins_nth by (cbn; nia). f_equal. apply filter_length_ext. intros v Hv. rewrite cell_falls by assumption.
  f_equal; [now apply (falls_between a ia alo ahi vs)|now apply (falls_between b ib blo bhi vs)].
Qed.
Lemma nth_error_firstn {A} (l : list A) : forall n i, (i < n)%nat -> nth_error (firstn n l) i = nth_error l i.
Proof. induction l as [|x l IH]; intros [|n] [|i] H; try lia; try reflexivity. cbn. apply IH. lia. Qed.
Lemma nth_error_skipn {A} (l : list A) : forall n i, nth_error (skipn n l) i = nth_error l (n + i).
Proof. induction l as [|x l IH]; intros [|n] i; try reflexivity; cbn; [now destruct i|apply IH]. Qed.

(** ** RecorderResult.histogram *)
(** The rays are those of a run; what recorder [rc] counts is the first matching interaction of
    each ray, as in C21 and C22. *)
Theorem C160_histogram_partial : forall rs ks rows total r node rc k rays matching index h,
  kernel_tables rs = (ks, rows, total) -> nth_error rs r = Some (node, rc) -> nth_error ks r = Some k ->
  (forall c, matching c = true <-> tc_node c = node /\ tc_sel c = rec_event rc /\ on_facet rc (tc_normal c)) ->
  nth_error (rec_hists rc) index = Some (H1 h) -> valid_histogram h ->
  let x := engine_result rows k r (fold_left (fun A calls => tally_ray rows ks calls A) rays acc0) in
  let vs := somes (map (first_call matching) rays) in
  exists counts, result_histogram rc x index = Some (Counts (edges h) counts) /\ length (edges h) = S (length counts) /\
    forall i lo hi, nth_error (edges h) i = Some lo -> nth_error (edges h) (S i) = Some hi -> fine h i vs ->
      nth_error counts i = Some (number_between lo hi (h_prop h) vs).
Proof.
  intros rs ks rows total r node rc k rays matching index h E Hr Hk Hm Hh Hv x vs. unfold x, result_histogram.
  rewrite (engine_result_spec rs ks rows total r node rc k rays E Hr Hk). cbn [r_bins]. rewrite Hh, (map_nth_error _ _ _ Hh).
  destruct (tables_ok rs ks rows total E) as (_ & _ & _ & Hks & _). specialize (Hks r node rc Hr). rewrite Hk in Hks. injection Hks as ->.
  rewrite (k_recorded_somes (KRec node rc (first_hist rs r) (length (rec_hists rc))) matching rays) by (apply (call_matching _ node rc); auto).
  fold vs. eexists. split; [reflexivity|]. split; [now rewrite edges_length, bins_length|]. intros i lo hi L U F. now apply line_count.
Qed.
Print Assumptions C160_histogram_partial.
Theorem C160_heatmap_partial : forall rs ks rows total r node rc k rays matching index a b,
  kernel_tables rs = (ks, rows, total) -> nth_error rs r = Some (node, rc) -> nth_error ks r = Some k ->
  (forall c, matching c = true <-> tc_node c = node /\ tc_sel c = rec_event rc /\ on_facet rc (tc_normal c)) ->
  nth_error (rec_hists rc) index = Some (H2 a b) -> valid_histogram a -> valid_histogram b ->
  let x := engine_result rows k r (fold_left (fun A calls => tally_ray rows ks calls A) rays acc0) in
  let vs := somes (map (first_call matching) rays) in
  exists grid, result_histogram rc x index = Some (Counts2 (edges a) (edges b) grid) /\ length (edges a) = S (length grid) /\
    (forall line, In line grid -> length (edges b) = S (length line)) /\
    forall ia ib alo ahi blo bhi, nth_error (edges a) ia = Some alo -> nth_error (edges a) (S ia) = Some ahi ->
      nth_error (edges b) ib = Some blo -> nth_error (edges b) (S ib) = Some bhi -> fine a ia vs -> fine b ib vs ->
      exists line, nth_error grid ia = Some line /\
        nth_error line ib = Some (number_in_cell alo ahi (h_prop a) blo bhi (h_prop b) vs).
Proof.
  intros rs ks rows total r node rc k rays matching index a b E Hr Hk Hm Hh Ha Hb x vs. unfold x, result_histogram.
  rewrite (engine_result_spec rs ks rows total r node rc k rays E Hr Hk). cbn [r_bins]. rewrite Hh, (map_nth_error _ _ _ Hh).
  destruct (tables_ok rs ks rows total E) as (_ & _ & _ & Hks & _). specialize (Hks r node rc Hr). rewrite Hk in Hks. injection Hks as ->.
  rewrite (k_recorded_somes (KRec node rc (first_hist rs r) (length (rec_hists rc))) matching rays) by (apply (call_matching _ node rc); auto).
  fold vs. unfold reshape. pose proof (bins_length vs (H2 a b)) as Lb. cbn [bins_size] in Lb. rewrite Lb, Nat.eqb_refl. cbn [option_map].
  eexists. split; [reflexivity|]. rewrite !edges_length, map_length, seq_length. split; [reflexivity|]. split.
  - intros line Hl. apply in_map_iff in Hl. destruct Hl as (ia & <- & Hi). apply in_seq in Hi. f_equal.
    rewrite firstn_length, skipn_length, Lb. nia.
  - intros ia ib alo ahi blo bhi La Ua Lbb Ub Fa Fb. pose proof (edge_bin a ia ahi Ua). pose proof (edge_bin b ib bhi Ub).
    eexists. split; [rewrite (map_nth_error _ ia _ (nth_error_seq _ 0 ia H)); reflexivity|]. cbn [Nat.add].
    rewrite nth_error_firstn by assumption. rewrite nth_error_skipn. now apply cell_count.
Qed.
Print Assumptions C160_heatmap_partial.
(** The first count also contains values below the first edge (C19). *)
Definition left_of : tally_call := Tally Exit 0 None (V (- (1 / 2)) 0 0) 0 555 0 0.
Definition x_recorder : recorder := Recorder 7 Exit None 0 [H1 (Histogram PX 0 10 10)].
Theorem C160_first_bin_refuted : exists rs ks rows total k rays counts v,
  kernel_tables rs = (ks, rows, total) /\ nth_error rs 0 = Some (0%nat, x_recorder) /\ nth_error ks 0 = Some k /\
  k_recorded k rays = [v] /\ prop_value v PX < 0 /\
  result_histogram x_recorder (engine_result rows k 0 (fold_left (fun A calls => tally_ray rows ks calls A) rays acc0)) 0 =
    Some (Counts (edges (Histogram PX 0 10 10)) counts) /\
  nth_error counts 0 = Some 1%nat /\ number_between 0 1 PX [v] = 0%nat.
Proof.
  set (h := Histogram PX 0 10 10). assert (H : valid_histogram h) by (split; simpl; [lra|lia]).
  exists [(0%nat, x_recorder)]. destruct (kernel_tables [(0%nat, x_recorder)]) as [[ks rows] total] eqn:E.
  exists ks, rows, total. pose proof E as E'. cbn in E'. injection E' as Ek Er Et.
  set (k := KRec 0 x_recorder 0 1). assert (Hk : nth_error ks 0 = Some k) by (rewrite <- Ek; reflexivity).
  exists k, [[left_of]], (bins_of [call_values left_of] (H1 h)), (call_values left_of). split; [reflexivity|]. split; [reflexivity|]. split; [exact Hk|].
  assert (V : k_recorded k [[left_of]] = [call_values left_of]) by reflexivity. split; [exact V|].
  split; [cbn; lra|]. split.
  { unfold result_histogram. rewrite (engine_result_spec _ ks rows total 0 0%nat x_recorder k [[left_of]] E eq_refl Hk). cbn [r_bins]. rewrite V. reflexivity. }
  split.
  - rewrite (bins_nth _ (H1 h) 0) by (cbn; lia). cbn [filter cell]. replace (falls _ 0) with true; [reflexivity|]. symmetry. apply falls_spec.
    apply (proj2 (bin_index_exact h _ H)); [cbn; lra|]. split; [reflexivity|]. unfold width, h. cbn [h_start h_stop h_bins h_prop prop_value call_values left_of v_local tc_lpos vx].
    rewrite INR_IZR_INZ. cbn [Z.of_nat Pos.of_succ_nat Pos.succ]. lra.
  - unfold number_between. cbn [filter]. replace (between _ _ _) with false; [reflexivity|]. symmetry. apply not_true_iff_false. rewrite between_spec. cbn. lra.
Qed.
Print Assumptions C160_first_bin_refuted.

(** ** The studio *)
Lemma at_nth {A} (l : list A) i : at_index l (Z.of_nat i) = nth_error l i.
Proof. unfold at_index. destruct (Z.ltb_spec (Z.of_nat i) 0); [lia|]. now rewrite Nat2Z.id. Qed.
Lemma some_edge h i : valid_histogram h -> (i < h_bins h)%nat -> exists lo hi, nth_error (edges h) i = Some lo /\ nth_error (edges h) (S i) = Some hi.
Proof. intros H Hi. do 2 eexists. split; apply edges_nth; try exact H; lia. Qed.
Lemma share (l : list nat) i c : nth_error l i = Some c -> (c <= list_sum l)%nat.
Proof.
  revert i. induction l as [|x l IH]; intros [|i] H; try discriminate; change (list_sum (x :: l)) with (x + list_sum l)%nat.
  - injection H as ->. lia.
  - specialize (IH i H). lia.
Qed.
(** The descriptions that are sent at the start of a run, the figures that are sent during the run,
    and the numbers in the readout for any position of the mouse on the canvas. *)
Theorem C160_readout_partial : forall rs ks rows total r node rc k rays matching f fs m,
  kernel_tables rs = (ks, rows, total) -> nth_error rs r = Some (node, rc) -> nth_error ks r = Some k ->
  (forall c, matching c = true <-> tc_node c = node /\ tc_sel c = rec_event rc /\ on_facet rc (tc_normal c)) ->
  shows rs (fold_left (fun A calls => tally_ray rows ks calls A) rays acc0) fs -> nth_error fs r = Some f ->
  nth_error (histogram_meta rs) r = Some m ->
  let vs := somes (map (first_call matching) rays) in
  me_name m = f_name f /\ me_event m = rec_event rc /\ me_node m = node /\
  forall index spec, nth_error (rec_hists rc) index = Some spec -> exists entry values,
    nth_error (me_histograms m) index = Some entry /\ nth_error (f_histograms f) index = Some values /\
    forall fx fy, 0 <= fx < 1 -> 0 <= fy < 1 ->
    match spec with
    | H1 h => valid_histogram h -> forall shape,
        if match h_prop h with PAngle => true | _ => false end then inspect_bin entry values shape fx fy = Some NoReadout
        else exists i lo hi count percent, Z.of_nat i = readout_bars (h_bins h) fx /\
          nth_error (edges h) i = Some lo /\ nth_error (edges h) (S i) = Some hi /\
          inspect_bin entry values shape fx fy = Some (Lines (h_prop h) lo hi count (sqrt (INR count)) percent) /\
          0 <= percent <= 100 /\ (fine h i vs -> count = number_between lo hi (h_prop h) vs)
    | H2 a b => valid_histogram a -> valid_histogram b ->
        exists ia ib alo ahi blo bhi count, (Z.of_nat ia, Z.of_nat ib) = readout_heatmap (h_bins a) (h_bins b) fx fy /\
          nth_error (edges a) ia = Some alo /\ nth_error (edges a) (S ia) = Some ahi /\
          nth_error (edges b) ib = Some blo /\ nth_error (edges b) (S ib) = Some bhi /\
          inspect_bin entry values (h_bins a, h_bins b) fx fy = Some (Cells (h_prop a) alo ahi (h_prop b) blo bhi count) /\
          (fine a ia vs -> fine b ib vs -> count = number_in_cell alo ahi (h_prop a) blo bhi (h_prop b) vs)
    end.
Proof.
  intros rs ks rows total r node rc k rays matching f fs m E Hr Hk Hm Sh Hf Hme vs.
  destruct (tables_ok rs ks rows total E) as (_ & _ & _ & Hks & _). specialize (Hks r node rc Hr). rewrite Hk in Hks. injection Hks as Ek.
  unfold shows in Sh. rewrite E in Sh. destruct Sh as [_ Sh]. destruct (Sh r k f Hk Hf) as (Fn & _ & _ & Fh & _).
  rewrite (engine_result_spec rs ks rows total r node rc k rays E Hr Hk) in Fh. cbn [r_bins] in Fh.
  rewrite Ek in Fh. rewrite (k_recorded_somes (KRec node rc (first_hist rs r) (length (rec_hists rc))) matching rays) in Fh by (apply (call_matching _ node rc); auto).
  fold vs in Fh. unfold histogram_meta in Hme. change (compile_recorders rs 0 0) with (kernel_tables rs) in Hme. rewrite E in Hme.
  rewrite (map_nth_error _ _ _ Hk) in Hme. injection Hme as <-. cbn [me_name me_event me_node me_histograms]. subst k. cbn [kr_rec kr_node kr_start] in *.
  split; [now symmetry|]. split; [reflexivity|]. split; [reflexivity|]. intros index spec Hs.
  exists (entry_of rows (first_hist rs r) index spec), (bins_of vs spec). split.
  { pose proof (map_combine_seq (fun h spec => entry_of rows (first_hist rs r) h spec) (rec_hists rc) 0 index spec Hs) as G. exact G. }
  split; [rewrite Fh; now apply map_nth_error|]. intros fx fy Hx Hy.
  destruct spec as [h|a b].
  - intros Hv shape. cbn [entry_of inspect_bin].
    assert (Hb : (0 < h_bins h)%nat) by (destruct Hv; lia).
    destruct (C101_readout_defined 1 1 (h_bins h) fx fy ltac:(lia) ltac:(lia) Hb Hx Hy) as (_ & _ & Ri).
    pose proof (bins_length vs (H1 h)) as Lb. cbn [bins_size] in Lb.
    assert (G : exists i lo hi count percent, Z.of_nat i = readout_bars (h_bins h) fx /\
          nth_error (edges h) i = Some lo /\ nth_error (edges h) (S i) = Some hi /\
          (let j := readout_bars (length (bins_of vs (H1 h))) fx in
           let total := match list_sum (bins_of vs (H1 h)) with O => 1%nat | t => t end in
           match at_index (edges h) j, at_index (edges h) (j + 1), at_index (bins_of vs (H1 h)) j with
           | Some lo, Some hi, Some c => Some (Lines (h_prop h) lo hi c (sqrt (INR c)) (100 * INR c / INR total))
           | _, _, _ => None
           end) = Some (Lines (h_prop h) lo hi count (sqrt (INR count)) percent) /\
          0 <= percent <= 100 /\ (fine h i vs -> count = number_between lo hi (h_prop h) vs)).
    { set (i := Z.to_nat (readout_bars (h_bins h) fx)). assert (Ei : Z.of_nat i = readout_bars (h_bins h) fx) by (unfold i; lia).
      destruct (some_edge h i Hv ltac:(lia)) as (lo & hi & L & U).
      destruct (nth_error (bins_of vs (H1 h)) i) as [c|] eqn:Ec; [|apply nth_error_None in Ec; lia].
      exists i, lo, hi, c. eexists. split; [exact Ei|]. split; [exact L|]. split; [exact U|]. cbv zeta. rewrite Lb, <- Ei.
      replace (Z.of_nat i + 1)%Z with (Z.of_nat (S i)) by lia. rewrite !at_nth, L, U, Ec. split; [reflexivity|]. split.
      - pose proof (share _ _ _ Ec) as Sc. pose proof (pos_INR c) as Pc.
        assert (Q : forall t, (c <= t)%nat -> (c <= match t with O => 1%nat | S n => S n end)%nat /\ (0 < match t with O => 1%nat | S n => S n end)%nat) by (intros [|t]; lia).
        destruct (Q _ Sc) as [Q1 Q2]. match type of Q2 with (0 < ?w)%nat => set (u := w) in * end. apply le_INR in Q1. apply lt_0_INR in Q2.
        split; [apply Rmult_le_pos; [lra|left; now apply Rinv_0_lt_compat]|].
        apply Rmult_le_reg_r with (INR u); [exact Q2|]. unfold Rdiv. rewrite Rmult_assoc, Rinv_l by lra. lra.
      - intros F. pose proof (line_count vs h i lo hi Hv L U F) as LC. congruence. }
    destruct (h_prop h); try exact G. reflexivity.
  - intros Ha Hb. cbn [entry_of inspect_bin].
    destruct (C101_readout_defined (h_bins a) (h_bins b) 1 fx fy ltac:(destruct Ha; lia) ltac:(destruct Hb; lia) ltac:(lia) Hx Hy) as (Ra & Rb & _).
    destruct (readout_heatmap (h_bins a) (h_bins b) fx fy) as [za zb] eqn:Ez. cbn [fst snd] in Ra, Rb.
    set (ia := Z.to_nat za). set (ib := Z.to_nat zb). assert (Ea : za = Z.of_nat ia) by (unfold ia; lia). assert (Eb : zb = Z.of_nat ib) by (unfold ib; lia).
    destruct (some_edge a ia Ha ltac:(lia)) as (alo & ahi & La & Ua). destruct (some_edge b ib Hb ltac:(lia)) as (blo & bhi & Lb & Ub).
    pose proof (bins_length vs (H2 a b)) as Ln. cbn [bins_size] in Ln.
    destruct (nth_error (bins_of vs (H2 a b)) (ia * h_bins b + ib)) as [c|] eqn:Ec.
    2:{ apply nth_error_None in Ec. rewrite Ln in Ec. nia. }
    exists ia, ib, alo, ahi, blo, bhi, c. rewrite Ea, Eb. split; [reflexivity|]. do 4 (split; [assumption|]).
    replace (Z.of_nat ia + 1)%Z with (Z.of_nat (S ia)) by lia. replace (Z.of_nat ib + 1)%Z with (Z.of_nat (S ib)) by lia.
    replace (Z.of_nat ia * Z.of_nat (h_bins b) + Z.of_nat ib)%Z with (Z.of_nat (ia * h_bins b + ib)) by lia.
    rewrite !at_nth, La, Ua, Lb, Ub, Ec. split; [reflexivity|]. intros Fa Fb.
    pose proof (cell_count vs a b ia ib alo ahi blo bhi Ha Hb La Ua Lb Ub Fa Fb) as CC. congruence.
Qed.
Print Assumptions C160_readout_partial.

(** The percentages of all bars make 100, unless nothing was counted: then they are 0. *)
Theorem C160_percentages : forall values : list nat,
  let total := match list_sum values with O => 1%nat | t => t end in
  fold_right Rplus 0 (map (fun c => 100 * INR c / INR total) values) = if Nat.eqb (list_sum values) 0 then 0 else 100.
Proof.
  intros l total. assert (G : forall d l, d <> 0 -> fold_right Rplus 0 (map (fun c => 100 * INR c / d) l) = 100 * INR (list_sum l) / d).
  { clear. intros d l Hd. induction l as [|c l IH]; [cbn; field; exact Hd|]. cbn [map fold_right].
    change (list_sum (c :: l)) with (c + list_sum l)%nat. rewrite IH, plus_INR. field. exact Hd. }
  rewrite G by (apply not_0_INR; unfold total; destruct (list_sum l); discriminate). unfold total. destruct (list_sum l) as [|t]; [cbn; lra|].
  cbn [Nat.eqb]. field. apply not_0_INR. lia.
Qed.
Print Assumptions C160_percentages.

Example C160_example : edges (Histogram PWavelength 400 800 4) = [400; 500; 600; 700; 800] /\
  number_between 500 600 PWavelength [Values 555 0 0 0 (V 0 0 0); Values 600 0 0 0 (V 0 0 0)] = 1%nat /\
  inspect_bin (MetaHist 0 PWavelength [400; 500; 600; 700; 800]) [0; 3; 1; 0]%nat (0, 0)%nat (3 / 10) 0 =
    Some (Lines PWavelength 500 600 3 (sqrt 3) (100 * 3 / 4)).
Proof.
  split; [|split].
  - unfold edges, linspace. cbn -[Rmult Rdiv Rplus Rminus]. repeat (f_equal; try lra).
  - unfold number_between. cbn [filter prop_value v_wavelength]. replace (between 500 600 555) with true by (symmetry; rewrite between_spec; lra).
    replace (between 500 600 600) with false; [reflexivity|]. symmetry. apply not_true_iff_false. rewrite between_spec. lra.
  - assert (R1 : readout_bars 4 (3 / 10) = 1%Z).
    { unfold readout_bars. replace (floor (3 / 10 * INR 4)) with 1%Z; [reflexivity|]. symmetry. apply floor_unique. rewrite INR_IZR_INZ. simpl. lra. }
    cbn [inspect_bin length]. rewrite R1. transitivity (Some (Lines PWavelength 500 600 3 (sqrt (INR 3)) (100 * INR 3 / INR 4))); [reflexivity|].
    replace (INR 3) with 3 by (simpl; ring). replace (INR 4) with 4 by (simpl; ring). reflexivity.
Qed.
(** The offset in a description is where the values of the figures begin in the bins of the run. *)
Definition offset_of (m : meta_entry) : nat := match m with MetaHeatmap o _ _ _ _ => o | MetaHist o _ _ => o end.
Theorem C160_offset : forall rs A fs f m r index entry values,
  shows rs A fs -> nth_error fs r = Some f -> nth_error (histogram_meta rs) r = Some m ->
  nth_error (me_histograms m) index = Some entry -> nth_error (f_histograms f) index = Some values ->
  values = map (a_bins A) (seq (offset_of entry) (length values)).
Proof.
  intros rs A fs f m r index entry values Sh Hf Hme He Hv. unfold shows in Sh. unfold histogram_meta in Hme.
  change (compile_recorders rs 0 0) with (kernel_tables rs) in Hme. destruct (kernel_tables rs) as [[ks rows] total] eqn:E.
  destruct Sh as [_ Sh]. destruct (nth_error ks r) as [k|] eqn:Hk.
  2:{ apply nth_error_None in Hk. assert (r < length (map (fun k => Meta (rec_name (kr_rec k)) (rec_event (kr_rec k)) (kr_node k)
         (map (fun '(h, spec) => entry_of rows (kr_start k) h spec)
              (combine (seq 0 (length (rec_hists (kr_rec k)))) (rec_hists (kr_rec k))))) ks))%nat by (apply nth_error_Some; congruence).
      rewrite map_length in H. lia. }
  destruct (Sh r k f Hk Hf) as (_ & _ & _ & Fh & _). rewrite (map_nth_error _ _ _ Hk) in Hme. injection Hme as <-. cbn [me_histograms] in He.
  destruct (nth_error (rec_hists (kr_rec k)) index) as [spec|] eqn:Hs.
  2:{ apply nth_error_None in Hs. assert (index < length (map (fun '(h, spec) => entry_of rows (kr_start k) h spec)
              (combine (seq 0 (length (rec_hists (kr_rec k)))) (rec_hists (kr_rec k)))))%nat by (apply nth_error_Some; congruence).
      rewrite combine_seq_length in H. lia. }
  rewrite (map_combine_seq (fun h spec => entry_of rows (kr_start k) h spec) (rec_hists (kr_rec k)) 0 index spec Hs) in He. cbn [Nat.add] in He.
  injection He as <-. rewrite Fh in Hv. unfold engine_result in Hv. cbn [r_bins] in Hv.
  assert (Hi : (index < kr_n k)%nat).
  { pose proof (proj1 (nth_error_Some _ index) (fun N => eq_ind None (fun o => match o with None => True | Some _ => False end) I (Some values) (eq_trans (eq_sym N) Hv))) as Hl.
    rewrite map_length, seq_length in Hl. exact Hl. }
  rewrite (map_nth_error _ index _ (nth_error_seq (kr_n k) 0 index Hi)) in Hv. cbn [Nat.add] in Hv. cbv zeta in Hv.
  assert (Eo : offset_of (entry_of rows (kr_start k) index spec) = hr_offset (nth (kr_start k + index) rows default_row)) by (destruct spec; reflexivity).
  rewrite Eo. injection Hv as <-. unfold slice. now rewrite map_length, seq_length.
Qed.
Print Assumptions C160_offset.
