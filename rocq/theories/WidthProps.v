(** C130: the integer arithmetic of the kernel does not overflow. *)
From Coq Require Import Reals ZArith List Bool Lia String.
From Verif Require Import Base Vec TransformModel TracerModel KernelModel TallyModel CompilerModel CompilerProps MemModel MemLayoutModel MemProofs MemProps WidthModel.
Import ListNotations.
Open Scope Z_scope.

(** the value of an expression is z, computed without overflow *)
Definition is (x : cval) (z : Z) : Prop := exists t, x = Some (t, z).
Lemma chk_ok t z : cmin t <= z <= cmax t -> chk t z = Some (t, z).
Proof. intros H. unfold chk. replace (cmin t <=? z) with true by (symmetry; apply Z.leb_le; lia). replace (z <=? cmax t) with true by (symmetry; apply Z.leb_le; lia). reflexivity. Qed.
Lemma chk_not t z : cmax t < z -> chk t z = None.
Proof. intros H. unfold chk. replace (z <=? cmax t) with false by (symmetry; apply Z.leb_gt; lia). now rewrite andb_false_r. Qed.
Lemma int_ok z : - 2 ^ 31 <= z < 2 ^ 31 -> int z = Some (Int, z).
Proof. intros H. apply chk_ok. cbn [cmin cmax]. lia. Qed.
Lemma long_ok z : - 2 ^ 63 <= z < 2 ^ 63 -> long z = Some (Long, z).
Proof. intros H. apply chk_ok. cbn [cmin cmax]. lia. Qed.
Lemma cop_ok f t a u b : cmin (join t u) <= f a b <= cmax (join t u) -> cop f (Some (t, a)) (Some (u, b)) = Some (join t u, f a b).
Proof. intros H. unfold cop. now apply chk_ok. Qed.
Ltac widths := unfold cadd, cmul; repeat first [rewrite int_ok by lia | rewrite long_ok by lia | rewrite cop_ok by (cbn [cmin cmax join]; nia); cbn [join]].

(** The sizes for which this is proved: the tallies of all threads have fewer than 2^31 cells, all
    tables fewer than 2^30, log and rays fewer than 2^63. *)
Definition logs_and_rays : list array :=
  [ev_position; ev_direction; ev_normal; ev_kind; ev_hit; ev_container; ev_adjacent; ev_component; ev_source;
   ev_wavelength; ev_travelled; ev_duration; pos_work; dir_work; wav_work; counts].
Definition moderate (mem : memory) (s : setting) (c : call) : Prop :=
  b_threads c * total_bins s < 2 ^ 31 /\ b_threads c < 2 ^ 20 /\
  (forall a, ~ In a logs_and_rays -> ~ In a [distinct; cross; sums; bins] -> m_len mem a < 2 ^ 30) /\
  (forall a, m_len mem a < 2 ^ 63) /\ b_rays c * 3 < 2 ^ 63.

(** Every access of a run is at the place of the exact arithmetic: the pointer is moved without
    overflow, and the rest fits the type of the index. *)
Theorem C130_addresses_partial : forall scene rs c mem s,
  spectra_built scene -> trace_bundle scene rs c = Some (mem, s) -> 1 <= b_threads c -> moderate mem s c ->
  forall o fuel tid i, may_run c tid -> 0 <= i < b_rays c ->
  forall x, In x (accesses mem s fuel tid i o) ->
  exists b, is (WidthModel.start s tid i (x_array x)) b /\ 0 <= x_index x - b <= cmax (index_type (x_array x)).
Proof.
  intros scene rs c mem s B H Hc (M1 & M2 & M3 & M4 & M5) o fuel tid i [Ht1 Ht2] Hi x Hx.
  pose proof (bundle_well_formed _ _ _ _ _ B H) as W. specialize (Ht2 Hc).
  destruct (safe_trace_ray _ _ _ _ tid i W ltac:(unfold nthr; lia) fuel Hi o ([], 0%nat) (Forall_nil _)) as [A _].
  rewrite Forall_forall in A. destruct (A x Hx) as (I & Own & _). clear A Hx.
  pose proof (wf_recorders _ _ _ _ W) as R. pose proof (wf_bins _ _ _ _ W) as Tb. unfold MAX_RECORDERS in R.
  destruct x as [w a k]. cbn [x_array x_index] in *. pose proof (M3 a) as M3a. pose proof (M4 a) as M4a. clear M3 M4.
  assert (B1 : 0 <= tid * total_bins s /\ tid * total_bins s + total_bins s < 2 ^ 31) by nia.
  assert (B2 : 0 <= tid * n_recorders s < 2 ^ 28) by nia.
  unfold is, WidthModel.start, base_counts, base_sums, base_bins.
  destruct a; cbn [index_type cmax] in *;
    try (exists 0; split; [eexists; apply int_ok; lia|]; try lia; specialize (M3a ltac:(cbn; intuition discriminate) ltac:(cbn; intuition discriminate)); lia);
    cbn [mine] in Own; clear M3a.
  - exists (tid * n_recorders s). split; [eexists; widths; reflexivity|]. nia.
  - exists (tid * n_recorders s). split; [eexists; widths; reflexivity|]. nia.
  - exists (tid * n_recorders s * 8). split; [eexists; widths; reflexivity|]. nia.
  - exists (tid * total_bins s). split; [|nia]. eexists. 
    assert (total_bins s < 2 ^ 31) by nia. widths. reflexivity.
  - exists (i * 3). split; [eexists; widths; reflexivity|lia].
  - exists (i * 3). split; [eexists; widths; reflexivity|lia].
Qed.
Print Assumptions C130_addresses_partial.

(** The indices inside a row, for the values that occur: bins of a histogram that lies in the
    row, sums of a recorder, rows of the log, the middle of a table, the step counter. *)
Theorem C130_indices_partial :
  (forall total offset na ia, total < 2 ^ 31 -> 0 <= offset -> 0 <= ia < na -> offset + na <= total -> is (bin_index offset ia) (offset + ia)) /\
  (forall total offset na nb ia ib, total < 2 ^ 31 -> 0 <= offset -> 0 <= ia < na -> 0 <= ib < nb -> offset + na * nb <= total ->
     is (cell_index offset ia nb ib) (offset + ia * nb + ib)) /\
  (forall r k, 0 <= r < MAX_RECORDERS -> 0 <= k < 8 -> is (sums_index r k) (r * 8 + k)) /\
  (forall n every e i count j, 1 <= every < 2 ^ 63 -> 0 <= i < n -> n < 2 ^ 63 -> 0 <= count < e -> e < 2 ^ 31 -> 0 <= j < 3 ->
     (n + every - 1) / every * e * 3 < 2 ^ 63 ->
     is (log_row (log_base i every e) count) (i / every * e + count) /\
     is (log_row3 (log_row (log_base i every e) count) j) ((i / every * e + count) * 3 + j)) /\
  (forall n lo hi, n <= 2 ^ 30 -> 0 <= lo <= hi -> hi < n -> is (mid lo hi) ((lo + hi) / 2)) /\
  (forall maxsteps count, maxsteps < 2 ^ 31 - 1 -> 0 <= count <= maxsteps -> is (next_count count) (count + 1)).
Proof.
  unfold is. split; [|split; [|split; [|split; [|split]]]].
  - intros total offset na ia Ht Ho Hi Hl. eexists. unfold bin_index. widths. reflexivity.
  - intros total offset na nb ia ib Ht Ho Hi Hb Hl. eexists. unfold cell_index.
    assert (0 <= ia * nb) by nia. assert (ia * nb + ib < na * nb) by nia. assert (nb <= na * nb) by nia. assert (na <= na * nb) by nia. widths. reflexivity.
  - intros r k Hr Hk. unfold MAX_RECORDERS in Hr. eexists. unfold sums_index. widths. reflexivity.
  - intros n every e i count j He Hi Hn Hc Hm Hj Hl.
    assert (D0 : 0 <= i / every) by (apply Z.div_pos; lia).
    assert (D1 : i / every < (n + every - 1) / every).
    { assert (i / every + 1 <= (n + every - 1) / every); [|lia]. rewrite <- Z.div_add by lia. rewrite Z.mul_1_l. apply Z.div_le_mono; lia. }
    assert (Q : (i / every + 1) * e <= (n + every - 1) / every * e) by nia.
    set (q := i / every) in *. set (N := (n + every - 1) / every * e) in *. assert (0 <= q * e) by nia.
    assert (q <= q * e) by nia. 
    assert (L : log_row (log_base i every e) count = Some (Long, q * e + count)).
    { unfold log_row, log_base. fold q. widths. reflexivity. }
    split; [eexists; exact L|]. eexists. rewrite L. unfold log_row3. widths. reflexivity.
  - intros n lo hi Hn Hl Hh. eexists. unfold mid. widths. rewrite Z.shiftr_div_pow2 by lia. reflexivity.
  - intros m count Hm Hc. eexists. unfold next_count. widths. reflexivity.
Qed.
Print Assumptions C130_indices_partial.

(** Refuted without the bound: a heatmap of 12000 by 12000 bins and 16 workers.  The last thread
    writes to bins, but the offset of its row, 15 * 144000000, exceeds 2^31 - 1. *)
Definition wide (n m : nat) : recorder := Recorder 0 Exit None 0 [TallyModel.H2 (Histogram PX 0 1 n) (Histogram PY 0 1 m)].
Definition leaves0 : oracle := Oracle (Nat.eqb 1) (fun _ => 0).
Definition writes_bins (x : access) : bool := match x with Access true bins _ => true | _ => false end.
Lemma wide_run n m : exists mem s, trace_bundle open_world [(0%nat, wide (S n) (S m))] (Call 5 1000 128 0 16 3) = Some (mem, s) /\
  total_bins s = Z.of_nat (S n) * Z.of_nat (S m) /\
  exists x, In x (accesses mem s 9 15 3 leaves0) /\ x_array x = bins /\ x_write x = true.
Proof.
  unfold trace_bundle. rewrite open_world_compiles. 
  eexists. eexists. split; [reflexivity|]. split; [rewrite <- Nat2Z.inj_mul; reflexivity|].
  match goal with |- exists x, In x ?l /\ _ => assert (E : existsb writes_bins l = true) by (vm_compute; reflexivity) end.
  apply existsb_exists in E. destruct E as (x & I & E). exists x. split; [exact I|]. destruct x as [[|] [] k]; try discriminate E; split; reflexivity.
Qed.

Theorem C130_addresses_refuted : exists scene rs c mem s o fuel tid i x,
  spectra_built scene /\ trace_bundle scene rs c = Some (mem, s) /\ b_threads c = 16 /\ total_bins s = 12000 * 12000 /\ may_run c tid /\ 0 <= i < b_rays c /\
  In x (accesses mem s fuel tid i o) /\ x_write x = true /\ WidthModel.start s tid i (x_array x) = None.
Proof.
  destruct (wide_run (Z.to_nat 11999) (Z.to_nat 11999)) as (mem & s & H & T & x & I & A & W).
  rewrite !Nat2Z.inj_succ, !Z2Nat.id in T by lia.
  exists open_world, [(0%nat, wide (S (Z.to_nat 11999)) (S (Z.to_nat 11999)))], (Call 5 1000 128 0 16 3), mem, s, leaves0, 9%nat, 15, 3, x.
  split; [exact open_world_built|]. split; [exact H|]. split; [reflexivity|]. split; [exact T|]. split; [split; cbn [b_threads]; lia|]. split; [cbn [b_rays]; lia|].
  split; [exact I|]. split; [exact W|]. rewrite A. cbn [WidthModel.start]. unfold base_bins. rewrite T. rewrite !int_ok by lia. cbn [cmul cop join]. apply chk_not. cbn [cmax]. lia.
Qed.
Print Assumptions C130_addresses_refuted.

(** With 4 workers the same recorder is within the bounds: the row of thread 3 starts at 432000000. *)
Example C130_example : is (base_bins (Setting 1 0 1 144000000 128 3 1000 0) 3) 432000000 /\ base_bins (Setting 1 0 1 144000000 128 3 1000 0) 15 = None /\
  is (cell_index 100 2 6 5) 117 /\ is (log_row3 (log_row (log_base 3000000000 3 128) 7) 2) 384000000023.
Proof. unfold is. repeat split; try eexists; vm_compute; reflexivity. Qed.
Example C130_example_moderate : exists mem s, trace_bundle open_world [(0%nat, leaving)] (Call 5 1000 128 0 2 3) = Some (mem, s) /\ moderate mem s (Call 5 1000 128 0 2 3) /\
  In (Access true bins (124 + 38)) (accesses mem s 9 1 3 leaves) /\ is (WidthModel.start s 1 3 bins) 124.
Proof.
  destruct (open_world_run 2 1) as (mem & s & H & _ & _ & R). destruct (R eq_refl) as (_ & R2 & _). exists mem, s. split; [exact H|].
  unfold trace_bundle in H. rewrite open_world_compiles in H. injection H as Em Es.
  assert (T : total_bins s = 124) by (rewrite <- Es; reflexivity).
  split; [|split; [exact R2|eexists; cbn [WidthModel.start]; unfold base_bins; rewrite T; vm_compute; reflexivity]].
  unfold moderate. rewrite T. cbn [b_threads b_rays].
  assert (L : forall a, m_len mem a < 1000) by (intros a; rewrite <- Em; destruct a; reflexivity).
  split; [lia|]. split; [lia|]. split; [intros a _ _; specialize (L a); lia|]. split; [intros a; specialize (L a); lia|]. lia.
Qed.
