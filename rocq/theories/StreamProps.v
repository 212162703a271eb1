(** C15, C16: streaming in bundles, and dealing rays to lights. *)
From Coq Require Import Reals Lra ZArith List Bool Arith Lia Permutation.
From Verif Require Import Base Vec DistModel MaterialModel PhaseModel TransformModel TracerModel TracerProps KernelModel KernelProofs
  LogProofs LogProps TallyModel RngModel RngProps BundleModel BundleProofs BundleProps StreamModel.
Import ListNotations.
Open Scope nat_scope.

Lemma seq_from o n : seq o n = map (fun i => o + i) (seq 0 n).
Proof. induction n as [|n IH]; [reflexivity|]. rewrite !seq_snoc, map_app, IH. reflexivity. Qed.

(** ** C16 *)
Lemma arange_in start stop step x : 0 < step -> In x (arange start stop step) <-> start <= x < stop /\ (x - start) mod step = 0.
Proof.
  intros Hs. unfold arange. rewrite in_map_iff. split.
  - intros (k & <- & Hk). apply in_seq in Hk. replace (start + k * step - start) with (k * step) by lia.
    rewrite Nat.mod_mul by lia. split; [|reflexivity]. split; [lia|].
    assert (H : S k * step <= (stop - start + step - 1) / step * step) by (apply Nat.mul_le_mono_r; lia).
    pose proof (Nat.mul_div_le (stop - start + step - 1) step ltac:(lia)). lia.
  - intros [H M]. exists ((x - start) / step). assert (E : x - start = step * ((x - start) / step)) by (apply Nat.div_exact; lia).
    split; [lia|]. apply in_seq. split; [lia|]. rewrite Nat.add_0_l. apply Nat.lt_le_trans with (S ((x - start) / step)); [lia|].
    apply Nat.div_le_lower_bound; [lia|]. lia.
Qed.
Lemma emit_write_in L n row i k : 0 < L -> In (row, (i, k)) (emit_writes L n) <-> row < n /\ i = row mod L /\ k = row / L.
Proof.
  intros HL. unfold emit_writes. rewrite in_flat_map. split.
  - intros (x & Hx & H). apply in_seq in Hx. cbv zeta in H. unfold arange in H. rewrite map_length, seq_length in H.
    set (m := (n - x + L - 1) / L) in *.
    assert (G : forall a c, In (row, (i, k)) (combine (map (fun k => x + k * L) (seq a c)) (map (pair x) (seq a c))) -> row = x + k * L /\ i = x /\ a <= k < a + c).
    { intros a c; revert a. induction c as [|c IH]; intros a; simpl; [tauto|]. intros [E|E].
      - injection E as <- <- <-. repeat split; lia.
      - apply IH in E. destruct E as (-> & -> & E). repeat split; lia. }
    apply G in H. destruct H as (-> & -> & H). rewrite Nat.mod_add by lia. rewrite Nat.div_add by lia.
    rewrite Nat.mod_small, Nat.div_small by lia. repeat split; try lia.
    assert (H1 : S k * L <= m * L) by (apply Nat.mul_le_mono_r; lia).
    pose proof (Nat.mul_div_le (n - x + L - 1) L ltac:(lia)). fold m in H0. lia.
  - intros (Hr & -> & ->). pose proof (Nat.mod_upper_bound row L ltac:(lia)) as Hm. pose proof (Nat.div_mod_eq row L) as D.
    exists (row mod L). split; [apply in_seq; lia|]. cbv zeta. unfold arange. rewrite map_length, seq_length.
    set (x := row mod L) in *. set (q := row / L) in *. set (m := (n - x + L - 1) / L).
    assert (Hq : q < m). { unfold m. apply Nat.lt_le_trans with (S q); [lia|]. apply Nat.div_le_lower_bound; lia. }
    assert (G : forall a c, a <= q < a + c -> In (row, (x, q)) (combine (map (fun k => x + k * L) (seq a c)) (map (pair x) (seq a c)))).
    { intros a c; revert a. induction c as [|c IH]; intros a H; simpl; [lia|]. destruct (Nat.eq_dec a q) as [->|].
      - left. f_equal. lia.
      - right. apply IH. lia. }
    apply G. lia.
Qed.
Lemma emit_writes_nodup L n : 0 < L -> NoDup (map fst (emit_writes L n)).
Proof.
  intros HL. unfold emit_writes. rewrite flat_map_concat_map, concat_map, map_map, <- flat_map_concat_map.
  assert (E : forall index, map fst (combine (arange index n L) (map (pair index) (seq 0 (length (arange index n L))))) = arange index n L).
  { intros index. assert (G : forall (a b : list nat), length a = length b -> map fst (combine a (map (pair index) b)) = a).
    { induction a as [|x a IH]; intros [|y b] H; simpl in *; try discriminate; [reflexivity|]. f_equal. apply IH. lia. }
    apply G. now rewrite seq_length. }
  cbv zeta. erewrite flat_map_ext by (intros; apply E).
  apply nodup_flat_map; [apply seq_NoDup| |].
  - intros x _. unfold arange. apply FinFun.Injective_map_NoDup; [|apply seq_NoDup]. intros a b H. nia.
  - intros a a' b Ha Ha'. rewrite !arange_in by exact HL. intros [H1 H2] [H3 H4]. apply in_seq in Ha. apply in_seq in Ha'.
    apply Nat.div_exact in H2; [|lia]. apply Nat.div_exact in H4; [|lia].
    set (u := (b - a) / L) in *. set (v := (b - a') / L) in *. destruct (Nat.lt_trichotomy u v) as [C|[C|C]]; [nia|subst; lia|nia].
Qed.

(** Every row is assigned exactly once; ray i comes from light i mod L, as in scene.emit,
    and is the (i / L)-th ray that this light emits. *)
Theorem C16_round_robin : forall L n, 1 <= L ->
  NoDup (map fst (emit_writes L n)) /\ (forall row, In row (map fst (emit_writes L n)) <-> row < n) /\
  (forall i, i < n -> emit_bundle L n i = Some (i mod L, i / L) /\ scene_emit_light L i = Some (i mod L)).
Proof.
  intros L n HL. assert (Nd := emit_writes_nodup L n HL). split; [exact Nd|]. split.
  - intros row. rewrite in_map_iff. split.
    + intros ([r [i k]] & <- & H). apply emit_write_in in H; [simpl; tauto|exact HL].
    + intros H. exists (row, (row mod L, row / L)). split; [reflexivity|]. apply emit_write_in; tauto.
  - intros i Hi. split.
    + unfold emit_bundle.
      assert (E : forall l f, fold_left (fun f '(row, x) => set f row (Some x)) l f = written f (map (fun '(row, x) => (row, Some x)) l) :> (nat -> option (nat * nat))).
      { induction l as [|[r x] l IH]; intros f; simpl; [reflexivity|]. apply IH. }
      rewrite E. apply written_at.
      * rewrite map_map. erewrite map_ext; [exact Nd|]. now intros [r x].
      * apply in_map_iff. exists (i, (i mod L, i / L)). split; [reflexivity|]. apply emit_write_in; tauto.
    + unfold scene_emit_light. destruct (Nat.eqb_spec L 0); [lia|reflexivity].
Qed.
Print Assumptions C16_round_robin.

(** Each light gets floor or ceiling of num_rays / L rays: the first num_rays mod L lights get
    one more than the others. *)
Theorem C16_fair_share : forall L n x, x < L ->
  length (filter (fun i => Nat.eqb (i mod L) x) (seq 0 n)) = n / L + (if Nat.ltb x (n mod L) then 1 else 0).
Proof.
  intros L n x Hx. induction n as [|n IH].
  - simpl. rewrite Nat.div_0_l, Nat.mod_0_l by lia. reflexivity.
  - rewrite seq_snoc, filter_app, app_length, IH. simpl.
    pose proof (Nat.div_mod_eq n L) as D. pose proof (Nat.mod_upper_bound n L ltac:(lia)) as Hm.
    set (q := n / L) in *. set (y := n mod L) in *.
    destruct (Nat.eq_dec (S y) L) as [E|E].
    + assert (Eq : S n = S q * L) by nia. rewrite Eq, Nat.div_mul, Nat.mod_mul by lia. simpl.
      destruct (Nat.eqb_spec y x); destruct (Nat.ltb_spec x y); simpl; lia.
    + assert (Eq : S n = q * L + S y) by nia. rewrite Eq, Nat.div_add_l by lia. rewrite (Nat.add_comm (q * L)), Nat.mod_add by lia.
      rewrite (Nat.div_small (S y)), (Nat.mod_small (S y)) by lia.
      destruct (Nat.eqb_spec y x); destruct (Nat.ltb_spec x y); destruct (Nat.ltb_spec x (S y)); simpl; lia.
Qed.
Print Assumptions C16_fair_share.

(** A scene without lights: scene.emit fails, emit_bundle does not and leaves the rows as
    allocated (origin, direction zero, wavelength zero, no source). *)
Theorem C16_no_lights_refuted : exists n i, i < n /\ scene_emit_light 0 i = None /\ emit_bundle 0 n i = None /\ emit_writes 0 n = [].
Proof. exists 1, 0. repeat split; reflexivity || lia. Qed.
Print Assumptions C16_no_lights_refuted.

Example C16_example : map (emit_bundle 3 7) (seq 0 7) = map Some [(0, 0); (1, 0); (2, 0); (0, 1); (1, 1); (2, 1); (0, 2)] /\
  map fst (emit_writes 3 7) = [0; 3; 6; 1; 4; 2; 5].
Proof. split; reflexivity. Qed.

(** ** C15 *)
Lemma bundles_cover bundle num_rays : 1 <= bundle -> forall fuel traced, num_rays - traced <= fuel ->
  flat_map (fun '(o, n) => seq o n) (bundles fuel traced num_rays bundle) = seq traced (num_rays - traced).
Proof.
  intros Hb. induction fuel as [|fuel IH]; intros traced H; simpl.
  - replace (num_rays - traced) with 0 by lia. reflexivity.
  - destruct (Nat.ltb_spec traced num_rays).
    + simpl. rewrite IH by lia. set (m := Nat.min bundle (num_rays - traced)). rewrite <- seq_app. f_equal. unfold m. lia.
    + replace (num_rays - traced) with 0 by lia. reflexivity.
Qed.
(** every bundle starts at a multiple of the bundle size and is inside the run *)
Lemma bundles_start bundle num_rays : 1 <= bundle -> forall fuel traced q, traced = q * bundle ->
  forall o n, In (o, n) (bundles fuel traced num_rays bundle) -> (exists k, o = k * bundle) /\ o + n <= num_rays /\ 0 < n.
Proof.
  intros Hb. induction fuel as [|fuel IH]; intros traced q Hq o n; simpl; [tauto|].
  destruct (Nat.ltb_spec traced num_rays) as [Hlt|]; [|intros []]. simpl. intros [E|H].
  - injection E as <- <-. split; [eauto|]. lia.
  - destruct (Nat.le_gt_cases bundle (num_rays - traced)) as [Hle|Hgt].
    + rewrite Nat.min_l in H by exact Hle. apply (IH (traced + bundle) (S q)) in H; [exact H|]. simpl. lia.
    + rewrite Nat.min_r in H by lia. exfalso. destruct fuel; simpl in H; [exact H|].
      destruct (Nat.ltb_spec (traced + (num_rays - traced)) num_rays); [lia|exact H].
Qed.

(** The kernel seeds always agree: ray number [i] of the bundle starting at [traced] has the
    seed of ray [traced + i] of the whole. *)
Theorem C15_seeds_partial : forall seed traced i, ray_seed (seed + Z.of_nat traced) i = ray_seed seed (traced + i).
Proof. intros. unfold ray_seed. f_equal. lia. Qed.
Print Assumptions C15_seeds_partial.

(** Streaming agrees with one run when the bundle size is a multiple of the number of lights
    and of record_every (0: nothing is recorded), and the seeds fit into 64 bits. *)
Theorem C15_stream_partial : forall lights num_rays bundle seed every,
  1 <= lights -> 1 <= bundle -> Nat.divide lights bundle -> (every = 0 \/ Nat.divide every bundle) ->
  (0 <= seed)%Z -> (seed + Z.of_nat num_rays <= 2 ^ 64)%Z -> 1 <= num_rays ->
  option_map (@concat plan) (simulate_stream lights num_rays bundle seed every) = simulate lights num_rays seed every.
Proof.
  intros L N b seed every HL Hb DL De Hs0 Hs HN. unfold simulate_stream.
  set (f := fun t => Plan (Some (t mod L)) (ray_seed seed t) (recorded every t)).
  assert (W64 : W = (2 ^ 64)%Z) by reflexivity.
  rewrite (all_some_map _ (fun '(o, n) => map f (seq o n))).
  - simpl. unfold simulate. destruct (Z.leb_spec 0 seed); [|lia]. destruct (Z.ltb_spec seed W); [|lia]. simpl. f_equal.
    transitivity (map f (flat_map (fun '(o, n) => seq o n) (bundles N 0 N b))).
    + rewrite flat_map_concat_map, concat_map, map_map. f_equal. apply map_ext. now intros [o n].
    + rewrite bundles_cover by lia. rewrite Nat.sub_0_r. apply map_ext_in. intros i Hi. apply in_seq in Hi.
      destruct (C16_round_robin L N HL) as (_ & _ & RR). rewrite (proj1 (RR i ltac:(lia))). reflexivity.
  - intros [o n] Hin. destruct (bundles_start b N Hb N 0 0 eq_refl o n Hin) as ((k & Ho) & Hle & Hn).
    unfold simulate. destruct (Z.leb_spec 0 (seed + Z.of_nat o)); [|lia]. destruct (Z.ltb_spec (seed + Z.of_nat o) W); [|lia]. simpl.
    f_equal. assert (Sh : seq o n = map (fun i => o + i) (seq 0 n)) by apply seq_from.
    rewrite Sh, map_map. apply map_ext_in. intros i Hi. apply in_seq in Hi.
    destruct (C16_round_robin L n HL) as (_ & _ & RR). rewrite (proj1 (RR i ltac:(lia))). unfold f. simpl. f_equal.
    + f_equal. destruct DL as [c ->]. subst o. replace (k * (c * L) + i) with (i + (k * c) * L) by lia. now rewrite Nat.mod_add by lia.
    + apply C15_seeds_partial.
    + unfold recorded. destruct De as [->|[c ->]]; [reflexivity|]. destruct every as [|e]; [reflexivity|]. simpl Nat.ltb. cbn [andb]. f_equal.
      subst o. replace (k * (c * S e) + i) with (i + (k * c) * S e) by lia. now rewrite Nat.mod_add by lia.
Qed.
Print Assumptions C15_stream_partial.

(** In general it does not.  Two lights and bundles of three rays: the fourth ray of the run
    comes from light 0 instead of light 1.  And with record_every = 2 and bundles of three,
    rays 0 and 2, then 3 and 5 are recorded instead of 0, 2 and 4. *)
Theorem C15_stream_refuted :
  (exists lights num_rays bundle seed every i p q,
     option_map (fun l => nth_error (concat l) i) (simulate_stream lights num_rays bundle seed every) = Some (Some p) /\
     option_map (fun l => nth_error l i) (simulate lights num_rays seed every) = Some (Some q) /\ p_light p <> p_light q) /\
  (exists lights num_rays bundle seed every,
     option_map (fun l => map p_recorded (concat l)) (simulate_stream lights num_rays bundle seed every) = Some [true; false; true; true; false; true] /\
     option_map (map p_recorded) (simulate lights num_rays seed every) = Some [true; false; true; false; true; false]).
Proof.
  split.
  - exists 2, 6, 3, 5%Z, 1, 3. do 2 eexists. split; [vm_compute; reflexivity|]. split; [vm_compute; reflexivity|]. discriminate.
  - exists 1, 6, 3, 5%Z, 2. split; vm_compute; reflexivity.
Qed.
Print Assumptions C15_stream_refuted.

(** ** Results of the bundles, for rays already emitted *)
Definition stream_bundles (J : job) (bundle : nat) : list (nat * nat) := bundles (length (j_rays J)) 0 (length (j_rays J)) bundle.

Lemma bundle_ray J o n i : i < n -> ray_no (bundle_job J o n) i = ray_no J (o + i).
Proof.
  intros Hi. unfold ray_no. simpl. rewrite <- (firstn_skipn o (j_rays J)) at 2.
  destruct (Nat.le_gt_cases (length (j_rays J)) o) as [H|H].
  - rewrite skipn_all2 by lia. rewrite firstn_nil. rewrite app_nil_r. rewrite (nth_overflow (firstn o _)); [destruct i; reflexivity|].
    rewrite firstn_length. lia.
  - rewrite app_nth2 by (rewrite firstn_length; lia). rewrite firstn_length, Nat.min_l by lia.
    replace (o + i - o) with i by lia. generalize (skipn o (j_rays J)). clear - Hi. revert n Hi.
    induction i as [|i IH]; intros [|n] Hi [|r l]; try lia; try reflexivity. simpl. apply IH. lia.
Qed.
Lemma bundle_base J o n i : (j_every J = 0 \/ Nat.divide (j_every J) o) -> (base (bundle_job J o n) i = None <-> base J (o + i) = None).
Proof.
  intros H. unfold base. simpl j_every. destruct (Nat.ltb_spec 0 (j_every J)); [|tauto]. destruct H as [H|[c ->]]; [lia|].
  replace (c * j_every J + i) with (i + c * j_every J) by lia. rewrite Nat.mod_add by lia.
  destruct (Nat.eqb (i mod j_every J) 0); simpl; split; congruence.
Qed.
Lemma bundle_run J o n i : i < n -> (j_every J = 0 \/ Nat.divide (j_every J) o) -> run_ray (bundle_job J o n) i = run_ray J (o + i).
Proof.
  intros Hi He. unfold run_ray. rewrite (bundle_ray J o n i Hi). simpl j_scene. simpl j_maxsteps. simpl j_method. simpl j_streams. simpl j_seed. simpl j_max_events.
  rewrite C15_seeds_partial. pose proof (bundle_base J o n i He) as B.
  destruct (base (bundle_job J o n) i), (base J (o + i)); try reflexivity; exfalso.
  - destruct B as [_ B]. specialize (B eq_refl). discriminate.
  - destruct B as [B _]. specialize (B eq_refl). discriminate.
Qed.

(** [runs]: for every bundle the distribution over the threads and the memory at its end. *)
Definition bundle_runs (J : job) (bundle : nat) (runs : list (list (list nat) * memory)) : Prop :=
  Forall2 (fun '(o, n) '(threads, mem) =>
      Permutation (concat threads) (seq 0 n) /\ executes (bundle_job J o n) threads mem) (stream_bundles J bundle) runs.

Section StreamCell.
  Variables (T : Type) (zero : T) (plus : T -> T -> T).
  Hypothesis plus_0 : forall x, plus zero x = x.
  Hypothesis plus_comm : forall x y, plus x y = plus y x.
  Hypothesis plus_assoc : forall x y z, plus (plus x y) z = plus x (plus y z).
  Variable f : acc -> T.
  Hypothesis f_zero : f acc0 = zero.
  Hypothesis f_adds : forall J calls A, f (tally_ray (hrows J) (krecs J) calls A) = plus (f A) (f (delta (hrows J) (krecs J) calls)).

  Lemma stream_cell J bundle runs threads M : 1 <= bundle -> (j_every J = 0 \/ Nat.divide (j_every J) bundle) ->
    bundle_runs J bundle runs -> deal J threads -> executes J threads M ->
    msum T zero plus (map (fun t => f (m_acc M t)) (seq 0 (length threads))) =
    msum T zero plus (map (fun '(threads, mem) => msum T zero plus (map (fun t => f (m_acc mem t)) (seq 0 (length threads)))) runs).
  Proof.
    intros Hb He Hr Hd Hx. rewrite (merged_cell T zero plus plus_0 plus_comm plus_assoc J f f_zero (f_adds J) threads M Hd Hx).
    pose proof (bundles_cover bundle (length (j_rays J)) Hb (length (j_rays J)) 0 ltac:(lia)) as C. rewrite Nat.sub_0_r in C. rewrite <- C.
    assert (St := bundles_start bundle (length (j_rays J)) Hb (length (j_rays J)) 0 0 eq_refl).
    unfold bundle_runs, stream_bundles in Hr. clear C. revert St. induction Hr as [|[o n] [th mem'] os runs [Hp Hm] Hr IH]; intros St; simpl; [reflexivity|].
    rewrite map_app, (msum_app T zero plus plus_0 plus_assoc). rewrite IH by (intros; apply St; now right). f_equal.
    destruct (St o n (or_introl eq_refl)) as ((k & Ho) & Hle & Hn).
    assert (Hlen : length (j_rays (bundle_job J o n)) = n) by (simpl; rewrite firstn_length, skipn_length; lia).
    rewrite (merged_cell T zero plus plus_0 plus_comm plus_assoc (bundle_job J o n) f f_zero (f_adds (bundle_job J o n)) th mem').
    2:{ unfold deal. now rewrite Hlen. } 2:{ exact Hm. }
    rewrite Hlen. change (hrows (bundle_job J o n)) with (hrows J). change (krecs (bundle_job J o n)) with (krecs J).
    assert (Sh : seq o n = map (fun i => o + i) (seq 0 n)) by apply seq_from.
    rewrite Sh, map_map. f_equal. apply map_ext_in. intros i Hi. apply in_seq in Hi. unfold calls_of. rewrite bundle_run; [reflexivity|lia|].
    destruct He as [He|[c He]]; [now left|right]. exists (k * c). subst o. rewrite He. lia.
  Qed.
End StreamCell.

Definition total_nat (g : acc -> nat) (runs : list (list (list nat) * memory)) : nat :=
  fold_right Nat.add 0 (map (fun '(threads, mem) => g (merged (length threads) mem)) runs).

(** Summing the tallies of the bundles gives the tallies of the whole, if the bundle size is a
    multiple of record_every (or nothing is recorded). *)
Theorem C15_tallies_add_up_partial : forall J bundle runs threads M, 1 <= bundle -> (j_every J = 0 \/ Nat.divide (j_every J) bundle) ->
  bundle_runs J bundle runs -> Permutation (concat threads) (seq 0 (length (j_rays J))) -> executes J threads M ->
  forall i, a_distinct (merged (length threads) M) i = total_nat (fun A => a_distinct A i) runs /\
    a_cross (merged (length threads) M) i = total_nat (fun A => a_cross A i) runs /\
    a_bins (merged (length threads) M) i = total_nat (fun A => a_bins A i) runs /\
    a_sums (merged (length threads) M) i = fold_right Rplus 0%R (map (fun '(threads, mem) => a_sums (merged (length threads) mem) i) runs).
Proof.
  intros J b runs th M Hb He Hr Hd Hx i.
  assert (N0 : forall x, 0 + x = x) by (intros; lia). assert (R0 : forall x, (0 + x = x)%R) by (intros; lra).
  assert (NC : forall x y, x + y = y + x) by (intros; lia). assert (RC : forall x y, (x + y = y + x)%R) by (intros; lra).
  assert (NA : forall x y z, x + y + z = x + (y + z)) by (intros; lia). assert (RA : forall x y z, (x + y + z = x + (y + z))%R) by (intros; lra).
  pose proof (fun J calls A => tally_ray_adds (hrows J) (krecs J) calls A) as H.
  split; [|split; [|split]].
  - exact (stream_cell nat 0 Nat.add N0 NC NA (fun A => a_distinct A i) eq_refl (fun J c A => proj1 (H J c A) i) J b runs th M Hb He Hr Hd Hx).
  - exact (stream_cell nat 0 Nat.add N0 NC NA (fun A => a_cross A i) eq_refl (fun J c A => proj1 (proj2 (H J c A)) i) J b runs th M Hb He Hr Hd Hx).
  - exact (stream_cell nat 0 Nat.add N0 NC NA (fun A => a_bins A i) eq_refl (fun J c A => proj2 (proj2 (proj2 (H J c A))) i) J b runs th M Hb He Hr Hd Hx).
  - exact (stream_cell R 0%R Rplus R0 RC RA (fun A => a_sums A i) eq_refl (fun J c A => proj1 (proj2 (proj2 (H J c A))) i) J b runs th M Hb He Hr Hd Hx).
Qed.
Print Assumptions C15_tallies_add_up_partial.

Lemma filter_map' {A B} (g : B -> bool) (h : A -> B) l : filter g (map h l) = map h (filter (fun a => g (h a)) l).
Proof. induction l as [|a l IH]; simpl; [reflexivity|]. destruct (g (h a)); simpl; now rewrite IH. Qed.
Lemma recorded_filter J : recorded_indices J = filter (recorded (j_every J)) (seq 0 (length (j_rays J))).
Proof.
  unfold recorded_indices, recorded. destruct (Nat.leb_spec (j_every J) 0) as [H|H].
  - replace (j_every J) with 0 by lia. simpl. induction (seq 0 _); [reflexivity|]. exact IHl.
  - apply filter_ext. intros i. destruct (Nat.ltb_spec 0 (j_every J)); [reflexivity|lia].
Qed.

(** So do the histories: those of the bundles one after another are those of the whole. *)
Theorem C15_histories_add_up_partial : forall J bundle runs threads M sources,
  1 <= bundle -> (j_every J = 0 \/ Nat.divide (j_every J) bundle) ->
  bundle_runs J bundle runs -> Permutation (concat threads) (seq 0 (length (j_rays J))) -> executes J threads M ->
  (forall i r, nth_error (j_rays J) i = Some r -> exists l, source r = Light l /\ nth_error sources i = Some l) ->
  option_map (@concat (list entry))
    (all_some (map (fun '((o, n), (_, mem)) => histories (bundle_job J o n) (firstn n (skipn o sources)) mem) (combine (stream_bundles J bundle) runs)))
  = histories J sources M.
Proof.
  intros J b runs th M sources Hb He Hr Hd Hx Hsrc. rewrite (C13_histories_decode J th M sources Hd Hx Hsrc).
  rewrite recorded_filter.
  pose proof (bundles_cover b (length (j_rays J)) Hb (length (j_rays J)) 0 ltac:(lia)) as C. rewrite Nat.sub_0_r in C. rewrite <- C.
  assert (St := bundles_start b (length (j_rays J)) Hb (length (j_rays J)) 0 0 eq_refl).
  unfold bundle_runs, stream_bundles in *. clear C. revert St. induction Hr as [|[o n] [t mem] os runs [Hp Hm] Hr IH]; intros St; [reflexivity|].
  specialize (IH (fun o' n' H => St o' n' (or_intror H))).
  destruct (St o n (or_introl eq_refl)) as ((k & Ho) & Hle & Hn).
  assert (Hlen : length (j_rays (bundle_job J o n)) = n) by (simpl; rewrite firstn_length, skipn_length; lia).
  assert (Hq : j_every J = 0 \/ Nat.divide (j_every J) o).
  { destruct He as [He|[c He]]; [now left|right]. exists (k * c). subst o. rewrite He. lia. }
  cbn [combine map flat_map].
  rewrite (C13_histories_decode (bundle_job J o n) t mem (firstn n (skipn o sources))).
  - cbn [all_some bind]. destruct (all_some (map _ (combine os runs))) as [rest|]; [|discriminate].
    cbn [bind option_map concat] in *. injection IH as IH. rewrite IH. rewrite filter_app, map_app. f_equal. f_equal.
    rewrite recorded_filter, Hlen, (seq_from o n), filter_map', map_map.
    change (j_every (bundle_job J o n)) with (j_every J).
    rewrite (filter_ext (fun a => recorded (j_every J) (o + a)) (recorded (j_every J))).
    + apply map_ext_in. intros i Hi. apply filter_In in Hi. destruct Hi as [Hi _]. apply in_seq in Hi. rewrite bundle_run; [reflexivity|lia|exact Hq].
    + intros i. unfold recorded. destruct Hq as [->|[c ->]]; [reflexivity|]. destruct (j_every J) as [|e]; [reflexivity|].
      f_equal. f_equal. replace (c * S e + i) with (i + c * S e) by lia. now rewrite Nat.mod_add by lia.
  - now rewrite Hlen.
  - exact Hm.
  - intros i r Hi. assert (Hin : i < n) by (rewrite <- Hlen; apply nth_error_Some; congruence).
    assert (G : forall A (l : list A) d i, i < n -> nth_error (firstn n (skipn d l)) i = nth_error l (d + i)).
    { clear. intros A l d i Hi. revert l. induction d as [|d IH]; intros l.
      - simpl. revert n i Hi. induction l as [|x l IHl]; intros [|n] [|i] Hi; simpl; try lia; try reflexivity. apply IHl. lia.
      - destruct l as [|x l]; [simpl; rewrite firstn_nil; now destruct i|]. simpl. apply IH. }
    simpl in Hi. rewrite G in Hi by exact Hin. rewrite G by exact Hin. exact (Hsrc _ _ Hi).
Qed.
Print Assumptions C15_histories_add_up_partial.

Example C15_example : option_map (@concat plan) (simulate_stream 2 7 4 5 2) = simulate 2 7 5 2 /\
  stream_bundles job3 2 = [(0, 2); (2, 1)].
Proof. split; vm_compute; reflexivity. Qed.
