(** C97: the bundled dyes are usable on every wavelength grid. *)
From Coq Require Import Reals Lra Lia ZArith List.
From Verif Require Import Base Interp DistModel DistSpec DistProofs DistProps DyeModel.
Import ListNotations.
Open Scope R_scope.

Lemma gauss_pos a p w x : 0 < a -> 0 < gauss a p w x.
Proof. intros H. unfold gauss. apply Rmult_lt_0_compat; [exact H|apply exp_pos]. Qed.
Lemma dec_pos a n : 0 < a -> 0 < a / 10 ^ n.
Proof. intros H. apply Rdiv_lt_0_compat; [exact H|apply pow_lt; lra]. Qed.
Lemma lumogen_pos x : 0 < lumogen_sum x.
Proof. unfold lumogen_sum. repeat apply Rplus_lt_0_compat; apply gauss_pos, dec_pos; lra. Qed.
Lemma fluro_pos x : 0 < fluro_sum x.
Proof. unfold fluro_sum. repeat apply Rplus_lt_0_compat; apply gauss_pos, dec_pos; lra. Qed.

Lemma fold_max_in l : forall x, In (fold_left Rmax l x) (x :: l).
Proof.
  induction l as [|a l IH]; intros x; cbn [fold_left]; [now left|]. destruct (IH (Rmax x a)) as [E|H].
  - rewrite <- E. unfold Rmax. destruct (Rle_dec x a); [right; now left|now left].
  - right. now right.
Qed.
Lemma fold_max_ub l : forall x y, In y (x :: l) -> y <= fold_left Rmax l x.
Proof.
  induction l as [|a l IH]; intros x y; cbn [fold_left].
  - intros [->|[]]. lra.
  - intros [->|[->|H]].
    + eapply Rle_trans; [apply (Rmax_l y a)|apply IH; now left].
    + eapply Rle_trans; [apply (Rmax_r x y)|apply IH; now left].
    + apply IH. now right.
Qed.
Lemma np_max_in l : l <> [] -> In (np_max l) l.
Proof. destruct l as [|x l]; [contradiction|]. intros _. apply fold_max_in. Qed.
Lemma np_max_ub l y : In y l -> y <= np_max l.
Proof. destruct l as [|x l]; [intros []|]. apply fold_max_ub. Qed.

(** ** Absorption *)
Definition peak_one (l : list R) : Prop := Forall (fun y => 0 < y <= 1) l /\ In 1 l.
Lemma normalised_peak f xs : (forall x, 0 < f x) -> xs <> [] -> peak_one (normalised f xs).
Proof.
  intros Hf Ne. assert (Nm : map f xs <> []) by (destruct xs; [contradiction|discriminate]).
  assert (M : 0 < np_max (map f xs)).
  { pose proof (np_max_in _ Nm) as H. apply in_map_iff in H. destruct H as (x & <- & _). apply Hf. }
  unfold normalised, peak_one. split.
  - apply Forall_forall. intros y Hy. apply in_map_iff in Hy. destruct Hy as (z & <- & Hz). split.
    + apply in_map_iff in Hz. destruct Hz as (x & <- & _). apply Rdiv_lt_0_compat; [apply Hf|exact M].
    + apply Rmult_le_reg_r with (np_max (map f xs)); [exact M|]. unfold Rdiv. rewrite Rmult_assoc, Rinv_l by lra. rewrite Rmult_1_r, Rmult_1_l. now apply np_max_ub.
  - apply in_map_iff. exists (np_max (map f xs)). split; [field; lra|now apply np_max_in].
Qed.
(** Both absorption spectra are positive with peak exactly 1, on every grid. *)
Theorem C97_absorption_peak_one : forall xs, xs <> [] -> peak_one (lumogen_absorption xs) /\ peak_one (fluro_absorption xs).
Proof. intros xs Ne. split; apply normalised_peak; auto using lumogen_pos, fluro_pos. Qed.
Print Assumptions C97_absorption_peak_one.

(** ** Emission *)
(** The emission spectra give, on every increasing grid, a distribution whose CDF can be inverted:
    photons can be emitted at every draw, and lookup and sample are inverse to each other (C31).
    For Fluro Red erf > -1 is used (in floating point erf reaches -1 below about 460 nm, where the
    spectrum is 0). *)
Theorem C97_emission_usable : forall erf xs, (forall y, -1 < erf y) -> increasing xs -> (2 <= length xs)%nat ->
  exists d d', mk_dist xs (lumogen_emission xs) false = MkOk (DTable false xs (lumogen_emission xs) d) /\ increasing d /\
    mk_dist xs (fluro_emission erf xs) false = MkOk (DTable false xs (fluro_emission erf xs) d') /\ increasing d'.
Proof.
  intros erf xs He Hi Hl.
  destruct (C31_positive_spectrum_has_increasing_cdf xs (lumogen_emission xs)) as (d & E & I); try assumption.
  { unfold lumogen_emission. now rewrite map_length. }
  { apply Forall_forall. intros y Hy. apply in_map_iff in Hy. destruct Hy as (x & <- & _). rewrite Rmult_1_l. apply exp_pos. }
  destruct (C31_positive_spectrum_has_increasing_cdf xs (fluro_emission erf xs)) as (d' & E' & I'); try assumption.
  { unfold fluro_emission. now rewrite map_length. }
  { apply Forall_forall. intros y Hy. apply in_map_iff in Hy. destruct Hy as (x & <- & _). unfold emg. cbv zeta.
    assert (Ha : 0 < 11477763237584664 / 10 ^ 16) by (apply dec_pos; lra).
    assert (Hc : 0 < 19981040318195117 / 10 ^ 15) by (apply dec_pos; lra).
    assert (Hd : 0 < 12723704058786568 / 10 ^ 15) by (apply dec_pos; lra).
    set (a := 11477763237584664 / 10 ^ 16) in *. set (c := 19981040318195117 / 10 ^ 15) in *. set (dd := 12723704058786568 / 10 ^ 15) in *. clearbody a c dd.
    assert (Hs : 0 < sqrt (2 * PI)) by (apply sqrt_lt_R0; pose proof PI_RGT_0; lra).
    apply Rmult_lt_0_compat; [apply Rmult_lt_0_compat|].
    - apply Rdiv_lt_0_compat; [|lra]. apply Rmult_lt_0_compat; [|exact Hs]. apply Rmult_lt_0_compat; assumption.
    - apply exp_pos.
    - rewrite Rabs_right by lra. replace (dd / dd) with 1 by (field; lra). specialize (He ((x - 59206478874548839 / 10 ^ 14) / (sqrt 2 * c) - c / (sqrt 2 * dd))). lra. }
  exists d, d'. auto.
Qed.
Print Assumptions C97_emission_usable.

(** "Normalised to peak value of 1.0": for the Lumogen emission exactly when 600 nm is in the
    grid.  (Fluro Red: C97_fluro_emission_peak in ErfProps.v.) *)
Theorem C97_emission_peak_partial : forall xs,
  Forall (fun y => 0 < y <= 1) (lumogen_emission xs) /\ (peak_one (lumogen_emission xs) <-> In 600 xs).
Proof.
  intros xs.
  assert (V : forall x, let y := (600 - x) / (386 / 10) in 0 < 1 * exp (- (y * y)) <= 1 /\ (1 * exp (- (y * y)) = 1 <-> x = 600)).
  { intros x y. rewrite Rmult_1_l. assert (0 <= y * y) by (apply Rle_0_sqr). split; [split; [apply exp_pos|]|split].
    - rewrite <- exp_0. destruct H as [H|H]; [apply Rlt_le, exp_increasing; lra|rewrite <- H, Ropp_0; lra].
    - intros E. assert (y * y = 0). { destruct H as [H|H]; [|lra]. exfalso. assert (exp (- (y * y)) < exp 0) by (apply exp_increasing; lra). rewrite exp_0 in *. lra. }
      apply Rmult_integral in H0. assert (y = 0) by tauto. unfold y in H1. lra.
    - intros ->. unfold y. replace ((600 - 600) / (386 / 10)) with 0 by field. rewrite Rmult_0_l, Ropp_0. apply exp_0. }
  assert (F : Forall (fun y => 0 < y <= 1) (lumogen_emission xs)).
  { apply Forall_forall. intros y Hy. apply in_map_iff in Hy. destruct Hy as (x & <- & _). apply V. }
  split; [exact F|]. split.
  - intros [_ H]. apply in_map_iff in H. destruct H as (x & E & Hx). apply V in E. now subst.
  - intros H. split; [exact F|]. apply in_map_iff. exists 600. split; [now apply V|exact H].
Qed.
Print Assumptions C97_emission_peak_partial.
Theorem C97_emission_peak_refuted : exists xs, increasing xs /\ (2 <= length xs)%nat /\ Forall (fun x => 200 <= x <= 900) xs /\
  ~ peak_one (lumogen_emission xs).
Proof.
  exists [590; 620]. split; [simpl; lra|]. split; [simpl; lia|]. split; [repeat constructor; lra|].
  rewrite (proj2 (C97_emission_peak_partial _)). simpl. intros [H|[H|[]]]; lra.
Qed.
Print Assumptions C97_emission_peak_refuted.

(** ** The bands *)
Lemma exp_pow2 n y : INR n <= y -> exp (- y) <= (1 / 2) ^ n.
Proof.
  intros H. apply Rle_trans with (exp (- INR n)).
  - destruct H as [H|H]; [apply Rlt_le, exp_increasing; lra|rewrite H; lra].
  - clear H. induction n as [|n IH]; [simpl; rewrite Ropp_0, exp_0; lra|].
    rewrite S_INR. replace (- (INR n + 1)) with (- INR n + - (1)) by ring. rewrite exp_plus. simpl pow. rewrite (Rmult_comm (1 / 2)).
    apply Rmult_le_compat; [apply Rlt_le, exp_pos|apply Rlt_le, exp_pos|exact IH|].
    rewrite exp_Ropp. pose proof (exp_ineq1 1 ltac:(lra)). replace (1 / 2) with (/ 2) by field. apply Rinv_le_contravar; lra.
Qed.
Lemma gauss_small a p w x n : 0 < a -> 0 < w -> (exists k, 0 < k /\ INR n <= k * k /\ (k * w <= p - x \/ k * w <= x - p)) -> gauss a p w x <= a * (1 / 2) ^ n.
Proof.
  intros Ha Hw (k & Hk & Hn & H). unfold gauss. apply Rmult_le_compat_l; [lra|]. apply exp_pow2. apply Rle_trans with (1 := Hn).
  destruct H as [H|H].
  - assert (k <= (p - x) / w). { apply Rmult_le_reg_r with w; [exact Hw|]. unfold Rdiv. rewrite Rmult_assoc, Rinv_l by lra. lra. }
    apply Rmult_le_compat; lra.
  - assert (k <= - ((p - x) / w)). { apply Rmult_le_reg_r with w; [exact Hw|]. replace (- ((p - x) / w) * w) with (x - p) by (field; lra). lra. }
    replace ((p - x) / w * ((p - x) / w)) with (- ((p - x) / w) * - ((p - x) / w)) by ring. apply Rmult_le_compat; lra.
Qed.
Lemma gauss_large a p w x k : 0 < a -> 0 < w -> 0 <= k -> p - x <= k * w -> x - p <= k * w -> a * (1 - k * k) <= gauss a p w x.
Proof.
  intros Ha Hw Hk H1 H2. unfold gauss. apply Rmult_le_compat_l; [lra|].
  assert (E : p - x = (p - x) / w * w) by (field; lra). set (q := (p - x) / w) in *. clearbody q.
  assert (A : q <= k) by (apply Rmult_le_reg_r with w; lra). assert (B : - k <= q) by (apply Rmult_le_reg_r with w; lra).
  assert (q * q <= k * k) by nra. destruct (Req_dec (q * q) 0) as [Z|Z]; [rewrite Z, Ropp_0, exp_0; nra|].
  pose proof (exp_ineq1 (- (q * q)) ltac:(lra)). lra.
Qed.
Lemma gauss_top a p w x : 0 < a -> gauss a p w x <= a.
Proof.
  intros Ha. unfold gauss. rewrite <- (Rmult_1_r a) at 2. apply Rmult_le_compat_l; [lra|]. rewrite <- exp_0.
  set (q := (p - x) / w). assert (0 <= q * q) by apply Rle_0_sqr. destruct H as [H|H]; [apply Rlt_le, exp_increasing; lra|rewrite <- H, Ropp_0; lra].
Qed.
Lemma band_ratio f (xs : list R) lo hi red tail low top x y : (forall z, 0 < f z <= top) -> (forall z, lo <= z <= hi -> low <= f z) -> (forall z, red <= z -> f z <= tail) -> 0 < low ->
  In y xs -> lo <= y <= hi -> In x xs ->
  (lo <= x <= hi -> low / top <= f x / np_max (map f xs)) /\ (red <= x -> f x / np_max (map f xs) <= tail / low).
Proof.
  intros Ht Hl Hr P Hy By Hx.
  assert (M1 : low <= np_max (map f xs)). { apply Rle_trans with (f y); [auto|]. apply np_max_ub, in_map, Hy. }
  assert (M2 : np_max (map f xs) <= top).
  { assert (N : map f xs <> []) by (destruct xs; [destruct Hx|discriminate]). apply np_max_in in N. apply in_map_iff in N. destruct N as (z & <- & _). apply Ht. }
  set (m := np_max (map f xs)) in *. clearbody m. split; intros Hb; unfold Rdiv.
  - apply Rmult_le_compat; [lra|apply Rlt_le, Rinv_0_lt_compat; lra|auto|apply Rinv_le_contravar; lra].
  - pose proof (Ht x). apply Rmult_le_compat; [lra|apply Rlt_le, Rinv_0_lt_compat; lra|auto|apply Rinv_le_contravar; lra].
Qed.
Ltac gs k := apply (gauss_small _ _ _ _ _); [lra|lra|exists k; split; [lra|split; [simpl; lra|first [left; lra|right; lra]]]].
(** Both dyes absorb in a band in the green and yellow and hardly in the red: on every grid with a
    point in the band, at least 15 % (Lumogen F Red, 563 to 595 nm) or 30 % (Fluro Red, 510 to 535
    nm) of the peak in the band and at most 1/150 of it from 650 nm upwards; and Lumogen emits at
    least 70 % of its peak within 20 nm of 600 nm and at most 1/500 of it 120 nm away. *)
Theorem C97_bands : forall xs x y, In x xs -> In y xs ->
  let at_x f := f x / np_max (map f xs) in
  (563 <= y <= 595 -> (563 <= x <= 595 -> 15 / 100 <= at_x lumogen_sum) /\ (650 <= x -> at_x lumogen_sum <= 1 / 150)) /\
  (510 <= y <= 535 -> (510 <= x <= 535 -> 30 / 100 <= at_x fluro_sum) /\ (650 <= x -> at_x fluro_sum <= 1 / 150)) /\
  (forall k v, nth_error xs k = Some x -> nth_error (lumogen_absorption xs) k = Some v -> v = at_x lumogen_sum) /\
  (forall k v, nth_error xs k = Some x -> nth_error (fluro_absorption xs) k = Some v -> v = at_x fluro_sum) /\
  (forall k v, nth_error xs k = Some x -> nth_error (lumogen_emission xs) k = Some v ->
    (580 <= x <= 620 -> 70 / 100 <= v) /\ (x <= 480 \/ 720 <= x -> v <= 1 / 500)).
Proof.
  intros xs x y Hx Hy. cbv zeta.
  assert (NN : forall f k v, nth_error xs k = Some x -> nth_error (normalised f xs) k = Some v -> v = f x / np_max (map f xs)).
  { intros f k v E F. unfold normalised in F. rewrite (map_nth_error _ _ _ (map_nth_error f _ _ E)) in F. now injection F as <-. }
  split; [|split; [|split; [exact (NN lumogen_sum)|split; [exact (NN fluro_sum)|]]]].
  - intros By.
    destruct (band_ratio lumogen_sum xs 563 595 650 (1 / 400) (44 / 100) (279 / 100) x y) as [A B]; [| | |lra|assumption|assumption|assumption|].
    + intros z. split; [apply lumogen_pos|]. unfold lumogen_sum.
      pose proof (gauss_top (9454846839252642 / 10 ^ 16) (5786167306868869 / 10 ^ 13) (2269760939870020 / 10 ^ 14) z ltac:(lra)).
      pose proof (gauss_top (6430326869158796 / 10 ^ 16) (5351850303736512 / 10 ^ 13) (2863029894331116 / 10 ^ 14) z ltac:(lra)).
      pose proof (gauss_top (1243340609168971 / 10 ^ 16) (4945721783546976 / 10 ^ 13) (1398438275367119 / 10 ^ 14) z ltac:(lra)).
      pose proof (gauss_top (3651471532322375 / 10 ^ 16) (4404679754085741 / 10 ^ 13) (3491923613222621 / 10 ^ 14) z ltac:(lra)).
      pose proof (gauss_top (7042787252835550 / 10 ^ 16) (3360548556730901 / 10 ^ 13) (3424136755250487 / 10 ^ 14) z ltac:(lra)). lra.
    + intros z Hz. unfold lumogen_sum.
      pose proof (gauss_large (9454846839252642 / 10 ^ 16) (5786167306868869 / 10 ^ 13) (2269760939870020 / 10 ^ 14) z (73 / 100) ltac:(lra) ltac:(lra) ltac:(lra) ltac:(lra) ltac:(lra)).
      pose proof (gauss_pos (6430326869158796 / 10 ^ 16) (5351850303736512 / 10 ^ 13) (2863029894331116 / 10 ^ 14) z ltac:(lra)).
      pose proof (gauss_pos (1243340609168971 / 10 ^ 16) (4945721783546976 / 10 ^ 13) (1398438275367119 / 10 ^ 14) z ltac:(lra)).
      pose proof (gauss_pos (3651471532322375 / 10 ^ 16) (4404679754085741 / 10 ^ 13) (3491923613222621 / 10 ^ 14) z ltac:(lra)).
      pose proof (gauss_pos (7042787252835550 / 10 ^ 16) (3360548556730901 / 10 ^ 13) (3424136755250487 / 10 ^ 14) z ltac:(lra)). lra.
    + intros z Hz. unfold lumogen_sum.
      assert (G1 : gauss (9454846839252642 / 10 ^ 16) (5786167306868869 / 10 ^ 13) (2269760939870020 / 10 ^ 14) z <= (9454846839252642 / 10 ^ 16) * (1 / 2) ^ 9) by gs 3.
      assert (G2 : gauss (6430326869158796 / 10 ^ 16) (5351850303736512 / 10 ^ 13) (2863029894331116 / 10 ^ 14) z <= (6430326869158796 / 10 ^ 16) * (1 / 2) ^ 12) by gs 4.
      assert (G3 : gauss (1243340609168971 / 10 ^ 16) (4945721783546976 / 10 ^ 13) (1398438275367119 / 10 ^ 14) z <= (1243340609168971 / 10 ^ 16) * (1 / 2) ^ 12) by gs 4.
      assert (G4 : gauss (3651471532322375 / 10 ^ 16) (4404679754085741 / 10 ^ 13) (3491923613222621 / 10 ^ 14) z <= (3651471532322375 / 10 ^ 16) * (1 / 2) ^ 12) by gs 4.
      assert (G5 : gauss (7042787252835550 / 10 ^ 16) (3360548556730901 / 10 ^ 13) (3424136755250487 / 10 ^ 14) z <= (7042787252835550 / 10 ^ 16) * (1 / 2) ^ 12) by gs 4.
      lra.
    + split; intros H; [specialize (A H)|specialize (B H)]; lra.
  - intros By.
    destruct (band_ratio fluro_sum xs 510 535 650 2 540 1700 x y) as [A B]; [| | |lra|assumption|assumption|assumption|].
    + intros z. split; [apply fluro_pos|]. unfold fluro_sum.
      pose proof (gauss_top (43906754804626956 / 10 ^ 14) (54906438843562137 / 10 ^ 14) (24298601639828647 / 10 ^ 15) z ltac:(lra)).
      pose proof (gauss_top (85177292848284353 / 10 ^ 15) (37948645797468572 / 10 ^ 14) (13513987279089216 / 10 ^ 15) z ltac:(lra)).
      pose proof (gauss_top (6601731296017241 / 10 ^ 13) (51958858977131513 / 10 ^ 14) (38263352007649125 / 10 ^ 15) z ltac:(lra)).
      pose proof (gauss_top (51111501615291041 / 10 ^ 14) (49005625608592726 / 10 ^ 14) (52213294432464529 / 10 ^ 15) z ltac:(lra)). lra.
    + intros z Hz. unfold fluro_sum.
      pose proof (gauss_pos (43906754804626956 / 10 ^ 14) (54906438843562137 / 10 ^ 14) (24298601639828647 / 10 ^ 15) z ltac:(lra)).
      pose proof (gauss_pos (85177292848284353 / 10 ^ 15) (37948645797468572 / 10 ^ 14) (13513987279089216 / 10 ^ 15) z ltac:(lra)).
      pose proof (gauss_large (6601731296017241 / 10 ^ 13) (51958858977131513 / 10 ^ 14) (38263352007649125 / 10 ^ 15) z (41 / 100) ltac:(lra) ltac:(lra) ltac:(lra) ltac:(lra) ltac:(lra)).
      pose proof (gauss_pos (51111501615291041 / 10 ^ 14) (49005625608592726 / 10 ^ 14) (52213294432464529 / 10 ^ 15) z ltac:(lra)). lra.
    + intros z Hz. unfold fluro_sum.
      assert (G1 : gauss (43906754804626956 / 10 ^ 14) (54906438843562137 / 10 ^ 14) (24298601639828647 / 10 ^ 15) z <= (43906754804626956 / 10 ^ 14) * (1 / 2) ^ 11) by gs 4.
      assert (G2 : gauss (85177292848284353 / 10 ^ 15) (37948645797468572 / 10 ^ 14) (13513987279089216 / 10 ^ 15) z <= (85177292848284353 / 10 ^ 15) * (1 / 2) ^ 11) by gs 4.
      assert (G3 : gauss (6601731296017241 / 10 ^ 13) (51958858977131513 / 10 ^ 14) (38263352007649125 / 10 ^ 15) z <= (6601731296017241 / 10 ^ 13) * (1 / 2) ^ 11) by gs (332 / 100).
      assert (G4 : gauss (51111501615291041 / 10 ^ 14) (49005625608592726 / 10 ^ 14) (52213294432464529 / 10 ^ 15) z <= (51111501615291041 / 10 ^ 14) * (1 / 2) ^ 9) by gs 3.
      lra.
    + split; intros H; [specialize (A H)|specialize (B H)]; lra.
  - intros k v E F. unfold lumogen_emission in F. rewrite (map_nth_error _ _ _ E) in F. injection F as <-. split.
    + intros B. pose proof (gauss_large 1 600 (386 / 10) x (52 / 100) ltac:(lra) ltac:(lra) ltac:(lra) ltac:(lra) ltac:(lra)) as G. unfold gauss in G. lra.
    + intros B. assert (G : gauss 1 600 (386 / 10) x <= 1 * (1 / 2) ^ 9) by (destruct B; gs 3). unfold gauss in G. lra.
Qed.
Print Assumptions C97_bands.
Example C97_bands_example : exists v w, nth_error (lumogen_absorption [580; 700]) 0 = Some v /\ nth_error (lumogen_absorption [580; 700]) 1 = Some w /\ 15 / 100 <= v /\ w <= 1 / 150.
Proof.
  destruct (C97_bands [580; 700] 580 580) as (A & _ & A' & _); [simpl; tauto..|]. destruct (C97_bands [580; 700] 700 580) as (B & _ & B' & _); [simpl; tauto..|].
  do 2 eexists. split; [reflexivity|]. split; [reflexivity|]. split; [apply A; lra|apply B; lra].
Qed.

(** ** The grid of a named spectrum *)
Lemma arange_length a b s : 0 < s -> a < b -> let n := length (np_arange a b s) in
  INR n - 1 < (b - a) / s <= INR n.
Proof.
  intros Hs Hab. cbv zeta. unfold np_arange. rewrite map_length, seq_length.
  set (q := (b - a) / s). assert (Hq : 0 < q) by (apply Rdiv_lt_0_compat; lra).
  destruct (archimed (- q)) as [U1 U2]. set (u := up (- q)) in *.
  assert (Z0 : (0 <= - (u - 1))%Z). { assert (u < 2)%Z by (apply lt_IZR; lra). lia. }
  rewrite INR_IZR_INZ, Z2Nat.id by exact Z0. rewrite opp_IZR, minus_IZR. lra.
Qed.
Lemma increasing_arith a s : 0 < s -> forall n k, increasing (map (fun k => a + INR k * s) (seq k n)).
Proof.
  intros Hs. induction n as [|n IH]; intros k; [exact I|]. destruct n as [|n]; [exact I|].
  specialize (IH (S k)). cbn [seq map] in *. split; [|exact IH].
  apply Rplus_lt_compat_l, Rmult_lt_compat_r; [exact Hs|]. apply lt_INR. lia.
Qed.
(** It starts at min, increases in steps of the spacing, and its last point is at max or beyond
    it by less than one step. *)
Theorem C97_grid_covers_the_range : forall erf min max spacing name t, 0 < spacing -> min < max ->
  let l := load_named_spectrum erf min max spacing name t in
  (2 <= length l)%nat /\ increasing (map fst l) /\
  (forall k, (k < length l)%nat -> nth k (map fst l) 0 = min + INR k * spacing) /\
  max <= last (map fst l) 0 < max + spacing.
Proof.
  intros erf min max s name t Hs Hm l.
  assert (L : forall x, length (match name, t with Lumogen, Absorption => lumogen_absorption x | Lumogen, Emission => lumogen_emission x
             | FluroRed, Absorption => fluro_absorption x | FluroRed, Emission => fluro_emission erf x end) = length x).
  { intros x. destruct name, t; unfold lumogen_absorption, fluro_absorption, normalised, lumogen_emission, fluro_emission; now rewrite ?map_length. }
  assert (E : map fst l = np_arange min (max + s) s).
  { unfold l, load_named_spectrum. cbv zeta. set (x := np_arange min (max + s) s). specialize (L x). revert L.
    generalize (match name, t with Lumogen, Absorption => lumogen_absorption x | Lumogen, Emission => lumogen_emission x
             | FluroRed, Absorption => fluro_absorption x | FluroRed, Emission => fluro_emission erf x end). clearbody x. induction x as [|a x IH]; intros [|b y] H; cbn in *; try lia; [reflexivity|]. f_equal. apply IH. lia. }
  assert (En : length l = length (np_arange min (max + s) s)) by (rewrite <- E, map_length; reflexivity).
  pose proof (arange_length min (max + s) s Hs ltac:(lra)) as B. cbv zeta in B. rewrite <- En in B.
  assert (Q : 1 < (max + s - min) / s).
  { apply Rmult_lt_reg_r with s; [exact Hs|]. unfold Rdiv. rewrite Rmult_assoc, Rinv_l by lra. lra. }
  assert (N2 : (2 <= length l)%nat).
  { apply INR_le. simpl INR at 1. assert (1 < INR (length l)) by lra. apply (INR_lt 1) in H. apply (le_INR 2) in H. simpl in H. lra. }
  split; [exact N2|]. rewrite E. split; [apply increasing_arith; exact Hs|].
  assert (Nth : forall k, (k < length l)%nat -> nth k (np_arange min (max + s) s) 0 = min + INR k * s).
  { intros k Hk. rewrite En in Hk. unfold np_arange in *. set (f := fun k => min + INR k * s) in *. rewrite map_length in Hk.
    rewrite (nth_indep _ 0 (f 0%nat)) by (rewrite map_length; exact Hk). rewrite map_nth. rewrite seq_length in Hk. rewrite seq_nth by exact Hk. reflexivity. }
  split; [exact Nth|].
  assert (La : last (np_arange min (max + s) s) 0 = min + INR (length l - 1) * s).
  { rewrite <- Nth by lia. rewrite En. destruct (np_arange min (max + s) s) as [|z r] eqn:Er using rev_ind; [cbn in En; lia|].
    rewrite last_last, app_length. cbn [length]. rewrite app_nth2 by lia. replace (length r + 1 - 1 - length r)%nat with 0%nat by lia. reflexivity. }
  rewrite La. rewrite minus_INR by lia. simpl (INR 1).
  assert (B1 : (INR (length l) - 1) * s < max + s - min).
  { apply Rmult_lt_reg_r with (/ s); [now apply Rinv_0_lt_compat|]. rewrite Rmult_assoc, Rinv_r, Rmult_1_r by lra. exact (proj1 B). }
  assert (B2 : max + s - min <= INR (length l) * s).
  { apply Rmult_le_reg_r with (/ s); [now apply Rinv_0_lt_compat|]. rewrite Rmult_assoc, Rinv_r, Rmult_1_r by lra. exact (proj2 B). }
  split; lra.
Qed.
Print Assumptions C97_grid_covers_the_range.

(** 300 to 800 nm in steps of 200: the grid is 300, 500, 700, 900 *)
Example C97_example : forall erf, map fst (load_named_spectrum erf 300 800 200 Lumogen Absorption) = [300; 500; 700; 900].
Proof.
  intros erf. destruct (C97_grid_covers_the_range erf 300 800 200 Lumogen Absorption ltac:(lra) ltac:(lra)) as (_ & _ & N & L).
  set (l := map fst (load_named_spectrum erf 300 800 200 Lumogen Absorption)) in *.
  assert (Hl : length l = length (load_named_spectrum erf 300 800 200 Lumogen Absorption)) by apply map_length.
  rewrite <- Hl in N. clearbody l.
  assert (Hlast : l <> [] -> last l 0 = 300 + INR (length l - 1) * 200).
  { intros Ne. destruct l as [|z r] using rev_ind; [contradiction|]. rewrite last_last. rewrite <- N by (rewrite app_length; cbn; lia).
    rewrite app_length. cbn [length]. rewrite app_nth2 by lia. replace (length r + 1 - 1 - length r)%nat with 0%nat by lia. reflexivity. }
  assert (Hn : length l = 4%nat).
  { destruct l as [|z r]; [cbn in L; lra|]. rewrite Hlast in L by discriminate. cbn [length] in *. rewrite Nat.sub_succ, Nat.sub_0_r in L.
    assert (2 < INR (length r) < 4) as [A B] by lra. apply (INR_lt 2) in A. apply (INR_lt _ 4) in B || (assert (INR (length r) < INR 4) as B' by (simpl; lra); apply INR_lt in B'). lia. }
  destruct l as [|a [|b [|c [|d [|]]]]]; cbn in Hn; try lia.
  pose proof (N 0%nat ltac:(cbn; lia)). pose proof (N 1%nat ltac:(cbn; lia)). pose proof (N 2%nat ltac:(cbn; lia)). pose proof (N 3%nat ltac:(cbn; lia)).
  simpl in *. repeat f_equal; lra.
Qed.
