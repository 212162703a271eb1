(** Properties C29-C32, C67, C68: spectra, sampling and emission. *)
From Coq Require Import Reals Lra Psatz List Bool Arith Lia.
From Verif Require Import Base Interp DistModel DistSpec DistProofs.
Import ListNotations.
Open Scope R_scope.

(** ** Auxiliary lemmas for acceptance and areas *)
Lemma increasing_ascending xs : increasing xs -> ascending xs = true.
Proof.
  induction xs as [|a [|b r] IH]; simpl; auto. intros [H1 H2].
  rltb_t 0 (b - a). simpl. now apply IH.
Qed.
Lemma nonneg_existsb ys : Forall (fun y => 0 <= y) ys -> existsb (fun y => Rltb y 0) ys = false.
Proof. induction 1; simpl; auto. rltb_f x 0. auto. Qed.

Lemma rsum_midpoints_pos ys :
  (2 <= length ys)%nat -> Forall (fun y => 0 <= y) ys -> 0 < rsum ys -> 0 < rsum (midpoints ys).
Proof.
  destruct ys as [|a [|b r]]; simpl; try lia. intros _.
  revert a b. induction r as [|c r IH]; intros a b HF HS.
  - inversion HF as [|? ? Ha H1]; subst. unfold rsum in *; simpl in *. lra.
  - inversion HF as [|? ? Ha H1]; subst. inversion H1 as [|? ? Hb H2]; subst.
    destruct (Req_EM_T a 0) as [->|].
    + assert (0 < rsum ((b + c) * (1/2) :: midpoints (c :: r))).
      { apply IH; auto. unfold rsum in *; simpl in *; lra. }
      unfold rsum in *; simpl in *. lra.
    + assert (0 <= rsum ((b + c) * (1/2) :: midpoints (c :: r))).
      { apply rsum_nonneg. change ((b + c) * (1 / 2) :: midpoints (c :: r)) with (midpoints (b :: c :: r)).
        now apply midpoints_nonneg. }
      unfold rsum in *; simpl in *. lra.
Qed.

Lemma mk_dist_value xs ys :
  length xs = length ys -> (2 <= length xs)%nat -> increasing xs ->
  Forall (fun y => 0 <= y) ys -> 0 < rsum ys ->
  mk_dist xs ys false =
    MkOk (DTable false xs ys (0 :: map (fun v => v / rsum (midpoints ys)) (cumsum (midpoints ys)))).
Proof.
  intros Hl H2 Hinc Hpos Hsum. unfold mk_dist.
  rewrite (increasing_ascending _ Hinc), (nonneg_existsb _ Hpos). simpl negb.
  pose proof (rsum_midpoints_pos ys ltac:(lia) Hpos Hsum) as Hm.
  destruct ys as [|y0 yr] eqn:Ey; [simpl in *; lia|]. rewrite <- Ey in *.
  pose proof (cumsum_from_last 0 (midpoints ys)) as Hlast. rewrite Rplus_0_l in Hlast.
  pose proof (cumsum_from_nondec 0 _ (midpoints_nonneg _ Hpos)) as Hnd.
  unfold cumsum. destruct (cumsum_from 0 (midpoints ys)) as [|c0 cr] eqn:Ec.
  { simpl in Hlast. lra. }
  rewrite last_cons_default in Hlast.
  assert (Hnd' : nondecreasing (c0 :: cr)) by (destruct Hnd; assumption).
  rewrite (np_max_nondec _ _ Hnd'), Hlast.
  destruct (Reqb_spec (rsum (midpoints ys)) 0); [lra|]. reflexivity.
Qed.

Lemma area_to_midpoints h i xs ys :
  length xs = length ys -> uniform_spacing h xs ->
  area_to i xs ys = h * rsum (firstn i (midpoints ys)).
Proof.
  revert xs ys. induction i as [|i IH]; intros xs ys Hl Hu.
  - simpl. unfold rsum; simpl; lra.
  - destruct xs as [|x0 [|x1 xr]], ys as [|y0 [|y1 yr]]; simpl in Hl; try lia;
      try (simpl; unfold rsum; simpl; lra).
    destruct Hu as [Hu1 Hu2].
    change (area_to (S i) (x0 :: x1 :: xr) (y0 :: y1 :: yr))
      with ((x1 - x0) * (y0 + y1) / 2 + area_to i (x1 :: xr) (y1 :: yr)).
    rewrite (IH (x1 :: xr) (y1 :: yr)) by (auto; simpl; lia).
    change (midpoints (y0 :: y1 :: yr)) with ((y0 + y1) * (1/2) :: midpoints (y1 :: yr)).
    rewrite Hu1. unfold rsum; simpl. lra.
Qed.

(** A concrete spectrum used as the non-triviality witness throughout. *)
Definition ex_xs := [500; 510; 520].
Definition ex_ys := [1; 3; 1].
Example ex_spectrum_built :
  exists cdf, mk_dist ex_xs ex_ys false = MkOk (DTable false ex_xs ex_ys cdf) /\ good_table ex_xs ex_ys cdf.
Proof.
  pose proof (mk_dist_value ex_xs ex_ys eq_refl) as H.
  unfold ex_xs, ex_ys in *. specialize (H ltac:(simpl; lia)).
  assert (E : mk_dist [500; 510; 520] [1; 3; 1] false = MkOk (DTable false [500; 510; 520] [1; 3; 1]
     (0 :: map (fun v => v / rsum (midpoints [1; 3; 1])) (cumsum (midpoints [1; 3; 1]))))).
  { apply H; [simpl; lra|repeat constructor; lra|unfold rsum; simpl; lra]. }
  destruct (mk_dist_ok [500;510;520] [1;3;1] _ eq_refl E) as (cdf & Hd & Hg).
  exists cdf. split; [|exact Hg]. rewrite E, Hd. reflexivity.
Qed.

(** ** C29 *)
Theorem C29_cdf_is_proper : forall xs ys d,
  length xs = length ys -> mk_dist xs ys false = MkOk d ->
  exists cdf, d = DTable false xs ys cdf /\ length cdf = length xs /\ proper_cdf cdf.
Proof.
  intros xs ys d Hl H. destruct (mk_dist_ok _ _ _ Hl H) as (cdf & -> & G).
  exists cdf. destruct G as (_ & A & _ & _ & _ & B). auto.
Qed.
Print Assumptions C29_cdf_is_proper.

Theorem C29_hist_cdf_ends_at_one : forall xs ys d,
  length xs = length ys -> mk_dist xs ys true = MkOk d ->
  exists cdf, d = DTable true xs ys cdf /\ length cdf = length xs /\
    nondecreasing cdf /\ 0 <= hd 0 cdf /\ last cdf 0 = 1.
Proof.
  intros xs ys d Hl H. destruct (mk_dist_ok_hist _ _ _ Hl H) as (cdf & -> & A & _ & _ & _ & B & C & D).
  exists cdf. auto.
Qed.
Print Assumptions C29_hist_cdf_ends_at_one.

(** Every sensible spectrum is accepted (so the theorems above are not vacuous). *)
Theorem C29_valid_spectrum_accepted : forall xs ys,
  length xs = length ys -> (2 <= length xs)%nat -> increasing xs ->
  Forall (fun y => 0 <= y) ys -> 0 < rsum ys ->
  exists d, mk_dist xs ys false = MkOk d.
Proof. intros. eexists. apply mk_dist_value; auto. Qed.
Print Assumptions C29_valid_spectrum_accepted.

(** Invalid spectra (unsorted or with a negative value) are rejected. *)
Theorem C29_invalid_spectrum_rejected : forall xs ys hist,
  (~ increasing xs \/ Exists (fun y => y < 0) ys) -> mk_dist xs ys hist = MkValueError.
Proof.
  intros xs ys hist H. unfold mk_dist.
  destruct (ascending xs) eqn:Ea; simpl; [|reflexivity].
  apply ascending_increasing in Ea. destruct H as [H|H]; [contradiction|].
  destruct ys as [|y0 yr] eqn:Ey; [reflexivity|]. rewrite <- Ey in *.
  replace (existsb (fun y => Rltb y 0) ys) with true; [reflexivity|].
  symmetry. apply existsb_exists. apply Exists_exists in H as (y & Hin & Hy).
  exists y. split; auto. now apply Rltb_true.
Qed.
Print Assumptions C29_invalid_spectrum_rejected.

(** ** C30 *)
Theorem C30_sample_in_range : forall xs ys d p,
  length xs = length ys -> mk_dist xs ys false = MkOk d -> 0 <= p <= 1 ->
  exists w, dist_sample d p = Some w /\ hd 0 xs <= w <= last xs 0.
Proof.
  intros xs ys d p Hl H Hp. destruct (mk_dist_ok _ _ _ Hl H) as (cdf & -> & G).
  exact (sample_defined _ _ _ G p Hp).
Qed.
Print Assumptions C30_sample_in_range.

Theorem C30_sample_monotone : forall xs ys d p p' w w',
  length xs = length ys -> mk_dist xs ys false = MkOk d -> p <= p' ->
  dist_sample d p = Some w -> dist_sample d p' = Some w' -> w <= w'.
Proof.
  intros xs ys d p p' w w' Hl H. destruct (mk_dist_ok _ _ _ Hl H) as (cdf & -> & G).
  exact (sample_mono _ _ _ G p p' w w').
Qed.
Print Assumptions C30_sample_monotone.

Theorem C30_lookup_probability : forall xs ys d x,
  length xs = length ys -> mk_dist xs ys false = MkOk d -> hd 0 xs <= x <= last xs 0 ->
  exists p, dist_lookup d x = Some p /\ 0 <= p <= 1.
Proof.
  intros xs ys d x Hl H Hx. destruct (mk_dist_ok _ _ _ Hl H) as (cdf & -> & G).
  exact (lookup_defined _ _ _ G x Hx).
Qed.
Print Assumptions C30_lookup_probability.

Theorem C30_lookup_monotone : forall xs ys d x x' p p',
  length xs = length ys -> mk_dist xs ys false = MkOk d -> x <= x' ->
  dist_lookup d x = Some p -> dist_lookup d x' = Some p' -> p <= p'.
Proof.
  intros xs ys d x x' p p' Hl H. destruct (mk_dist_ok _ _ _ Hl H) as (cdf & -> & G).
  exact (lookup_mono _ _ _ G x x' p p').
Qed.
Print Assumptions C30_lookup_monotone.

(** Histogram distributions only ever return a given abscissa. *)
Theorem C30_hist_sample_is_a_knot : forall xs ys d p w,
  length xs = length ys -> mk_dist xs ys true = MkOk d ->
  dist_sample d p = Some w -> In w xs.
Proof.
  intros xs ys d p w Hl H Hs. destruct (mk_dist_ok_hist _ _ _ Hl H) as (cdf & -> & A & B & _).
  unfold dist_sample in Hs. destruct (negb _); [discriminate|].
  destruct (nth_error xs (searchsorted cdf p)) eqn:E; inversion Hs; subst.
  - now apply nth_error_In in E.
  - destruct xs as [|x0 xr]; simpl in B; [lia|].
    rewrite last_cons_default. rewrite <- (last_cons_default x0 xr 0).
    rewrite <- (rev_involutive (x0 :: xr)) at 1.
    destruct (rev (x0 :: xr)) as [|b r] eqn:Er.
    { apply (f_equal (@length R)) in Er. rewrite rev_length in Er. simpl in Er. lia. }
    simpl rev at 1. rewrite last_app_single. apply in_rev. rewrite Er. now left.
Qed.
Print Assumptions C30_hist_sample_is_a_knot.

(** Histograms: lookups are probabilities and both directions are monotone, as for tables that are
    interpolated. *)
Lemma nondecreasing_nth l : nondecreasing l -> forall i j a b, (i <= j)%nat -> nth_error l i = Some a -> nth_error l j = Some b -> a <= b.
Proof.
  induction l as [|x l IH]; intros H [|i] [|j] a b Hij Ha Hb; try discriminate; try lia; cbn in Ha, Hb.
  - replace a with b by congruence. lra.
  - injection Ha as <-. assert (T : nondecreasing l) by (destruct l; cbn in H |- *; tauto).
    destruct l as [|y l]; [destruct j; discriminate|]. destruct H as [H _]. apply Rle_trans with y; [exact H|]. apply (IH T 0%nat j); [lia|reflexivity|exact Hb].
  - assert (T : nondecreasing l) by (destruct l; cbn in H |- *; tauto). apply (IH T i j); [lia|assumption|assumption].
Qed.
Lemma increasing_nondecreasing l : increasing l -> nondecreasing l.
Proof. induction l as [|a [|b l] IH]; intros H; [exact I..|]. destruct H as [H1 H2]. split; [lra|exact (IH H2)]. Qed.
Lemma searchsorted_mono l v v' : v <= v' -> (searchsorted l v <= searchsorted l v')%nat.
Proof.
  intros H. induction l as [|a l IH]; cbn [searchsorted]; [lia|]. destruct (Rltb_spec a v); [|lia]. rewrite (proj2 (Rltb_true a v')) by lra. lia.
Qed.
(** the first entry that is not below [v] *)
Lemma searchsorted_first l v : nondecreasing l -> forall k, searchsorted l v = k <->
  (forall i a, (i < k)%nat -> nth_error l i = Some a -> a < v) /\ (k <= length l)%nat /\ (forall a, nth_error l k = Some a -> v <= a).
Proof.
  induction l as [|a l IH]; intros H k; cbn [searchsorted].
  - split; [intros <-; repeat split; [lia|simpl; lia|discriminate]|]. intros (_ & K & _). simpl in K. lia.
  - assert (T : nondecreasing l) by (destruct l; cbn in H |- *; tauto). specialize (IH T). destruct (Rltb_spec a v) as [L|L].
    + split.
      * intros <-. destruct (proj1 (IH _) eq_refl) as (A & B & C). split; [|split; [simpl; lia|exact C]].
        intros [|i] b Hi Hb; cbn in Hb; [congruence|]. apply (A i b); [lia|exact Hb].
      * intros (A & B & C). destruct k as [|k]; [specialize (C a eq_refl); lra|]. f_equal. apply IH. split; [|split; [simpl in B; lia|exact C]].
        intros i b Hi Hb. apply (A (S i) b); [lia|exact Hb].
    + split.
      * intros <-. split; [intros; lia|]. split; [simpl; lia|]. intros b Hb. cbn in Hb. replace b with a by congruence. lra.
      * intros (A & B & C). destruct k as [|k]; [reflexivity|]. specialize (A 0%nat a ltac:(lia) eq_refl). lra.
Qed.
Lemma last_nth l : forall (a : R), nth_error (a :: l) (length l) = Some (last (a :: l) 0).
Proof. induction l as [|b l IH]; intros a; [reflexivity|]. exact (IH b). Qed.
Lemma searchsorted_lt l v : l <> [] -> v <= last l 0 -> (searchsorted l v < length l)%nat.
Proof.
  induction l as [|a l IH]; intros Ne H; [contradiction|]. cbn [searchsorted length]. destruct (Rltb_spec a v); [|lia].
  destruct l as [|b l]; [simpl in H; lra|]. specialize (IH ltac:(discriminate) H). lia.
Qed.
Lemma allinrange_iff x lo hi : allinrange x lo hi = true <-> lo <= x <= hi.
Proof.
  unfold allinrange. destruct (Rltb_spec x lo); [split; [discriminate|lra]|]. destruct (Rltb_spec hi x); [split; [discriminate|lra]|]. split; [lra|reflexivity].
Qed.
Theorem C30_hist_lookup : forall xs ys d, length xs = length ys -> mk_dist xs ys true = MkOk d ->
  (forall x, hd 0 xs <= x <= last xs 0 -> exists p, dist_lookup d x = Some p /\ 0 <= p <= 1) /\
  (forall x x' p p', x <= x' -> dist_lookup d x = Some p -> dist_lookup d x' = Some p' -> p <= p').
Proof.
  intros xs ys d Hl H. destruct (mk_dist_ok_hist _ _ _ Hl H) as (cdf & -> & A & B & I & _ & Nd & C0 & C1). split.
  - intros x Hx. unfold dist_lookup, x_min, x_max. rewrite (proj2 (allinrange_iff _ _ _) Hx). cbn [negb].
    assert (S : (searchsorted xs x < length cdf)%nat) by (rewrite A; apply searchsorted_lt; [destruct xs; [simpl in B; lia|discriminate]|tauto]).
    destruct (nth_error cdf (searchsorted xs x)) as [p|] eqn:E; [|apply nth_error_None in E; lia]. exists p. split; [reflexivity|].
    destruct cdf as [|c cdf]; [simpl in S; lia|]. cbn [hd] in C0. split.
    + apply Rle_trans with c; [exact C0|]. apply (nondecreasing_nth _ Nd 0%nat (searchsorted xs x)); [lia|reflexivity|exact E].
    + rewrite <- C1. apply (nondecreasing_nth _ Nd (searchsorted xs x) (length cdf)); [simpl in S; lia|exact E|apply last_nth].
  - intros x x' p p' Hx Hp Hp'. unfold dist_lookup in Hp, Hp'. destruct (negb _) in Hp; [discriminate|]. destruct (negb _) in Hp'; [discriminate|].
    exact (nondecreasing_nth _ Nd _ _ _ _ (searchsorted_mono xs _ _ Hx) Hp Hp').
Qed.
Print Assumptions C30_hist_lookup.
Theorem C30_hist_sample : forall xs ys d, length xs = length ys -> mk_dist xs ys true = MkOk d ->
  (forall p, 0 <= p <= 1 -> exists w, dist_sample d p = Some w /\ hd 0 xs <= w <= last xs 0) /\
  (forall p p' w w', p <= p' -> dist_sample d p = Some w -> dist_sample d p' = Some w' -> w <= w').
Proof.
  intros xs ys d Hl H. destruct (mk_dist_ok_hist _ _ _ Hl H) as (cdf & -> & A & B & I & _ & Nd & C0 & C1).
  pose proof (increasing_nondecreasing _ I) as Nx.
  assert (D : forall p, 0 <= p <= 1 -> (searchsorted cdf p < length xs)%nat).
  { intros p Hp. rewrite <- A. apply searchsorted_lt; [destruct cdf; [simpl in A; lia|discriminate]|lra]. }
  split.
  - intros p Hp. unfold dist_sample. rewrite (proj2 (allinrange_iff _ _ _) Hp). cbn [negb]. specialize (D p Hp).
    destruct (nth_error xs (searchsorted cdf p)) as [w|] eqn:E; [|apply nth_error_None in E; lia]. exists w. split; [reflexivity|].
    destruct xs as [|x xs]; [simpl in D; lia|]. split.
    + apply (nondecreasing_nth _ Nx 0%nat (searchsorted cdf p)); [lia|reflexivity|exact E].
    + apply (nondecreasing_nth _ Nx (searchsorted cdf p) (length xs)); [simpl in D; lia|exact E|apply last_nth].
  - intros p p' w w' Hp Hw Hw'. unfold dist_sample in Hw, Hw'. destruct (allinrange p 0 1) eqn:R; [|discriminate]. destruct (allinrange p' 0 1) eqn:R'; [|discriminate]. cbn [negb] in *.
    apply allinrange_iff in R, R'. pose proof (D p R). pose proof (D p' R').
    destruct (nth_error xs (searchsorted cdf p)) as [v|] eqn:E; [|apply nth_error_None in E; lia]. destruct (nth_error xs (searchsorted cdf p')) as [v'|] eqn:E'; [|apply nth_error_None in E'; lia].
    injection Hw as <-. injection Hw' as <-. exact (nondecreasing_nth _ Nx _ _ _ _ (searchsorted_mono cdf _ _ Hp) E E').
Qed.
Print Assumptions C30_hist_sample.

(** ** C31 *)
Theorem C31_sample_after_lookup : forall xs ys cdf x p,
  length xs = length ys -> mk_dist xs ys false = MkOk (DTable false xs ys cdf) ->
  increasing cdf ->
  dist_lookup (DTable false xs ys cdf) x = Some p -> dist_sample (DTable false xs ys cdf) p = Some x.
Proof.
  intros xs ys cdf x p Hl H. destruct (mk_dist_ok _ _ _ Hl H) as (cdf' & E & G).
  inversion E; subst cdf'. intros. eapply sample_lookup_roundtrip; eauto.
Qed.
Print Assumptions C31_sample_after_lookup.

Theorem C31_lookup_after_sample : forall xs ys cdf p w,
  length xs = length ys -> mk_dist xs ys false = MkOk (DTable false xs ys cdf) ->
  increasing cdf ->
  dist_sample (DTable false xs ys cdf) p = Some w -> dist_lookup (DTable false xs ys cdf) w = Some p.
Proof.
  intros xs ys cdf p w Hl H. destruct (mk_dist_ok _ _ _ Hl H) as (cdf' & E & G).
  inversion E; subst cdf'. intros. eapply lookup_sample_roundtrip; eauto.
Qed.
Print Assumptions C31_lookup_after_sample.

(** The CDF is strictly increasing for strictly positive data, so both round
    trips apply to every spectrum without gaps. *)
Lemma cumsum_from_inc acc l : Forall (fun x => 0 < x) l -> increasing (acc :: cumsum_from acc l).
Proof.
  intros H. revert acc. induction H as [|a r Ha Hr IH]; intros acc; simpl; auto. split; [lra|apply IH].
Qed.
Lemma increasing_map f l :
  (forall a b, a < b -> f a < f b) -> increasing l -> increasing (map f l).
Proof.
  intros Hf. induction l as [|a [|b r] IH]; simpl; auto. intros [H1 H2]. split; [now apply Hf|now apply IH].
Qed.

Theorem C31_positive_spectrum_has_increasing_cdf : forall xs ys,
  length xs = length ys -> (2 <= length xs)%nat -> increasing xs -> Forall (fun y => 0 < y) ys ->
  exists cdf, mk_dist xs ys false = MkOk (DTable false xs ys cdf) /\ increasing cdf.
Proof.
  intros xs ys Hl H2 Hinc Hpos.
  assert (Hnn : Forall (fun y => 0 <= y) ys) by (eapply Forall_impl; [|exact Hpos]; simpl; intros; lra).
  assert (Hs : 0 < rsum ys).
  { destruct ys as [|y0 yr]; simpl in *; [lia|]. inversion Hpos; subst. inversion Hnn; subst.
    pose proof (rsum_nonneg yr ltac:(assumption)). unfold rsum in *; simpl. lra. }
  pose proof (rsum_midpoints_pos ys ltac:(lia) Hnn Hs) as Hm.
  eexists; split; [apply mk_dist_value; auto|].
  assert (Hmp : Forall (fun y => 0 < y) (midpoints ys)).
  { clear -Hpos. induction ys as [|a [|b r] IH]; simpl; auto.
    inversion Hpos as [|? ? Ha Hr]; subst. inversion Hr; subst. constructor; [lra|now apply IH]. }
  pose proof (cumsum_from_inc 0 _ Hmp) as Hc.
  apply (increasing_map (fun v => v / rsum (midpoints ys))) in Hc.
  - unfold cumsum. cbn [map] in Hc. replace (0 / rsum (midpoints ys)) with 0 in Hc by (field; lra). exact Hc.
  - intros a b Hab. apply Rmult_lt_compat_r; auto. now apply Rinv_0_lt_compat.
Qed.
Print Assumptions C31_positive_spectrum_has_increasing_cdf.

(** Histograms without empty bins: the CDF at knot k is the fraction of the counts up to it, looked
    up by every x of that bin and sampled back as its upper knot. *)
Theorem C31_hist_bins : forall xs ys d, length xs = length ys -> Forall (fun y => 0 < y) ys -> mk_dist xs ys true = MkOk d ->
  forall k hi, nth_error xs k = Some hi -> forall x, hd 0 xs <= x <= hi -> (forall lo, (0 < k)%nat -> nth_error xs (k - 1) = Some lo -> lo < x) ->
  exists p, dist_lookup d x = Some p /\ dist_sample d p = Some hi /\ p = rsum (firstn (S k) ys) / rsum ys.
Proof.
  intros xs ys d Hl Hpos H k hi Hk x Hx Hlo. destruct (mk_dist_ok_hist _ _ _ Hl H) as (cdf & E & A & B & I & _ & Nd & C0 & C1).
  pose proof (increasing_nondecreasing _ I) as Nx.
  assert (Hkl : (k < length xs)%nat) by (apply nth_error_Some; congruence).
  assert (HS : searchsorted xs x = k).
  { apply searchsorted_first; [exact Nx|]. split; [|split; [lia|intros a Ha; replace a with hi by congruence; tauto]].
    intros i a Hi Ha. destruct (nth_error xs (k - 1)) as [lo|] eqn:El; [|apply nth_error_None in El; lia].
    apply Rle_lt_trans with lo; [exact (nondecreasing_nth _ Nx i (k - 1)%nat a lo ltac:(lia) Ha El)|apply Hlo; [lia|reflexivity]]. }
  assert (Cs : forall l acc i, (i < length l)%nat -> nth_error (cumsum_from acc l) i = Some (acc + rsum (firstn (S i) l))).
  { induction l as [|a l IH]; intros acc i Hi; [simpl in Hi; lia|]. destruct i as [|i]; [cbn; unfold rsum; simpl; f_equal; ring|].
    cbn [cumsum_from nth_error]. rewrite IH by (simpl in Hi; lia). f_equal. cbn [firstn rsum fold_right]. unfold rsum. simpl. ring. }
  assert (Tot : last (cumsum ys) 0 = rsum ys).
  { destruct ys as [|y ys]; [reflexivity|]. unfold cumsum. assert (L : length (cumsum_from 0 (y :: ys)) = S (length ys)) by (rewrite cumsum_from_length; reflexivity).
    specialize (Cs (y :: ys) 0 (length ys) ltac:(simpl; lia)). destruct (cumsum_from 0 (y :: ys)) as [|c l] eqn:Ec; [discriminate|].
    injection L as L. rewrite <- L, last_nth, L in Cs. replace (firstn (S (length ys)) (y :: ys)) with (y :: ys) in Cs by (symmetry; apply firstn_all2; simpl; lia). assert (last (c :: l) 0 = 0 + rsum (y :: ys)) by congruence. lra. }
  assert (Cdf : cdf = map (fun v => v * (1 / rsum ys)) (cumsum ys) /\ rsum ys <> 0).
  { unfold mk_dist in H. destruct (negb _); [discriminate|]. destruct ys as [|y0 ys0]; [discriminate|]. destruct (existsb _ _); [discriminate|]. rewrite Tot in H.
    destruct (Nat.ltb _ _); [discriminate|]. destruct (Reqb_spec (rsum (y0 :: ys0)) 0) as [|Nz]; [discriminate|]. split; [|exact Nz]. injection H as H. rewrite E in H. clear - H. assert (X : forall a b, DTable true xs (y0 :: ys0) a = DTable true xs (y0 :: ys0) b -> b = a) by (intros a b X; congruence). exact (X _ _ H). }
  destruct Cdf as [Ecdf Nz]. assert (Pos : 0 < rsum ys).
  { destruct ys as [|y ys]; [simpl in Hl; lia|]. inversion Hpos; subst. assert (0 <= rsum ys) by (apply rsum_nonneg; eapply Forall_impl; [|eassumption]; simpl; intros; lra). unfold rsum in *. simpl in *. lra. }
  assert (In_cdf : increasing cdf).
  { rewrite Ecdf. apply increasing_map; [intros a b Hab; apply Rmult_lt_compat_r; [apply Rdiv_lt_0_compat; lra|exact Hab]|].
    pose proof (cumsum_from_inc 0 ys Hpos) as K. unfold cumsum. destruct (cumsum_from 0 ys); [exact Logic.I|destruct K; assumption]. }
  assert (Ck : nth_error cdf k = Some (rsum (firstn (S k) ys) / rsum ys)).
  { rewrite Ecdf. rewrite (map_nth_error _ _ _ (Cs ys 0 k ltac:(lia))). f_equal. field. exact Nz. }
  exists (rsum (firstn (S k) ys) / rsum ys). set (p := rsum (firstn (S k) ys) / rsum ys) in *. clearbody p. subst d. split; [|split; [|reflexivity]].
  - unfold dist_lookup, x_min, x_max. rewrite (proj2 (allinrange_iff _ _ _)); [cbn [negb]; now rewrite HS|]. split; [tauto|].
    apply Rle_trans with hi; [tauto|]. destruct xs as [|x0 xs]; [simpl in Hkl; lia|]. apply (nondecreasing_nth _ Nx k (length xs)); [simpl in Hkl; lia|exact Hk|apply last_nth].
  - assert (P : 0 <= p <= 1).
    { destruct cdf as [|c cdf]; [destruct k; discriminate|]. cbn [hd] in C0. split.
      - apply Rle_trans with c; [exact C0|]. exact (nondecreasing_nth _ Nd 0%nat k c p ltac:(lia) eq_refl Ck).
      - rewrite <- C1. apply (nondecreasing_nth _ Nd k (length cdf)); [rewrite <- A in Hkl; simpl in Hkl; lia|exact Ck|apply last_nth]. }
    unfold dist_sample. rewrite (proj2 (allinrange_iff _ _ _) P). cbn [negb].
    assert (Sc : searchsorted cdf p = k).
    { apply searchsorted_first; [exact Nd|]. split; [|split; [lia|intros a Ha; replace a with p by congruence; lra]].
      clear - In_cdf Ck. revert k Ck. induction cdf as [|c l IH]; intros k Ck i a Hi Ha; [destruct k; discriminate|].
      destruct k as [|k]; [lia|]. assert (T : increasing l) by (destruct l; cbn in In_cdf |- *; tauto).
      destruct i as [|i]; [|exact (IH T k Ck i a ltac:(lia) Ha)]. cbn in Ha. injection Ha as <-. destruct l as [|b l]; [destruct k; discriminate|].
      destruct In_cdf as [L _]. apply Rlt_le_trans with b; [exact L|]. apply (nondecreasing_nth _ (increasing_nondecreasing _ T) 0%nat k); [lia|reflexivity|exact Ck]. }
    rewrite Sc, Hk. reflexivity.
Qed.
Print Assumptions C31_hist_bins.
(** counts 1 and 3 at 400 and 500 nm: 450 nm belongs to the bin of 500 nm *)
Example C31_hist_example : exists d, mk_dist [400; 500] [1; 3] true = MkOk d /\ dist_lookup d 450 = Some 1 /\ dist_sample d 1 = Some 500 /\ dist_lookup d 400 = Some (1 / 4) /\ dist_sample d (1 / 4) = Some 400.
Proof.
  assert (E : exists d, mk_dist [400; 500] [1; 3] true = MkOk d).
  { unfold mk_dist. cbn. rewrite (proj2 (Rltb_true 0 (500 - 400))), (proj2 (Rltb_false 1 0)), (proj2 (Rltb_false 3 0)) by lra. cbn.
    destruct (Reqb_spec (0 + 1 + 3) 0); [lra|eexists; reflexivity]. }
  destruct E as [d E]. exists d. split; [exact E|].
  assert (F : Forall (fun y => 0 < y) [1; 3]) by (repeat constructor; lra).
  destruct (C31_hist_bins [400; 500] [1; 3] d eq_refl F E 1%nat 500 eq_refl 450) as (p & L & S & P); [simpl; lra|intros lo _ Hlo; cbn in Hlo; injection Hlo as <-; lra|].
  destruct (C31_hist_bins [400; 500] [1; 3] d eq_refl F E 0%nat 400 eq_refl 400) as (q & L' & S' & Q); [simpl; lra|intros lo Hk; lia|].
  replace p with 1 in * by (rewrite P; unfold rsum; simpl; field). replace q with (1 / 4) in * by (rewrite Q; unfold rsum; simpl; field). auto.
Qed.

(** ** C32 *)
Theorem C32_redshift_never_gains_energy : forall xs ys d T nm u w,
  length xs = length ys -> mk_dist xs ys false = MkOk d -> 0 <= u < 1 ->
  emit_wavelength d Redshift T nm u = Some w -> nm <= w.
Proof.
  intros xs ys d T nm u w Hl H Hu. destruct (mk_dist_ok _ _ _ Hl H) as (cdf & -> & G).
  now apply emit_redshift.
Qed.
Print Assumptions C32_redshift_never_gains_energy.

Theorem C32_kT_energy_bound : forall xs ys d T nm u w,
  length xs = length ys -> mk_dist xs ys false = MkOk d -> 0 <= u < 1 -> 0 < nm -> 0 <= T ->
  emit_wavelength d KT T nm u = Some w ->
  1240 / w <= 1240 / nm + 3 / 2 * (1380649 / 1000000 / 10 ^ 23 / (160217662 / 100000000 / 10 ^ 19)) * T.
Proof.
  intros xs ys d T nm u w Hl H Hu. destruct (mk_dist_ok _ _ _ Hl H) as (cdf & -> & G).
  now apply emit_kT.
Qed.
Print Assumptions C32_kT_energy_bound.

Theorem C32_emission_inside_spectrum : forall xs ys d m T nm u w,
  length xs = length ys -> mk_dist xs ys false = MkOk d -> 0 <= u < 1 ->
  emit_wavelength d m T nm u = Some w -> hd 0 xs <= w <= last xs 0.
Proof.
  intros xs ys d m T nm u w Hl H Hu. destruct (mk_dist_ok _ _ _ Hl H) as (cdf & -> & G).
  now apply emit_in_spectrum.
Qed.
Print Assumptions C32_emission_inside_spectrum.

(** Histogram-sampled emission does not keep the redshift promise: above the
    last non-empty bin every draw gives a shorter wavelength. *)
Theorem C32_hist_redshift_refuted : exists xs ys d nm,
  length xs = length ys /\ mk_dist xs ys true = MkOk d /\
  forall T u, 0 <= u < 1 -> exists w, emit_wavelength d Redshift T nm u = Some w /\ w < nm.
Proof.
  exists [500; 510; 520], [1; 1; 0]. eexists. exists 520.
  split; [reflexivity|]. split.
  { unfold mk_dist. simpl. rdec. simpl. rdec. reflexivity. }
  intros T u Hu. exists 510. split; [|lra].
  unfold emit_wavelength, dist_lookup, allinrange, x_min, x_max. simpl. rdec. simpl.
  unfold dist_sample, allinrange.
  assert (E : forall v, (0 + 1 + 1 + 0) * (1 / (0 + 1 + 1 + 0)) +
     (1 - (0 + 1 + 1 + 0) * (1 / (0 + 1 + 1 + 0))) * v = 1) by (intros; field).
  rewrite E. rdec. cbn [orb negb searchsorted].
  replace ((0 + 1) * (1 / (0 + 1 + 1 + 0))) with (/2) by field.
  rdec. replace ((0 + 1 + 1) * (1 / (0 + 1 + 1 + 0))) with 1 by field. rdec. reflexivity.
Qed.
Print Assumptions C32_hist_redshift_refuted.

(** The compiled kernel breaks the promise outside the emission spectrum (the
    Python tracer raises ValueError there). *)
Theorem C32_kernel_redshift_refuted : exists xs ys cdf nm,
  mk_dist xs ys false = MkOk (DTable false xs ys cdf) /\
  (forall u, 0 <= u < 1 -> k_emit_wavelength xs cdf Redshift nm u < nm) /\
  (forall T u, emit_wavelength (DTable false xs ys cdf) Redshift T nm u = None).
Proof.
  exists [500; 600], [1; 1], [0; 1], 650. split; [|split].
  - unfold mk_dist. simpl. rdec. simpl. unfold np_max. simpl. rdec.
    do 3 f_equal. f_equal. field.
  - intros u Hu. unfold k_emit_wavelength.
    assert (E : interp_clamped 650 [500; 600] [0; 1] = 1).
    { unfold interp_clamped. simpl. rdec. reflexivity. }
    rewrite E. replace (1 + (1 - 1) * u) with 1 by ring.
    unfold interp_clamped. simpl. rdec. lra.
  - intros T u. unfold emit_wavelength, dist_lookup, allinrange, x_min, x_max. simpl. rdec. reflexivity.
Qed.
Print Assumptions C32_kernel_redshift_refuted.

Lemma last_nth_list (xs : list R) : last xs 0 = nth (length xs - 1) xs 0.
Proof.
  destruct xs as [|a r]; [reflexivity|]. rewrite last_cons_default.
  pose proof (last_nth_knots (a, 0) (map (fun x => (x, 0)) r)) as E.
  rewrite (last_map (fun x => (x, 0))) in E. apply (f_equal fst) in E. simpl fst at 1 in E.
  rewrite E, map_length. rewrite <- nth_map_fst. cbn [map]. rewrite map_map. simpl fst.
  rewrite map_id. simpl length. f_equal. lia.
Qed.

Lemma k_sample_above xs ys cdf nm p q :
  good_table xs ys cdf -> dist_lookup (DTable false xs ys cdf) nm = Some p ->
  0 <= p <= 1 -> p <= q -> 0 < q -> q <= 1 -> nm <= last xs 0 -> nm <= interp_clamped q cdf xs.
Proof.
  intros G Hlk Hp Hpq Hq0 Hq1 Hnm.
  pose proof G as (Hl & Hlc & H2 & Hx & Hy & Hnd & Hhd & Hlast).
  destruct (Req_EM_T q 1) as [->|Hne].
  - rewrite interp_clamped_ge; [|lia|rewrite <- last_nth_list, Hlast; lra|].
    + rewrite Hlc, <- last_nth_list. exact Hnm.
    + destruct cdf as [|c0 cr]; simpl in *; lra.
  - destruct (sample_defined _ _ _ G q ltac:(lra)) as (w & Hw & _).
    pose proof (sample_above _ _ _ G nm p q w Hlk Hpq Hw) as Hge.
    assert (E : interp_clamped q cdf xs = w); [|now rewrite E].
    unfold dist_sample in Hw. destruct (negb _); [discriminate|].
    apply np_interp_clamped_nondec; auto.
    + destruct cdf as [|c0 cr]; simpl in *; lra.
    + lra.
Qed.

Theorem C32_kernel_redshift_partial : forall xs ys cdf nm u,
  length xs = length ys -> mk_dist xs ys false = MkOk (DTable false xs ys cdf) ->
  hd 0 xs <= nm <= last xs 0 -> 0 < u < 1 ->
  nm <= k_emit_wavelength xs cdf Redshift nm u.
Proof.
  intros xs ys cdf nm u Hl H Hnm Hu. destruct (mk_dist_ok _ _ _ Hl H) as (cdf' & E & G).
  inversion E; subst cdf'; clear E.
  destruct (lookup_defined _ _ _ G nm Hnm) as (p & Hp & Hpr).
  pose proof G as (_ & Hlc & H2 & Hx & _ & Hnd & Hhd & Hlast).
  assert (Ek : interp_clamped nm xs cdf = p).
  { unfold dist_lookup in Hp. destruct (negb _); [discriminate|].
    apply np_interp_clamped; auto. }
  unfold k_emit_wavelength. rewrite Ek.
  eapply k_sample_above; eauto; try lra; nra.
Qed.
Print Assumptions C32_kernel_redshift_partial.

Example C32_example : exists d w,
  mk_dist [500; 600] [1; 1] false = MkOk d /\
  emit_wavelength d Redshift 300 550 (1/2) = Some w /\ w = 575.
Proof.
  eexists. eexists. split; [unfold mk_dist; simpl; rdec; simpl; unfold np_max; simpl; rdec; reflexivity|].
  replace ((0 + (1 + 1) * (1/2)) / (0 + (1 + 1) * (1/2))) with 1 by field.
  unfold emit_wavelength, dist_lookup, allinrange, x_min, x_max. simpl. rdec. simpl. rdec.
  unfold dist_sample, allinrange.
  replace (0 + (1 - 0) / (600 - 500) * (550 - 500) + (1 - (0 + (1 - 0) / (600 - 500) * (550 - 500))) * (1 / 2)) with (3/4) by field.
  rdec. simpl. rdec. split; [reflexivity|field].
Qed.

(** ** C67: sampling is proportional to the area under the spectrum *)
Theorem C67_sampling_follows_area_refuted : exists xs ys cdf i,
  length xs = length ys /\ mk_dist xs ys false = MkOk (DTable false xs ys cdf) /\
  (i < length xs)%nat /\
  nth i cdf 0 <> area_to i xs ys / area_to (length xs - 1) xs ys.
Proof.
  exists [0; 1; 3], [1; 1; 1]. eexists. exists 1%nat.
  split; [reflexivity|]. split; [|split; [simpl; lia|]].
  - apply mk_dist_value; [reflexivity|simpl; lia|simpl; lra|repeat constructor; lra|unfold rsum; simpl; lra].
  - unfold cumsum, rsum. simpl. lra.
Qed.
Print Assumptions C67_sampling_follows_area_refuted.

Theorem C67_sampling_follows_area_partial : forall h xs ys cdf i,
  length xs = length ys -> mk_dist xs ys false = MkOk (DTable false xs ys cdf) ->
  0 < h -> uniform_spacing h xs -> (i < length xs)%nat ->
  nth i cdf 0 = area_to i xs ys / area_to (length xs - 1) xs ys.
Proof.
  intros h xs ys cdf i Hl H Hh Hu Hi.
  pose proof (mk_dist_ok _ _ _ Hl H) as (cdf' & E & (_ & _ & H2 & Hinc & Hpos & _)).
  assert (Hs : 0 < rsum (midpoints ys) /\
     cdf = 0 :: map (fun v => v / rsum (midpoints ys)) (cumsum (midpoints ys))).
  { unfold mk_dist in H. rewrite (increasing_ascending _ Hinc), (nonneg_existsb _ Hpos) in H. simpl in H.
    destruct ys as [|y0 yr] eqn:Ey; [discriminate|]. rewrite <- Ey in *.
    pose proof (cumsum_from_last 0 (midpoints ys)) as Hlast. rewrite Rplus_0_l in Hlast.
    pose proof (cumsum_from_nondec 0 _ (midpoints_nonneg _ Hpos)) as Hnd.
    unfold cumsum in *. destruct (cumsum_from 0 (midpoints ys)) as [|c0 cr] eqn:Ec; [discriminate|].
    rewrite last_cons_default in Hlast.
    assert (Hnd' : nondecreasing (c0 :: cr)) by (destruct Hnd; assumption).
    rewrite (np_max_nondec _ _ Hnd'), Hlast in H.
    destruct (Reqb_spec (rsum (midpoints ys)) 0) as [|Hne]; [discriminate|].
    pose proof (rsum_nonneg _ (midpoints_nonneg _ Hpos)).
    inversion H. split; [lra|reflexivity]. }
  destruct Hs as [Hs ->].
  rewrite !(area_to_midpoints h) by auto.
  assert (Hml : length (midpoints ys) = (length xs - 1)%nat) by (rewrite midpoints_length; lia).
  rewrite <- Hml at 1. rewrite firstn_all.
  destruct i as [|i].
  - simpl. unfold rsum at 1. simpl. field. split; [|lra]. intros Hc. unfold rsum in Hs; simpl in Hc. lra.
  - change (nth (S i) (0 :: map (fun v => v / rsum (midpoints ys)) (cumsum (midpoints ys))) 0)
      with (nth i (map (fun v => v / rsum (midpoints ys)) (cumsum (midpoints ys))) 0).
    rewrite (nth_indep _ 0 ((fun v => v / rsum (midpoints ys)) 0)).
    2:{ rewrite map_length. unfold cumsum. rewrite cumsum_from_length. lia. }
    rewrite (map_nth (fun v => v / rsum (midpoints ys))). unfold cumsum.
    rewrite cumsum_from_nth by lia. rewrite Rplus_0_l. field. lra.
Qed.
Print Assumptions C67_sampling_follows_area_partial.

(** ** C68: the kernel's tables give the Python values *)
Theorem C68_kernel_coefficient_agrees : forall d xs ys x v,
  length xs = length ys -> mk_dist xs ys false = MkOk d ->
  dist_call d x = Some v -> k_coefficient d x = v.
Proof.
  intros d xs ys x v Hl H Hc. destruct (mk_dist_ok _ _ _ Hl H) as (cdf & -> & G).
  destruct G as (_ & _ & H2 & Hinc & _).
  unfold dist_call in Hc. destruct (negb _); [discriminate|].
  simpl. now apply np_interp_clamped.
Qed.
Print Assumptions C68_kernel_coefficient_agrees.

Theorem C68_kernel_constant_agrees : forall y x, dist_call (DConst y) x = Some (k_coefficient (DConst y) x).
Proof. intros. unfold dist_call, k_coefficient, interp_clamped. reflexivity. Qed.
Print Assumptions C68_kernel_constant_agrees.

Theorem C68_kernel_emission_agrees : forall xs ys cdf m nm u w,
  length xs = length ys -> mk_dist xs ys false = MkOk (DTable false xs ys cdf) ->
  0 < u < 1 -> emit_wavelength (DTable false xs ys cdf) m 300 nm u = Some w ->
  k_emit_wavelength xs cdf m nm u = w.
Proof.
  intros xs ys cdf m nm u w Hl H Hu He. destruct (mk_dist_ok _ _ _ Hl H) as (cdf' & E & G).
  inversion E; subst cdf'; clear E.
  pose proof G as (_ & Hlc & H2 & Hx & _ & Hnd & Hhd & Hlast).
  unfold emit_wavelength in He. unfold k_emit_wavelength.
  assert (Hp1 : exists p1, 0 <= p1 <= 1 /\
     match m with KT => dist_lookup (DTable false xs ys cdf) (kT_shift nm 300)
       | Redshift => dist_lookup (DTable false xs ys cdf) nm | Full => Some 0 end = Some p1 /\
     match m with Full => 0 | Redshift => interp_clamped nm xs cdf
       | KT => interp_clamped (1240 / (1240 / nm + 3 / 2 * kB_eV * 300)) xs cdf end = p1).
  { destruct m.
    - destruct (dist_lookup (DTable false xs ys cdf) (kT_shift nm 300)) as [p|] eqn:El; [|discriminate].
      exists p. split; [|split; [reflexivity|]].
      + unfold dist_lookup, allinrange in El.
        destruct (Rltb_spec (kT_shift nm 300) (x_min xs)); [discriminate|].
        destruct (Rltb_spec (x_max xs) (kT_shift nm 300)); [discriminate|].
        destruct (lookup_defined _ _ _ G (kT_shift nm 300)) as (p' & E' & Hr); [lra|].
        unfold dist_lookup, allinrange in E'.
        destruct (Rltb_spec (kT_shift nm 300) (x_min xs)); [discriminate|].
        destruct (Rltb_spec (x_max xs) (kT_shift nm 300)); [discriminate|]. simpl in *.
        rewrite El in E'. inversion E'; subst. exact Hr.
      + unfold dist_lookup in El. destruct (negb _); [discriminate|]. apply np_interp_clamped; auto.
    - destruct (dist_lookup (DTable false xs ys cdf) nm) as [p|] eqn:El; [|discriminate].
      exists p. split; [|split; [reflexivity|]].
      + unfold dist_lookup, allinrange in El.
        destruct (Rltb_spec nm (x_min xs)); [discriminate|].
        destruct (Rltb_spec (x_max xs) nm); [discriminate|].
        destruct (lookup_defined _ _ _ G nm) as (p' & E' & Hr); [lra|].
        unfold dist_lookup, allinrange in E'.
        destruct (Rltb_spec nm (x_min xs)); [discriminate|].
        destruct (Rltb_spec (x_max xs) nm); [discriminate|]. simpl in *.
        rewrite El in E'. inversion E'; subst. exact Hr.
      + unfold dist_lookup in El. destruct (negb _); [discriminate|]. apply np_interp_clamped; auto.
    - exists 0. split; [lra|]. split; reflexivity. }
  destruct Hp1 as (p1 & Hp1 & Ep & Ek). rewrite Ep in He. rewrite Ek.
  set (q := p1 + (1 - p1) * u) in *.
  assert (Hq : 0 < q <= 1) by (unfold q; split; nra).
  destruct (Req_EM_T q 1) as [Hq1|Hne].
  - rewrite Hq1 in *. rewrite interp_clamped_ge; [|lia|rewrite <- last_nth_list, Hlast; lra|].
    2:{ destruct cdf as [|c0 cr]; simpl in *; lra. }
    destruct (good_table_knots _ _ _ G) as (x0 & xr & y0 & yr & c0 & cr & -> & -> & -> & Hl' & Hlc' & Hc0 & Hcl & Hxc & Hyc & Hlt).
    unfold dist_sample in He. destruct (negb _); [discriminate|].
    cbn [combine np_interp] in He. rewrite last_cons_default, (combine_last cr xr) in He by lia.
    destruct (Rltb _ _); [discriminate|]. destruct (Rltb _ _); [discriminate|]. inversion He.
    rewrite Hlc, <- last_nth_list, last_cons_default.
    clear -Hcl Hlc' Hyc Hc0. symmetry.
    (* at p = 1 the scan runs to the last knot *)
    assert (Hgen : forall cr xr c0 x0, length xr = length cr -> chain y_nondec (x0, c0) (combine xr cr) ->
      interp_from (c0, x0) (combine cr xr) (last cr c0) = last xr x0).
    { clear. induction cr as [|c1 cr IH]; intros [|x1 xr] c0 x0 Hl Hc; simpl in Hl; try lia; [reflexivity|].
      rewrite !last_cons_default. cbn [combine interp_from fst]. destruct Hc as [H1 H2].
      pose proof (chain_y_last _ _ H2) as Hle. rewrite combine_last in Hle by lia. simpl in Hle.
      rltb_f (last cr c1) c1. apply IH; auto. }
    specialize (Hgen cr xr c0 x0 Hlc' Hyc). now rewrite Hcl in Hgen.
  - unfold dist_sample in He. destruct (negb _); [discriminate|].
    apply np_interp_clamped_nondec; auto.
    + destruct cdf as [|c0 cr]; simpl in *; lra.
    + lra.
Qed.
Print Assumptions C68_kernel_emission_agrees.

Example C67_example : uniform_spacing 10 ex_xs /\
  exists cdf, mk_dist ex_xs ex_ys false = MkOk (DTable false ex_xs ex_ys cdf).
Proof.
  split; [unfold ex_xs; simpl; repeat split; lra|].
  destruct ex_spectrum_built as (cdf & H & _). now exists cdf.
Qed.
