From Coq Require Import Reals Lra Psatz List Bool Arith Lia.
From Verif Require Import Base Interp DistModel DistSpec.
Import ListNotations.
Open Scope R_scope.

(** ** Generic facts on monotone lists *)
Lemma increasing_nondecreasing l : increasing l -> nondecreasing l.
Proof.
  induction l as [|a [|b r] IH]; simpl; auto. intros [H1 H2]. split; [lra|now apply IH].
Qed.

Lemma ascending_increasing xs : ascending xs = true -> increasing xs.
Proof.
  induction xs as [|a [|b r] IH]; simpl; auto.
  intros H. apply andb_prop in H as [H1 H2]. apply Rltb_true in H1.
  split; [lra|now apply IH].
Qed.

Lemma nondecreasing_last a l : nondecreasing (a :: l) -> a <= last l a.
Proof.
  revert a. induction l as [|b l IH]; intros a H; [simpl; lra|].
  rewrite last_cons_default. destruct H as [H1 H2]. specialize (IH b H2). lra.
Qed.

Lemma nondecreasing_map f l :
  (forall a b, a <= b -> f a <= f b) -> nondecreasing l -> nondecreasing (map f l).
Proof.
  intros Hf. induction l as [|a [|b r] IH]; simpl; auto.
  intros [H1 H2]. split; [now apply Hf|now apply IH].
Qed.

Lemma np_max_ge a l : a <= np_max a l.
Proof.
  unfold np_max. revert a. induction l as [|b l IH]; intros a; simpl; [lra|].
  specialize (IH (Rmax a b)). pose proof (Rmax_l a b). lra.
Qed.

Lemma np_max_nondec a l : nondecreasing (a :: l) -> np_max a l = last l a.
Proof.
  unfold np_max. revert a. induction l as [|b l IH]; intros a H; [reflexivity|].
  rewrite last_cons_default. destruct H as [H1 H2]. cbn [fold_left].
  rewrite Rmax_right by assumption. now apply IH.
Qed.

Lemma cumsum_from_nondec acc l :
  Forall (fun x => 0 <= x) l -> nondecreasing (acc :: cumsum_from acc l).
Proof.
  intros H. revert acc. induction H as [|a r Ha Hr IH]; intros acc; simpl; auto.
  split; [lra|]. apply IH.
Qed.

Lemma cumsum_from_last acc l : last (cumsum_from acc l) acc = acc + rsum l.
Proof.
  revert acc. induction l as [|a r IH]; intros acc; [unfold rsum; simpl; lra|].
  cbn [cumsum_from]. rewrite last_cons_default, IH. unfold rsum; simpl; lra.
Qed.

Lemma midpoints_length ys : length (midpoints ys) = (length ys - 1)%nat.
Proof.
  induction ys as [|a [|b r] IH]; simpl in *; auto. rewrite IH. lia.
Qed.

Lemma midpoints_nonneg ys : Forall (fun y => 0 <= y) ys -> Forall (fun y => 0 <= y) (midpoints ys).
Proof.
  induction ys as [|a [|b r] IH]; simpl; auto. intros H.
  inversion H as [|? ? Ha Hr]; subst. inversion Hr; subst. constructor; [lra|now apply IH].
Qed.

Lemma existsb_neg_nonneg ys :
  existsb (fun y => Rltb y 0) ys = false -> Forall (fun y => 0 <= y) ys.
Proof.
  induction ys as [|a r IH]; simpl; intros H; constructor.
  - apply orb_false_elim in H as [H _]. now apply Rltb_false in H.
  - apply orb_false_elim in H as [_ H]. auto.
Qed.

(** ** What a successfully built Distribution satisfies *)
Lemma div_last_cdf c0 cr :
  nondecreasing (c0 :: cr) -> 0 <= c0 -> last cr c0 <> 0 ->
  proper_cdf (0 :: map (fun v => v / last cr c0) (c0 :: cr)).
Proof.
  intros Hn H0 Hm. pose proof (nondecreasing_last _ _ Hn) as Hle.
  set (m := last cr c0) in *. assert (Hmp : 0 < m) by lra.
  split; [|split].
  - assert (Hmono : nondecreasing (map (fun v => v / m) (c0 :: cr))).
    { apply nondecreasing_map; auto. intros a b Hab. apply Rmult_le_compat_r; auto.
      left. now apply Rinv_0_lt_compat. }
    cbn [map] in *. split; [|exact Hmono].
    apply Rmult_le_pos; [lra|]. left. now apply Rinv_0_lt_compat.
  - reflexivity.
  - rewrite last_cons_default. cbn [map]. rewrite last_cons_default.
    rewrite (last_map (fun v => v / m)). fold m. field. lra.
Qed.

Definition good_table (xs ys cdf : list R) : Prop :=
  length xs = length ys /\ length cdf = length xs /\ (2 <= length xs)%nat /\
  increasing xs /\ Forall (fun y => 0 <= y) ys /\ proper_cdf cdf.

Lemma mk_dist_ok xs ys d :
  length xs = length ys -> mk_dist xs ys false = MkOk d ->
  exists cdf, d = DTable false xs ys cdf /\ good_table xs ys cdf.
Proof.
  intros Hlen H. unfold mk_dist in H.
  destruct (ascending xs) eqn:Ea; simpl in H; [|discriminate].
  destruct ys as [|y0 yr] eqn:Ey; [discriminate|].
  rewrite <- Ey in *.
  destruct (existsb (fun y => Rltb y 0) ys) eqn:Ex; [discriminate|].
  pose proof (existsb_neg_nonneg _ Ex) as Hpos.
  destruct (cumsum (midpoints ys)) as [|c0 cr] eqn:Ec; [discriminate|].
  pose proof (cumsum_from_nondec 0 _ (midpoints_nonneg _ Hpos)) as Hnd.
  unfold cumsum in Ec. rewrite Ec in Hnd.
  assert (Hc0 : 0 <= c0) by (destruct Hnd; assumption).
  assert (Hnd' : nondecreasing (c0 :: cr)) by (destruct Hnd; assumption).
  rewrite (np_max_nondec _ _ Hnd') in H.
  destruct (Reqb_spec (last cr c0) 0) as [|Hm]; [discriminate|].
  inversion H; subst d. eexists; split; [reflexivity|].
  assert (Hcl : length (c0 :: cr) = (length ys - 1)%nat).
  { rewrite <- Ec, cumsum_from_length. apply midpoints_length. }
  assert (Hyl : (1 <= length ys)%nat) by (rewrite Ey; simpl; lia).
  assert (Hyl2 : (2 <= length ys)%nat) by (simpl in Hcl; lia).
  split; [exact Hlen|split; [|split; [lia|split; [now apply ascending_increasing|split; [exact Hpos|]]]]].
  - change (S (length (map (fun v => v / last cr c0) (c0 :: cr))) = length xs).
    rewrite map_length. lia.
  - apply (div_last_cdf c0 cr); auto.
Qed.

Lemma mk_dist_ok_hist xs ys d :
  length xs = length ys -> mk_dist xs ys true = MkOk d ->
  exists cdf, d = DTable true xs ys cdf /\
    length cdf = length xs /\ (2 <= length xs)%nat /\ increasing xs /\
    Forall (fun y => 0 <= y) ys /\ nondecreasing cdf /\ 0 <= hd 0 cdf /\ last cdf 0 = 1.
Proof.
  intros Hlen H. unfold mk_dist in H.
  destruct (ascending xs) eqn:Ea; simpl in H; [|discriminate].
  destruct ys as [|y0 yr] eqn:Ey; [discriminate|]. rewrite <- Ey in *.
  destruct (existsb (fun y => Rltb y 0) ys) eqn:Ex; [discriminate|].
  pose proof (existsb_neg_nonneg _ Ex) as Hpos.
  destruct (Nat.ltb_spec (length xs) 2) as [|Hl2]; [discriminate|].
  destruct (Reqb_spec (last (cumsum ys) 0) 0) as [|Hm]; [discriminate|].
  inversion H; subst d. eexists; split; [reflexivity|].
  pose proof (cumsum_from_nondec 0 _ Hpos) as Hnd. fold (cumsum ys) in Hnd.
  destruct (cumsum ys) as [|c0 cr] eqn:Ec.
  { simpl in Hm. lra. }
  assert (Hc0 : 0 <= c0) by (destruct Hnd; assumption).
  assert (Hnd' : nondecreasing (c0 :: cr)) by (destruct Hnd; assumption).
  rewrite last_cons_default in *.
  pose proof (nondecreasing_last _ _ Hnd') as Hle.
  set (m := last cr c0) in *. assert (Hmp : 0 < m) by lra.
  assert (Hinv : 0 < 1 / m) by (apply Rdiv_lt_0_compat; lra).
  assert (Hmono : nondecreasing (map (fun v => v * (1 / m)) (c0 :: cr))).
  { apply nondecreasing_map; auto. intros a b Hab. apply Rmult_le_compat_r; lra. }
  split; [|split; [exact Hl2|split; [now apply ascending_increasing|split; [exact Hpos|split; [exact Hmono|split]]]]].
  - rewrite map_length, <- Ec. unfold cumsum. rewrite cumsum_from_length. lia.
  - simpl. nra.
  - cbn [map]. rewrite last_cons_default, (last_map (fun v => v * (1 / m))).
    fold m. field. lra.
Qed.

(** ** From columns to knots *)
Lemma combine_chain_x xs ys a b :
  length xs = length ys -> increasing (a :: xs) -> chain x_strict (a, b) (combine xs ys).
Proof.
  revert ys a b. induction xs as [|x xs IH]; intros [|y ys] a b Hl H; simpl in *; auto; try lia.
  destruct H as [H1 H2]. split; [exact H1|]. apply IH; auto.
Qed.
Lemma combine_chain_y xs ys a b :
  length xs = length ys -> nondecreasing (b :: ys) -> chain y_nondec (a, b) (combine xs ys).
Proof.
  revert ys a b. induction xs as [|x xs IH]; intros [|y ys] a b Hl H; simpl in *; auto; try lia.
  destruct H as [H1 H2]. split; [exact H1|]. apply IH; auto.
Qed.
Lemma combine_chain_ys xs ys a b :
  length xs = length ys -> increasing (b :: ys) -> chain y_strict (a, b) (combine xs ys).
Proof.
  revert ys a b. induction xs as [|x xs IH]; intros [|y ys] a b Hl H; simpl in *; auto; try lia.
  destruct H as [H1 H2]. split; [exact H1|]. apply IH; auto.
Qed.
Lemma combine_last (xs ys : list R) a b :
  length xs = length ys -> last (combine xs ys) (a, b) = (last xs a, last ys b).
Proof.
  revert ys a b. induction xs as [|x xs IH]; intros [|y ys] a b Hl; simpl in Hl; try lia; [reflexivity|].
  cbn [combine]. rewrite !last_cons_default. apply IH. lia.
Qed.
Lemma combine_swap (xs ys : list R) : combine ys xs = map swap (combine xs ys).
Proof.
  revert ys. induction xs as [|x xs IH]; intros [|y ys]; simpl; auto. f_equal. auto.
Qed.
Lemma combine_fst (xs ys : list R) : length xs = length ys -> map fst (combine xs ys) = xs.
Proof. revert ys. induction xs as [|x xs IH]; intros [|y ys] H; simpl in *; auto; try lia. f_equal; auto. Qed.
Lemma combine_snd (xs ys : list R) : length xs = length ys -> map snd (combine xs ys) = ys.
Proof. revert ys. induction xs as [|x xs IH]; intros [|y ys] H; simpl in *; auto; try lia. f_equal; auto. Qed.

(** A good table seen as knots. *)
Lemma good_table_knots xs ys cdf :
  good_table xs ys cdf ->
  exists x0 xr y0 yr c0 cr,
    xs = x0 :: xr /\ ys = y0 :: yr /\ cdf = c0 :: cr /\
    length xr = length yr /\ length xr = length cr /\
    c0 = 0 /\ last cr c0 = 1 /\
    chain x_strict (x0, c0) (combine xr cr) /\
    chain y_nondec (x0, c0) (combine xr cr) /\
    x0 < last xr x0.
Proof.
  intros (Hl & Hlc & H2 & Hx & Hy & Hc).
  destruct xs as [|x0 xr], ys as [|y0 yr], cdf as [|c0 cr]; simpl in *; try lia.
  exists x0, xr, y0, yr, c0, cr. destruct Hc as (Hnd & Hhd & Hlast).
  rewrite last_cons_default in Hlast. simpl in Hhd.
  repeat split; auto; try lia; try (now apply combine_chain_x; try lia);
    try (now apply combine_chain_y; try lia).
  destruct xr as [|x1 xr]; simpl in H2; [lia|]. rewrite last_cons_default.
  destruct Hx as [Hx1 Hx2]. apply increasing_nondecreasing in Hx2.
  pose proof (nondecreasing_last _ _ Hx2). lra.
Qed.

Section Table.
  Variables (xs ys cdf : list R).
  Hypothesis HG : good_table xs ys cdf.
  Let d := DTable false xs ys cdf.

  Lemma lookup_defined x :
    x_min xs <= x <= x_max xs ->
    exists p, dist_lookup d x = Some p /\ 0 <= p <= 1.
  Proof.
    destruct (good_table_knots _ _ _ HG) as (x0 & xr & y0 & yr & c0 & cr & -> & -> & -> & Hl & Hlc & Hc0 & Hcl & Hx & Hy & Hlt).
    unfold x_min, x_max. cbn [hd]. rewrite last_cons_default. intros Hr.
    unfold d, dist_lookup, allinrange, x_min, x_max. cbn [hd]. rewrite last_cons_default.
    rltb_f x x0. rltb_f (last xr x0) x. cbn [orb negb combine np_interp].
    rewrite last_cons_default, (combine_last _ _ _ _ Hlc). cbn [fst].
    rltb_f x x0. rltb_f (last xr x0) x.
    eexists; split; [reflexivity|].
    pose proof (interp_from_bounds _ _ x Hy) as Hb. rewrite (combine_last _ _ _ _ Hlc) in Hb.
    simpl in Hb. lra.
  Qed.

  Lemma lookup_outside x :
    x < x_min xs \/ x_max xs < x -> dist_lookup d x = None.
  Proof.
    intros H. unfold d, dist_lookup, allinrange. destruct H.
    - rltb_t x (x_min xs). reflexivity.
    - rltb_t (x_max xs) x. now rewrite orb_true_r.
  Qed.

  Lemma lookup_mono x x' p p' :
    x <= x' -> dist_lookup d x = Some p -> dist_lookup d x' = Some p' -> p <= p'.
  Proof.
    destruct (good_table_knots _ _ _ HG) as (x0 & xr & y0 & yr & c0 & cr & -> & -> & -> & Hl & Hlc & Hc0 & Hcl & Hx & Hy & Hlt).
    intros Hxx' H1 H2. unfold d, dist_lookup in *. cbn [combine np_interp] in *.
    destruct (negb (allinrange x _ _)); [discriminate|].
    destruct (negb (allinrange x' _ _)); [discriminate|].
    destruct (Rltb_spec x (fst (x0, c0))); [discriminate|].
    destruct (Rltb_spec x' (fst (x0, c0))); [discriminate|].
    destruct (Rltb _ x); [discriminate|]. destruct (Rltb _ x'); [discriminate|].
    inversion H1; inversion H2; subst. apply interp_from_mono; auto. simpl in *; lra.
  Qed.

  Lemma sample_defined p :
    0 <= p <= 1 -> exists w, dist_sample d p = Some w /\ x_min xs <= w <= x_max xs.
  Proof.
    destruct (good_table_knots _ _ _ HG) as (x0 & xr & y0 & yr & c0 & cr & -> & -> & -> & Hl & Hlc & Hc0 & Hcl & Hx & Hy & Hlt).
    intros Hp. unfold d, dist_sample, allinrange, x_min, x_max. cbn [hd]. rewrite last_cons_default.
    rltb_f p 0. rltb_f 1 p. cbn [orb negb combine np_interp].
    rewrite last_cons_default, combine_last by lia. cbn [fst].
    rewrite Hcl, Hc0. rltb_f p 0. rltb_f 1 p.
    eexists; split; [reflexivity|].
    rewrite combine_swap.
    change (0, x0) with (swap (x0, 0)).
    assert (Hn : chain y_nondec (swap (x0, 0)) (map swap (combine xr cr))).
    { apply chain_swap_y. subst c0. eapply chain_impl; [|exact Hx]. unfold x_strict, x_nondec; intros; lra. }
    pose proof (interp_from_bounds _ _ p Hn) as Hb.
    rewrite (last_map swap), (combine_last _ _ _ _ Hlc) in Hb. simpl in Hb. simpl. lra.
  Qed.

  Lemma sample_mono p p' w w' :
    p <= p' -> dist_sample d p = Some w -> dist_sample d p' = Some w' -> w <= w'.
  Proof.
    destruct (good_table_knots _ _ _ HG) as (x0 & xr & y0 & yr & c0 & cr & -> & -> & -> & Hl & Hlc & Hc0 & Hcl & Hx & Hy & Hlt).
    intros Hpp' H1 H2. unfold d, dist_sample in *. cbn [combine np_interp] in *.
    destruct (negb (allinrange p _ _)); [discriminate|].
    destruct (negb (allinrange p' _ _)); [discriminate|].
    destruct (Rltb_spec p (fst (c0, x0))); [discriminate|].
    destruct (Rltb_spec p' (fst (c0, x0))); [discriminate|].
    destruct (Rltb _ p); [discriminate|]. destruct (Rltb _ p'); [discriminate|].
    inversion H1; inversion H2; subst. rewrite combine_swap.
    apply interp_from_mono; try (simpl in *; lra).
    change (0, x0) with (swap (x0, 0)). apply chain_swap_y.
    eapply chain_impl; [|exact Hx]. unfold x_strict, x_nondec; intros; lra.
  Qed.

  (** Anything sampled from the part of the CDF at or above lookup(x) is >= x. *)
  Lemma sample_above x p q w :
    dist_lookup d x = Some p -> p <= q -> dist_sample d q = Some w -> x <= w.
  Proof.
    destruct (good_table_knots _ _ _ HG) as (x0 & xr & y0 & yr & c0 & cr & -> & -> & -> & Hl & Hlc & Hc0 & Hcl & Hx & Hy & Hlt).
    intros H1 Hpq H2. unfold d, dist_lookup, dist_sample in *. cbn [combine np_interp] in *.
    destruct (negb (allinrange x _ _)); [discriminate|].
    destruct (negb (allinrange q _ _)); [discriminate|].
    rewrite last_cons_default, (combine_last xr cr) in H1 by lia.
    destruct (Rltb_spec x (fst (x0, c0))); [discriminate|].
    destruct (Rltb_spec (fst (last xr x0, last cr c0)) x); [discriminate|].
    destruct (Rltb_spec q (fst (c0, x0))); [discriminate|].
    destruct (Rltb _ q); [discriminate|].
    inversion H1; inversion H2; subst p w. rewrite combine_swap.
    change (c0, x0) with (swap (x0, c0)).
    simpl in *.
    apply (interp_from_galois (x0, c0) (combine xr cr)); auto; simpl; try lra.
    rewrite combine_last by lia. simpl. lra.
  Qed.

  Lemma sample_lookup_roundtrip x p :
    increasing cdf -> dist_lookup d x = Some p -> dist_sample d p = Some x.
  Proof.
    intros Hinc H.
    assert (Hp : 0 <= p <= 1).
    { destruct (Rlt_dec x (x_min xs)); [rewrite lookup_outside in H; [discriminate|auto]|].
      destruct (Rlt_dec (x_max xs) x); [rewrite lookup_outside in H; [discriminate|auto]|].
      destruct (lookup_defined x) as (p' & E & ?); [lra|]. rewrite H in E. now inversion E; subst. }
    destruct (sample_defined p Hp) as (w & Hw & _). rewrite Hw. f_equal.
    destruct (good_table_knots _ _ _ HG) as (x0 & xr & y0 & yr & c0 & cr & -> & -> & -> & Hl & Hlc & Hc0 & Hcl & Hx & Hy & Hlt).
    unfold d, dist_lookup, dist_sample in *. cbn [combine np_interp] in *.
    destruct (negb (allinrange x _ _)); [discriminate|].
    destruct (negb (allinrange p _ _)); [discriminate|].
    rewrite last_cons_default, (combine_last xr cr) in H by lia.
    destruct (Rltb_spec x (fst (x0, c0))); [discriminate|].
    destruct (Rltb_spec (fst (last xr x0, last cr c0)) x); [discriminate|].
    destruct (Rltb_spec p (fst (c0, x0))); [discriminate|].
    destruct (Rltb _ p); [discriminate|].
    inversion H; inversion Hw; subst p w. rewrite combine_swap.
    change (c0, x0) with (swap (x0, c0)).
    apply interp_from_inverse; auto.
    - apply combine_chain_ys; auto.
    - simpl in *; lra.
    - rewrite combine_last by lia. simpl in *; lra.
  Qed.

  Lemma lookup_sample_roundtrip p w :
    increasing cdf -> dist_sample d p = Some w -> dist_lookup d w = Some p.
  Proof.
    intros Hinc H.
    assert (Hp : 0 <= p <= 1).
    { unfold d, dist_sample, allinrange in H.
      destruct (Rltb_spec p 0); [discriminate|]. destruct (Rltb_spec 1 p); [discriminate|]. lra. }
    destruct (sample_defined p Hp) as (w' & Hw' & Hwr). rewrite H in Hw'. inversion Hw'; subst w'. clear Hw'.
    destruct (lookup_defined w Hwr) as (q & Hq & _). rewrite Hq. f_equal.
    destruct (good_table_knots _ _ _ HG) as (x0 & xr & y0 & yr & c0 & cr & -> & -> & -> & Hl & Hlc & Hc0 & Hcl & Hx & Hy & Hlt).
    unfold d, dist_lookup, dist_sample in *. cbn [combine np_interp] in *.
    destruct (negb (allinrange w _ _)); [discriminate|].
    destruct (negb (allinrange p _ _)); [discriminate|].
    rewrite last_cons_default, (combine_last cr xr) in H by lia.
    destruct (Rltb_spec w (fst (x0, c0))); [discriminate|].
    destruct (Rltb _ w); [discriminate|].
    destruct (Rltb_spec p (fst (c0, x0))); [discriminate|].
    destruct (Rltb_spec (fst (last cr c0, last xr x0)) p); [discriminate|].
    inversion H; inversion Hq; subst q w.
    replace (combine xr cr) with (map swap (combine cr xr)) by (symmetry; apply combine_swap).
    change (x0, c0) with (swap (c0, x0)).
    apply interp_from_inverse; auto.
    - apply combine_chain_x; auto.
    - change (c0, x0) with (swap (x0, c0)). rewrite combine_swap. apply chain_swap_ys. exact Hx.
    - simpl in *; lra.
    - rewrite combine_last by lia. simpl in *; lra.
  Qed.
End Table.

(** ** Emission *)
Lemma kB_pos : 0 < kB_eV.
Proof. unfold kB_eV. lra. Qed.

Lemma kT_shift_energy nm T : 0 < nm -> 0 <= T ->
  0 < kT_shift nm T /\ 1240 / kT_shift nm T = 1240 / nm + 3 / 2 * kB_eV * T.
Proof.
  intros Hn HT. unfold kT_shift. pose proof kB_pos.
  assert (0 < 1240 / nm) by (apply Rdiv_lt_0_compat; lra).
  assert (0 <= kB_eV * T) by nra.
  set (E := 1240 / nm + 3 / 2 * kB_eV * T). assert (0 < E) by (unfold E; lra).
  split; [apply Rdiv_lt_0_compat; lra|]. field. lra.
Qed.

Lemma gamma_range p u : 0 <= p <= 1 -> 0 <= u < 1 -> p <= p + (1 - p) * u <= 1.
Proof. intros. split; nra. Qed.

Lemma emit_redshift xs ys cdf T nm u w :
  good_table xs ys cdf -> 0 <= u < 1 ->
  emit_wavelength (DTable false xs ys cdf) Redshift T nm u = Some w -> nm <= w.
Proof.
  intros HG Hu H. unfold emit_wavelength in H.
  destruct (dist_lookup (DTable false xs ys cdf) nm) as [p1|] eqn:El; [|discriminate].
  assert (Hp : 0 <= p1 <= 1).
  { destruct (Rlt_dec nm (x_min xs)); [rewrite lookup_outside in El; [discriminate|auto]|].
    destruct (Rlt_dec (x_max xs) nm); [rewrite lookup_outside in El; [discriminate|auto]|].
    destruct (lookup_defined _ _ _ HG nm) as (p' & E & ?); [lra|]. rewrite El in E. now inversion E; subst. }
  eapply sample_above; eauto. apply gamma_range; auto.
Qed.

Lemma emit_kT xs ys cdf T nm u w :
  good_table xs ys cdf -> 0 <= u < 1 -> 0 < nm -> 0 <= T ->
  emit_wavelength (DTable false xs ys cdf) KT T nm u = Some w ->
  1240 / w <= 1240 / nm + 3 / 2 * kB_eV * T.
Proof.
  intros HG Hu Hnm HT H. unfold emit_wavelength in H.
  destruct (dist_lookup (DTable false xs ys cdf) (kT_shift nm T)) as [p1|] eqn:El; [|discriminate].
  assert (Hp : 0 <= p1 <= 1).
  { destruct (Rlt_dec (kT_shift nm T) (x_min xs)); [rewrite lookup_outside in El; [discriminate|auto]|].
    destruct (Rlt_dec (x_max xs) (kT_shift nm T)); [rewrite lookup_outside in El; [discriminate|auto]|].
    destruct (lookup_defined _ _ _ HG (kT_shift nm T)) as (p' & E & ?); [lra|]. rewrite El in E. now inversion E; subst. }
  assert (Hw : kT_shift nm T <= w).
  { eapply sample_above; eauto. apply gamma_range; auto. }
  destruct (kT_shift_energy nm T Hnm HT) as [Hpos He]. rewrite <- He.
  apply Rmult_le_compat_l; [lra|]. apply Rinv_le_contravar; lra.
Qed.

Lemma emit_in_spectrum xs ys cdf m T nm u w :
  good_table xs ys cdf -> 0 <= u < 1 ->
  emit_wavelength (DTable false xs ys cdf) m T nm u = Some w -> x_min xs <= w <= x_max xs.
Proof.
  intros HG Hu H. unfold emit_wavelength in H.
  destruct (match m with KT => _ | Redshift => _ | Full => _ end) as [p1|]; [|discriminate].
  set (q := p1 + (1 - p1) * u) in *.
  assert (Hq : 0 <= q <= 1).
  { unfold dist_sample, allinrange in H.
    destruct (Rltb_spec q 0); [discriminate|]. destruct (Rltb_spec 1 q); [discriminate|]. lra. }
  destruct (sample_defined _ _ _ HG q Hq) as (w' & E & Hr). rewrite H in E. now inversion E; subst.
Qed.

(** ** Kernel emission against Python emission *)
Lemma interp_clamped_ge x xs ys :
  (2 <= length xs)%nat -> nth (length xs - 1) xs 0 <= x -> nth 0 xs 0 < x ->
  interp_clamped x xs ys = nth (length xs - 1) ys 0.
Proof.
  intros Hl Hx H0. unfold interp_clamped.
  destruct (Nat.eqb_spec (length xs) 1); [lia|].
  rleb_f x (nth 0 xs 0). rleb_t (nth (length xs - 1) xs 0) x. reflexivity.
Qed.

Lemma np_interp_clamped (xs ys : list R) x v :
  length xs = length ys -> (2 <= length xs)%nat -> increasing xs ->
  np_interp (combine xs ys) x = Some v -> interp_clamped x xs ys = v.
Proof.
  intros Hl H2 Hinc H.
  destruct xs as [|x0 xr], ys as [|y0 yr]; simpl in Hl, H2; try lia.
  cbn [combine np_interp] in H. rewrite last_cons_default, combine_last in H by lia.
  destruct (Rltb_spec x (fst (x0, y0))) as [|Hx0]; [discriminate|].
  destruct (Rltb_spec (fst (last xr x0, last yr y0)) x) as [|Hxl]; [discriminate|].
  inversion H; subst v; clear H. cbn [fst] in *.
  assert (Hlast : x0 < last xr x0).
  { destruct xr as [|x1 xr]; simpl in H2; [lia|]. rewrite last_cons_default.
    destruct Hinc as [Hx1 Hx2]. apply increasing_nondecreasing in Hx2.
    pose proof (nondecreasing_last _ _ Hx2). lra. }
  assert (Hchain : chain x_strict (x0, y0) (combine xr yr)) by (apply combine_chain_x; auto).
  assert (Hchain' : chain x_nondec (x0, y0) (combine xr yr)).
  { eapply chain_impl; [|exact Hchain]. unfold x_strict, x_nondec; intros; lra. }
  assert (Hcl : last (combine xr yr) (x0, y0) = (last xr x0, last yr y0)) by (apply combine_last; lia).
  destruct (Req_EM_T x x0) as [->|Hne0].
  - unfold interp_clamped. destruct (Nat.eqb_spec (length (x0 :: xr)) 1); [simpl in *; lia|].
    change (nth 0 (x0 :: xr) 0) with x0. rleb_t x0 x0. simpl nth.
    destruct xr as [|x1 xr], yr as [|y1 yr]; simpl in *; try lia.
    destruct Hinc as [Hx1 _]. rltb_t x0 x1. field. lra.
  - destruct (Req_EM_T x (last xr x0)) as [->|Hnel].
    + assert (Hi : interp_from (x0, y0) (combine xr yr) (last xr x0) = last yr y0).
      { clear -Hchain Hl. assert (Hl' : length xr = length yr) by lia. clear Hl.
        revert yr x0 y0 Hl' Hchain. induction xr as [|x1 xr IH]; intros [|y1 yr] x0 y0 Hl Hc; simpl in Hl; try lia; [reflexivity|].
        rewrite !last_cons_default. cbn [combine interp_from fst]. destruct Hc as [H1 H2].
        assert (Hn : chain x_nondec (x1, y1) (combine xr yr)).
        { eapply chain_impl; [|exact H2]. unfold x_strict, x_nondec; intros; lra. }
        apply chain_x_last in Hn. rewrite combine_last in Hn by lia. cbn [fst] in Hn.
        rltb_f (last xr x1) x1. apply IH; auto. }
      rewrite Hi.
      assert (Hlx : nth (length (x0 :: xr) - 1) (x0 :: xr) 0 = last xr x0).
      { pose proof (last_nth_knots (x0, y0) (combine xr yr)) as E. rewrite Hcl in E.
        assert (length (combine xr yr) = length xr) by (rewrite combine_length; lia).
        assert (E1 : last xr x0 = fst (nth (length (combine xr yr)) ((x0, y0) :: combine xr yr) (0, 0))) by now rewrite <- E.
        rewrite E1, <- nth_map_fst. change ((x0, y0) :: combine xr yr) with (combine (x0 :: xr) (y0 :: yr)).
        rewrite combine_fst by (simpl; lia). simpl length. f_equal. lia. }
      assert (Hly : nth (length (x0 :: xr) - 1) (y0 :: yr) 0 = last yr y0).
      { pose proof (last_nth_knots (x0, y0) (combine xr yr)) as E. rewrite Hcl in E.
        assert (length (combine xr yr) = length xr) by (rewrite combine_length; lia).
        assert (E1 : last yr y0 = snd (nth (length (combine xr yr)) ((x0, y0) :: combine xr yr) (0, 0))) by now rewrite <- E.
        rewrite E1, <- nth_map_snd. change ((x0, y0) :: combine xr yr) with (combine (x0 :: xr) (y0 :: yr)).
        rewrite combine_snd by (simpl; lia). simpl length. f_equal. lia. }
      rewrite interp_clamped_ge; [exact Hly|simpl length; lia|rewrite Hlx; lra|change (x0 < last xr x0); lra].
    + pose proof (interp_clamped_inside (x0, y0) (combine xr yr) x Hchain') as Hin.
      rewrite Hcl in Hin. cbn [fst] in Hin. specialize (Hin ltac:(lra) ltac:(lra)).
      change ((x0, y0) :: combine xr yr) with (combine (x0 :: xr) (y0 :: yr)) in Hin.
      rewrite combine_fst, combine_snd in Hin by (simpl; lia). exact Hin.
Qed.

(** Same statement for a table whose abscissae only are non-decreasing (a CDF
    with flat parts), away from the two ends. *)
Lemma np_interp_clamped_nondec (xs ys : list R) x v :
  length xs = length ys -> nondecreasing xs -> hd 0 xs < x -> x < last xs 0 ->
  np_interp (combine xs ys) x = Some v -> interp_clamped x xs ys = v.
Proof.
  intros Hl Hnd H0 H1 H.
  destruct xs as [|x0 xr], ys as [|y0 yr]; simpl in Hl; try lia; [simpl in *; lra|].
  rewrite last_cons_default in H1. cbn [hd] in H0.
  cbn [combine np_interp] in H. rewrite last_cons_default, combine_last in H by lia. cbn [fst] in H.
  destruct (Rltb_spec x x0); [lra|]. destruct (Rltb_spec (last xr x0) x); [lra|].
  inversion H; subst v.
  assert (Hchain : chain x_nondec (x0, y0) (combine xr yr)).
  { clear -Hnd Hl. assert (Hl' : length xr = length yr) by lia. clear Hl.
    revert yr x0 y0 Hl' Hnd. induction xr as [|x1 xr IH]; intros [|y1 yr] x0 y0 Hl Hn; simpl in *; auto; try lia.
    destruct Hn as [A B]. split; [exact A|]. apply IH; auto. }
  pose proof (interp_clamped_inside (x0, y0) (combine xr yr) x Hchain) as Hin.
  rewrite combine_last in Hin by lia. cbn [fst] in Hin. specialize (Hin H0 H1).
  change ((x0, y0) :: combine xr yr) with (combine (x0 :: xr) (y0 :: yr)) in Hin.
  rewrite combine_fst, combine_snd in Hin by (simpl; lia). exact Hin.
Qed.
