(** Properties C33-C36: volume absorption and component choice. *)
From Coq Require Import Reals Lra Psatz ZArith List Bool Arith Lia Permutation.
From Verif Require Import Base Vec Interp DistModel DistSpec DistProofs DistProps MaterialModel MaterialSpec MaterialProofs.
Import ListNotations.
Open Scope R_scope.

(** ** C33 Component choice *)
Theorem C33_component_choice_interval : forall coefs u i,
  Forall (fun c => 0 <= c) coefs -> 0 < rsum coefs -> 0 <= u < 1 ->
  (select_component coefs u = Some i <->
   (i < length coefs)%nat /\ psum coefs i / rsum coefs <= u < psum coefs (S i) / rsum coefs).
Proof. intros coefs u i Hp Ht [H0 H1]. now apply select_iff. Qed.
Print Assumptions C33_component_choice_interval.

(** The interval has length alpha_i / sum(alpha). *)
Theorem C33_interval_length : forall coefs i,
  0 < rsum coefs -> (i < length coefs)%nat ->
  psum coefs (S i) / rsum coefs - psum coefs i / rsum coefs = nth i coefs 0 / rsum coefs.
Proof. intros coefs i Ht Hi. rewrite psum_S by assumption. field. lra. Qed.
Print Assumptions C33_interval_length.

Theorem C33_component_exists_and_attenuates : forall coefs u,
  Forall (fun c => 0 <= c) coefs -> 0 < rsum coefs -> 0 <= u < 1 ->
  exists i, select_component coefs u = Some i /\ (i < length coefs)%nat /\ 0 < nth i coefs 0.
Proof.
  intros coefs u Hp Ht [H0 H1]. destruct (segment_exists coefs Ht u H0 H1) as (i & Hi & Hlo & Hhi).
  exists i. split; [now apply select_segment|]. split; [exact Hi|].
  pose proof (C33_interval_length coefs i Ht Hi) as Hlen.
  assert (0 < nth i coefs 0 / rsum coefs) by lra.
  apply (Rmult_lt_compat_r (rsum coefs)) in H; auto.
  unfold Rdiv in H. rewrite Rmult_assoc, Rinv_l in H by lra. lra.
Qed.
Print Assumptions C33_component_exists_and_attenuates.

Theorem C33_negative_coefficient_rejected : forall coefs u,
  Exists (fun c => c < 0) coefs -> select_component coefs u = None.
Proof.
  intros coefs u H. unfold select_component.
  replace (existsb (fun c => Rltb c 0) coefs) with true; [reflexivity|].
  symmetry. apply existsb_exists. apply Exists_exists in H as (c & Hc & Hneg).
  exists c. split; [exact Hc|]. now apply Rltb_true.
Qed.
Print Assumptions C33_negative_coefficient_rejected.

(** The kernel can pick a component that does not attenuate (draw exactly 0). *)
Theorem C33_kernel_choice_refuted : exists coefs u,
  Forall (fun c => 0 <= c) coefs /\ 0 < rsum coefs /\ 0 <= u < 1 /\
  nth (k_select coefs u) coefs 0 = 0.
Proof.
  exists [0; 1], 0. split; [repeat constructor; lra|]. split; [unfold rsum; simpl; lra|].
  split; [lra|]. unfold k_select, k_select_from, rsum; simpl.
  rleb_t (0 * (0 + (1 + 0))) (0 + 0). reflexivity.
Qed.
Print Assumptions C33_kernel_choice_refuted.

(** For every non-zero draw the kernel's choice is proportional too. *)
Theorem C33_kernel_choice_partial : forall coefs u i,
  Forall (fun c => 0 <= c) coefs -> 0 < rsum coefs -> 0 < u < 1 ->
  (k_select coefs u = i <->
   (i < length coefs)%nat /\ psum coefs i / rsum coefs < u <= psum coefs (S i) / rsum coefs).
Proof.
  intros coefs u i Hp Ht Hu.
  assert (Hk := k_select_spec coefs u Hp Ht Hu). cbv zeta in Hk. destruct Hk as (Hl & Hlo & Hhi).
  assert (Hdiv : forall a, a < u * rsum coefs <-> a / rsum coefs < u).
  { intros a. split; intros H.
    - apply (Rmult_lt_reg_r (rsum coefs)); auto. unfold Rdiv. rewrite Rmult_assoc, Rinv_l by lra. lra.
    - apply (Rmult_lt_compat_r (rsum coefs)) in H; auto. unfold Rdiv in H. rewrite Rmult_assoc, Rinv_l in H by lra. lra. }
  assert (Hdiv2 : forall a, u * rsum coefs <= a <-> u <= a / rsum coefs).
  { intros a. specialize (Hdiv a). split; intros H; apply Rnot_lt_le; intros Hc; apply Hdiv in Hc; lra. }
  split.
  - intros <-. split; [exact Hl|]. split; [now apply Hdiv|now apply Hdiv2].
  - intros (Hi & H1 & H2). apply Hdiv in H1. apply Hdiv2 in H2.
    destruct (Nat.lt_trichotomy (k_select coefs u) i) as [Hc|[Hc|Hc]]; auto; exfalso.
    + pose proof (psum_mono coefs Hp (S (k_select coefs u)) i ltac:(lia)). lra.
    + pose proof (psum_mono coefs Hp (S i) (k_select coefs u) ltac:(lia)). lra.
Qed.
Print Assumptions C33_kernel_choice_partial.

(** Both engines choose the same component unless the draw hits a boundary. *)
Theorem C33_engines_choose_alike : forall coefs u,
  Forall (fun c => 0 <= c) coefs -> 0 < rsum coefs -> 0 < u < 1 ->
  (forall i, (i <= length coefs)%nat -> u * rsum coefs <> psum coefs i) ->
  select_component coefs u = Some (k_select coefs u).
Proof.
  intros coefs u Hp Ht Hu Hg.
  assert (Hk := proj1 (C33_kernel_choice_partial coefs u _ Hp Ht Hu) eq_refl).
  destruct Hk as (Hl & Hlo & Hhi). apply C33_component_choice_interval; auto; [lra|].
  split; [exact Hl|]. split; [lra|]. destruct Hhi as [Hhi|Hhi]; auto. exfalso.
  apply (Hg (S (k_select coefs u)) ltac:(lia)). rewrite Hhi at 1. field. lra.
Qed.
Print Assumptions C33_engines_choose_alike.

Example C33_example : select_component [0; 1; 0; 3] (1/2) = Some 3%nat /\ select_component [0; 1; 0; 3] 0 = Some 1%nat.
Proof.
  split; apply C33_component_choice_interval; try (repeat constructor; lra);
    try (unfold rsum; simpl; lra); try lra; unfold psum, rsum; simpl; repeat split; try lia; lra.
Qed.

(** ** C34 Beer-Lambert *)
(** Below the isclose tolerance (1e-8 per cm) light is never absorbed. *)
Theorem C34_beer_lambert_refuted : exists alpha u D,
  0 < alpha /\ 0 <= u < 1 /\ u < absorbed_fraction alpha D /\
  depth_ltb (penetration_depth alpha u) D = false /\ depth_ltb (k_depth alpha u) D = false.
Proof.
  exists alpha_tol, (1/2), (10 ^ 8).
  assert (0 < alpha_tol) by (unfold alpha_tol; apply Rinv_0_lt_compat; lra).
  split; [assumption|]. split; [lra|]. split.
  - unfold absorbed_fraction, alpha_tol.
    replace (- / 10 ^ 8 * 10 ^ 8) with (-1) by (field; lra).
    assert (exp (-1) < / 2); [|lra].
    replace (-1) with (- (1)) by lra. rewrite exp_Ropp. apply Rinv_lt_contravar; [|pose proof (exp_ineq1 1 ltac:(lra)); lra].
    pose proof (exp_pos 1). lra.
  - unfold penetration_depth, isclose_zero, k_depth.
    rewrite Rabs_pos_eq by lra. rleb_t alpha_tol alpha_tol. rltb_f alpha_tol alpha_tol. auto.
Qed.
Print Assumptions C34_beer_lambert_refuted.

Theorem C34_beer_lambert_partial : forall alpha u D,
  alpha_tol < alpha -> 0 <= u < 1 ->
  (depth_ltb (penetration_depth alpha u) D = true <-> u < absorbed_fraction alpha D) /\
  exists d, penetration_depth alpha u = Fin d /\ 0 <= d /\
    forall D', D' <= d <-> absorbed_fraction alpha D' <= u.
Proof.
  intros alpha u D Ha Hu.
  assert (Hpos : 0 < alpha_tol) by (unfold alpha_tol; apply Rinv_0_lt_compat; lra).
  unfold penetration_depth, isclose_zero. rewrite Rabs_pos_eq by lra. rleb_f alpha alpha_tol.
  split.
  - simpl. rewrite Rltb_true. unfold absorbed_fraction. apply depth_lt; lra.
  - exists (- ln (1 - u) / alpha). split; [reflexivity|]. split; [apply depth_nonneg; lra|].
    intros D'. pose proof (depth_lt alpha u D' ltac:(lra) Hu) as [H1 H2]. unfold absorbed_fraction.
    split; intros H; apply Rnot_lt_le; intros Hc; [apply H2 in Hc|apply H1 in Hc]; lra.
Qed.
Print Assumptions C34_beer_lambert_partial.

(** No attenuation, no absorption; and the kernel uses the same depth. *)
Theorem C34_no_attenuation_no_absorption : forall u D, depth_ltb (penetration_depth 0 u) D = false.
Proof.
  intros. unfold penetration_depth, isclose_zero. rewrite Rabs_R0.
  assert (Hpos : 0 < alpha_tol) by (unfold alpha_tol; apply Rinv_0_lt_compat; lra).
  rleb_t 0 alpha_tol. reflexivity.
Qed.
Print Assumptions C34_no_attenuation_no_absorption.
Theorem C34_kernel_depth_agrees : forall alpha u, 0 <= alpha -> k_depth alpha u = penetration_depth alpha u.
Proof.
  intros alpha u H. unfold k_depth, penetration_depth, isclose_zero. rewrite Rabs_pos_eq by lra.
  destruct (Rltb_spec alpha_tol alpha); destruct (Rleb_spec alpha alpha_tol); auto; lra.
Qed.
Print Assumptions C34_kernel_depth_agrees.

(** Larger draws are absorbed deeper, and stronger attenuation is shallower. *)
Theorem C34_depth_monotone : forall a b u v da db,
  0 <= u -> u <= v -> v < 1 -> alpha_tol < a -> a <= b ->
  penetration_depth b u = Fin da -> penetration_depth a v = Fin db -> da <= db.
Proof.
  intros a b u v da db H0 Huv H1 Ha Hab Hda Hdb.
  assert (Hpos : 0 < alpha_tol) by (unfold alpha_tol; apply Rinv_0_lt_compat; lra).
  unfold penetration_depth, isclose_zero in *.
  rewrite Rabs_pos_eq in Hda, Hdb by lra.
  destruct (Rleb_spec b alpha_tol); [lra|]. destruct (Rleb_spec a alpha_tol); [lra|].
  inversion Hda; inversion Hdb; subst.
  pose proof (depth_nonneg 1 u ltac:(lra) ltac:(lra)) as Hn. unfold Rdiv in Hn. rewrite Rinv_1 in Hn.
  assert (ln (1 - v) <= ln (1 - u)).
  { destruct Huv as [Huv|<-]; [|lra]. left. apply ln_increasing; lra. }
  unfold Rdiv. apply Rmult_le_compat; try lra.
  - left; apply Rinv_0_lt_compat; lra.
  - apply Rinv_le_contravar; lra.
Qed.
Print Assumptions C34_depth_monotone.

Example C34_example : alpha_tol < 1 /\ 0 <= 1/2 < 1 /\ 1/2 < absorbed_fraction 1 1.
Proof.
  split; [unfold alpha_tol; rewrite <- Rinv_1; apply Rinv_lt_contravar; lra|]. split; [lra|].
  unfold absorbed_fraction. replace (- (1) * 1) with (- (1)) by lra. rewrite exp_Ropp.
  assert (/ exp 1 < / 2); [|lra]. apply Rinv_lt_contravar; pose proof (exp_ineq1 1 ltac:(lra)); lra.
Qed.

(** ** C35 Attenuation is additive *)
Theorem C35_attenuation_order_independent : forall cs cs' nm,
  Permutation cs cs' -> total_attenuation cs nm = total_attenuation cs' nm.
Proof.
  intros cs cs' nm H. unfold total_attenuation.
  induction H; simpl; auto.
  - destruct (dist_call (c_dist x) nm); auto.
    destruct (coefficients l nm), (coefficients l' nm); auto; try discriminate.
    inversion IHPermutation. unfold rsum in *; simpl. now rewrite H1.
  - destruct (dist_call (c_dist y) nm), (dist_call (c_dist x) nm); auto;
      destruct (coefficients l nm); auto. unfold rsum; simpl. f_equal. lra.
  - now transitivity (match coefficients l' nm with Some l0 => Some (rsum l0) | None => None end).
Qed.
Print Assumptions C35_attenuation_order_independent.

Theorem C35_attenuation_additive : forall cs cs' nm a b,
  total_attenuation cs nm = Some a -> total_attenuation cs' nm = Some b ->
  total_attenuation (cs ++ cs') nm = Some (a + b).
Proof.
  intros cs cs' nm. unfold total_attenuation. induction cs as [|c r IH]; simpl; intros a b Ha Hb.
  - inversion Ha; subst. unfold rsum at 1; simpl. rewrite Rplus_0_l. exact Hb.
  - destruct (dist_call (c_dist c) nm) as [v|]; [|discriminate].
    destruct (coefficients r nm) as [l|]; [|discriminate]. inversion Ha; subst.
    specialize (IH (rsum l) b eq_refl Hb).
    destruct (coefficients (r ++ cs') nm) as [l'|]; [|discriminate]. inversion IH as [H0].
    f_equal. unfold rsum in *; simpl. lra.
Qed.
Print Assumptions C35_attenuation_additive.

Theorem C35_attenuation_base : forall nm c,
  total_attenuation [] nm = Some 0 /\ total_attenuation [c] nm = dist_call (c_dist c) nm.
Proof.
  intros. split; [reflexivity|]. unfold total_attenuation; simpl.
  destruct (dist_call (c_dist c) nm); auto. unfold rsum; simpl. f_equal. lra.
Qed.
Print Assumptions C35_attenuation_base.

(** The kernel's total is the same number whenever no component is out of range
    (interpolated spectra; [good_component] says the table passed the constructor). *)
Definition good_component (c : component) : Prop :=
  match c_dist c with
  | DConst _ => True
  | DTable h xs ys cdf => h = false /\ length xs = length ys /\ mk_dist xs ys false = MkOk (DTable h xs ys cdf)
  end.

Lemma good_component_coefficient c nm a :
  good_component c -> dist_call (c_dist c) nm = Some a -> k_coefficient (c_dist c) nm = a.
Proof.
  unfold good_component. destruct (c_dist c) as [y|h xs ys cdf] eqn:E.
  - intros _ H. rewrite C68_kernel_constant_agrees in H. now inversion H.
  - intros (-> & Hl & Hm) H. now apply (C68_kernel_coefficient_agrees _ xs ys).
Qed.

Theorem C35_kernel_total_agrees : forall cs nm a,
  Forall good_component cs -> total_attenuation cs nm = Some a -> k_total cs nm = a.
Proof.
  intros cs nm a Hg Ht. unfold k_total, total_attenuation in *.
  destruct (coefficients cs nm) as [l|] eqn:E; [|discriminate]. inversion Ht; subst; clear Ht.
  assert (Hgen : forall acc, k_total_from acc cs nm = acc + rsum l).
  2:{ rewrite Hgen. lra. }
  revert l E. induction Hg as [|c r Hc Hg IH]; simpl; intros l E acc.
  - inversion E; subst. unfold rsum; simpl. lra.
  - destruct (dist_call (c_dist c) nm) as [v|] eqn:Ev; [|discriminate].
    destruct (coefficients r nm) as [l'|]; [|discriminate]. inversion E; subst.
    rewrite (IH l' eq_refl), (good_component_coefficient c nm v Hc Ev). unfold rsum; simpl. lra.
Qed.
Print Assumptions C35_kernel_total_agrees.

Definition ex_absorber (a : R) : component := Component Absorber (DConst a) 0 0 0 (fun _ _ => None) (DConst 0).
Example C35_example : total_attenuation [ex_absorber 2; ex_absorber 3] 500 = Some 5 /\
  Forall good_component [ex_absorber 2; ex_absorber 3].
Proof. split; [unfold total_attenuation, rsum; simpl; f_equal; lra|repeat constructor]. Qed.

(** ** C36 Quantum yield *)
Theorem C36_quantum_yield_from_lifetimes : forall qy tr tn q,
  0 <= tr -> 0 <= tn -> mk_qy qy (Some tr) (Some tn) = QyOk q ->
  0 <= q <= 1 /\ q * (tn + tr) = tn /\ (0 < tr -> 0 < tn -> q = (1 / tr) / (1 / tr + 1 / tn)).
Proof.
  intros qy tr tn q Hr Hn H. unfold mk_qy in H. destruct (Reqb_spec (tn + tr) 0); [discriminate|].
  inversion H; subst. split; [|split].
  - assert (0 < tn + tr) by lra. split.
    + apply Rmult_le_pos; [lra|left; now apply Rinv_0_lt_compat].
    + apply (Rmult_le_reg_r (tn + tr)); auto. unfold Rdiv. rewrite Rmult_assoc, Rinv_l by lra. lra.
  - field. lra.
  - intros. field. repeat split; lra.
Qed.
Print Assumptions C36_quantum_yield_from_lifetimes.

(** Without both lifetimes the given yield is used; with neither it is an error. *)
Theorem C36_quantum_yield_required : forall qy tr tn q,
  (tr = None \/ tn = None) -> (mk_qy qy tr tn = QyOk q <-> qy = Some q).
Proof.
  intros qy tr tn q H. unfold mk_qy.
  destruct tr, tn; try (destruct H; discriminate); destruct qy; split; intros E; inversion E; auto.
Qed.
Print Assumptions C36_quantum_yield_required.

Theorem C36_reemits_below_yield : forall k qy u,
  is_radiative k qy u = true <-> (k = Scatterer \/ k = Luminophore) /\ u < qy.
Proof.
  intros k qy u. destruct k; simpl; rewrite ?Rltb_true; split; try (intros [[H|H] ?]; congruence); intuition congruence.
Qed.
Print Assumptions C36_reemits_below_yield.

Theorem C36_absorbers_never_reemit : forall qy u,
  is_radiative Absorber qy u = false /\ is_radiative Reactor qy u = false /\
  k_is_radiative Absorber qy u = false /\ k_is_radiative Reactor qy u = false.
Proof. intros. simpl. auto. Qed.
Print Assumptions C36_absorbers_never_reemit.

Theorem C36_engines_agree : forall k qy u, k_is_radiative k qy u = is_radiative k qy u.
Proof. intros [] qy u; reflexivity. Qed.
Print Assumptions C36_engines_agree.

(** The attribute stored on an Absorber built with a lifetime is 1, not 0
    (component.py 124-125 wins over quantum_yield=0.0); it is never consulted. *)
Theorem C36_absorber_stored_yield : forall tn, tn <> 0 -> mk_qy_absorber (Some tn) = QyOk 1.
Proof.
  intros tn H. unfold mk_qy_absorber, mk_qy. destruct (Reqb_spec (tn + 0) 0); [lra|]. f_equal. field. lra.
Qed.
Print Assumptions C36_absorber_stored_yield.

Theorem C36_delay_nonneg : forall tau u, 0 <= tau -> 0 <= u < 1 -> 0 <= delay tau u /\ k_delay tau u = delay tau u.
Proof.
  intros tau u Ht Hu. split; [now apply delay_nonneg|]. unfold k_delay, delay.
  destruct (Rltb_spec 0 tau), (Reqb_spec tau 0); auto; lra.
Qed.
Print Assumptions C36_delay_nonneg.

Example C36_example : mk_qy None (Some 1) (Some 3) = QyOk (3 / (3 + 1)).
Proof. unfold mk_qy. destruct (Reqb_spec (3 + 1) 0); [lra|reflexivity]. Qed.
