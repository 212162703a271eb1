(** C116: directions and positions follow the advertised distributions. *)
From Coq Require Import Reals Lra Lia List Bool.
From Verif Require Import Base Vec PhaseModel.
Import ListNotations.
Open Scope R_scope.

(** ** Integrals by antiderivatives *)
Lemma integral f G a b : a <= b -> (forall x, a <= x <= b -> continuity_pt f x) -> (forall x, a <= x <= b -> derivable_pt_lim G x (f x)) ->
  forall pr : Riemann_integrable f a b, RiemannInt pr = G b - G a.
Proof.
  intros Hab C D pr.
  assert (A1 : antiderivative f (primitive Hab (FTC_P1 Hab C)) a b) by apply RiemannInt_P29.
  assert (A2 : antiderivative f G a b).
  { split; [|exact Hab]. intros x Hx. exists (exist _ (f x) (D x Hx)). reflexivity. }
  destruct (antiderivative_Ucte _ _ _ _ _ A1 A2) as [k Hk].
  rewrite (RiemannInt_P20 Hab (FTC_P1 Hab C) pr). rewrite (Hk a), (Hk b) by lra. ring.
Qed.
Lemma integrable f a b : a <= b -> (forall x, a <= x <= b -> continuity_pt f x) -> exists pr : Riemann_integrable f a b, True.
Proof. intros H C. exists (continuity_implies_RiemannInt H C). exact I. Qed.

(** ** Azimuth *)
(** [a] is the angle of [v] around the z axis, counted from the x axis *)
Definition azimuth (v : vec) (a : R) : Prop := 0 <= a < 2 * PI /\ exists rho, 0 < rho /\ vx v = rho * cos a /\ vy v = rho * sin a.
Lemma angle_unique a b : 0 <= a < 2 * PI -> 0 <= b < 2 * PI -> cos a = cos b -> sin a = sin b -> a = b.
Proof.
  intros Ha Hb Hc Hs. assert (K : cos (a - b) = 1) by (rewrite cos_minus, Hc, Hs; pose proof (sin2_cos2 b) as Q; unfold Rsqr in Q; lra).
  assert (Z : sin ((a - b) / 2) = 0).
  { replace (a - b) with (2 * ((a - b) / 2)) in K by field. rewrite cos_2a_sin in K. assert (0 = sin ((a - b) / 2) * sin ((a - b) / 2)) by lra.
    symmetry in H. apply Rmult_integral in H. tauto. }
  destruct (Rtotal_order a b) as [L|[L|L]]; [|exact L|]; exfalso.
  - replace ((a - b) / 2) with (- ((b - a) / 2)) in Z by field. rewrite sin_neg in Z. assert (0 < sin ((b - a) / 2)) by (apply sin_gt_0; lra). lra.
  - assert (0 < sin ((a - b) / 2)) by (apply sin_gt_0; lra). lra.
Qed.
Lemma azimuth_spherical th u : 0 < sin th -> 0 <= u < 1 -> azimuth (spherical_to_cart th (2 * PI * u)) (2 * PI * u).
Proof. intros Hs Hu. pose proof PI_RGT_0. split; [nra|]. exists (sin th). cbn. auto. Qed.
Lemma azimuth_unique v a b : azimuth v a -> azimuth v b -> a = b.
Proof.
  intros [Ha (r & Hr & Rx & Ry)] [Hb (s & Hs & Sx & Sy)].
  assert (E : r = s).
  { assert (Q : r * r = s * s).
    { pose proof (sin2_cos2 a) as A. pose proof (sin2_cos2 b) as B. unfold Rsqr in A, B.
      replace (r * r) with (vx v * vx v + vy v * vy v) by (rewrite Rx, Ry; transitivity (r * r * (sin a * sin a + cos a * cos a)); [ring|rewrite A; ring]).
      rewrite Sx, Sy. transitivity (s * s * (sin b * sin b + cos b * cos b)); [ring|rewrite B; ring]. }
    nra. }
  subst s. apply angle_unique; try assumption; apply Rmult_eq_reg_l with r; lra.
Qed.

(** ** Laws *)
(** A sampler of directions from two independent uniform draws, for the polar angle and for the
    azimuth.  The draws that send the direction below height [c] and into the sector of azimuths up
    to [2 pi f] are a rectangle with sides F(c), the integral of the density from the bottom to
    [c], and [f]; so the probability of that part of the sphere is F(c) f.  Directions along the z
    axis have no azimuth. *)
Definition rising (lo hi : R) (density : R -> R) (sample : R -> R -> vec) : Prop :=
  forall c (pr : Riemann_integrable density lo c) f p u, lo <= c <= hi -> 0 <= f <= 1 -> 0 <= p <= 1 -> 0 <= u < 1 ->
    lo <= vz (sample p u) <= hi /\ (vz (sample p u) <= c <-> p <= RiemannInt pr) /\
    (lo < vz (sample p u) < hi -> exists a, azimuth (sample p u) a /\ (a <= 2 * PI * f <-> u <= f)).
(** the same with small draws at the top *)
Definition falling (lo hi : R) (density : R -> R) (sample : R -> R -> vec) : Prop :=
  forall c (pr : Riemann_integrable density c hi) f p u, lo <= c <= hi -> 0 <= f <= 1 -> 0 <= p <= 1 -> 0 <= u < 1 ->
    lo <= vz (sample p u) <= hi /\ (c <= vz (sample p u) <-> p <= RiemannInt pr) /\
    (lo < vz (sample p u) < hi -> exists a, azimuth (sample p u) a /\ (a <= 2 * PI * f <-> u <= f)).
(** the densities are normalised *)
Definition normalised (lo hi : R) (density : R -> R) : Prop :=
  (forall x, lo <= x <= hi -> 0 <= density x) /\ (exists pr : Riemann_integrable density lo hi, True) /\ forall pr : Riemann_integrable density lo hi, RiemannInt pr = 1.

Lemma sector u f : 0 <= u < 1 -> 0 <= f <= 1 -> (2 * PI * u <= 2 * PI * f <-> u <= f).
Proof. intros Hu Hf. pose proof PI_RGT_0. split; intros H1; [apply Rmult_le_reg_l with (2 * PI); lra|apply Rmult_le_compat_l; lra]. Qed.
Lemma sin_pos_of_cos th : 0 <= th <= PI -> -1 < cos th < 1 -> 0 < sin th.
Proof.
  intros H C. apply sin_gt_0.
  - destruct H as [[H|H] _]; [exact H|]. subst th. rewrite cos_0 in C. lra.
  - destruct H as [_ [H|H]]; [exact H|]. subst th. rewrite cos_PI in C. lra.
Qed.

(** *** Isotropic: area of the sphere, uniform in the height *)
Definition uniform_density (x : R) : R := 1 / 2.
Lemma uniform_integral a b : a <= b -> forall pr : Riemann_integrable uniform_density a b, RiemannInt pr = (b - a) / 2.
Proof.
  intros H pr. rewrite (integral uniform_density (fun x => x / 2) a b H); [lra| |].
  - intros x _. apply continuity_const. intros y z. reflexivity.
  - intros x _. replace (uniform_density x) with (/ 2 * 1) by (unfold uniform_density; field). apply derivable_pt_lim_ext with (f := fun x => / 2 * x); [intros; field|].
    apply (derivable_pt_lim_scal id (/ 2) x 1). apply derivable_pt_lim_id.
Qed.
Lemma isotropic_height g1 g2 : 0 <= g2 <= 1 -> vz (isotropic g1 g2) = 2 * g2 - 1.
Proof. intros H. cbn. apply cos_acos. lra. Qed.
Theorem C116_isotropic : normalised (-1) 1 uniform_density /\ rising (-1) 1 uniform_density (fun p u => isotropic u p) /\
  rising (-1) 1 uniform_density (fun p u => k_sample_phase PhIsotropic u p) /\ rising (-1) 1 uniform_density (fun p u => e_isotropic u p).
Proof.
  split.
  - split; [intros; unfold uniform_density; lra|]. split; [apply integrable; [lra|]; intros x _; apply continuity_const; intros y z; reflexivity|].
    intros pr. rewrite uniform_integral by lra. field.
  - assert (R0 : rising (-1) 1 uniform_density (fun p u => isotropic u p)); [|exact (conj R0 (conj R0 R0))].
    intros c pr f p u Hc Hf Hp Hu. rewrite (uniform_integral (-1) c ltac:(lra) pr). rewrite isotropic_height by exact Hp. split; [lra|]. split; [lra|]. intros Hi.
    exists (2 * PI * u). split; [|now apply sector]. unfold isotropic. apply azimuth_spherical; [|exact Hu].
    pose proof (acos_bound (2 * p - 1)). apply sin_pos_of_cos; [lra|]. rewrite cos_acos by lra. lra.
Qed.
Print Assumptions C116_isotropic.

(** *** Henyey-Greenstein *)
Definition hg_density (g x : R) : R := (1 - g * g) / (2 * ((1 + g * g - 2 * g * x) * sqrt (1 + g * g - 2 * g * x))).
Definition hg_prim (g x : R) : R := (1 - g * g) / (2 * g) * / sqrt (1 + g * g - 2 * g * x).
Lemma hg_base_pos g x : -1 < g < 1 -> -1 <= x <= 1 -> 0 < 1 + g * g - 2 * g * x.
Proof. intros Hg Hx. destruct (Rle_lt_dec 0 g); [assert (g * x <= g * 1) by (apply Rmult_le_compat_l; lra)|assert (g * x <= g * -1) by (apply Rmult_le_compat_neg_l; lra)]; nra. Qed.
Lemma hg_prim_lim g x : g <> 0 -> 0 < 1 + g * g - 2 * g * x -> derivable_pt_lim (hg_prim g) x (hg_density g x).
Proof.
  intros Hg Hb. set (D := fun x => 1 + g * g - 2 * g * x).
  assert (L1 : derivable_pt_lim D x (- (2 * g))).
  { unfold D. replace (- (2 * g)) with (0 - 2 * g * 1) by ring. apply derivable_pt_lim_minus; [apply derivable_pt_lim_const|]. apply (derivable_pt_lim_scal id). apply derivable_pt_lim_id. }
  assert (L2 : derivable_pt_lim (comp sqrt D) x (/ (2 * sqrt (D x)) * - (2 * g))) by (apply derivable_pt_lim_comp; [exact L1|apply derivable_pt_lim_sqrt; exact Hb]).
  pose proof (sqrt_lt_R0 _ Hb) as Sp. pose proof (sqrt_sqrt _ (Rlt_le _ _ Hb)) as Sq.
  assert (L3 : derivable_pt_lim (fct_cte ((1 - g * g) / (2 * g)) / comp sqrt D) x ((0 * comp sqrt D x - (/ (2 * sqrt (D x)) * - (2 * g)) * fct_cte ((1 - g * g) / (2 * g)) x) / Rsqr (comp sqrt D x))).
  { apply derivable_pt_lim_div; [apply derivable_pt_lim_const|exact L2|]. unfold comp, D. lra. }
  apply derivable_pt_lim_ext with (g := hg_prim g) in L3; [|intros t; unfold div_fct, fct_cte, comp, D, hg_prim, Rdiv; reflexivity].
  replace (hg_density g x) with ((0 * comp sqrt D x - (/ (2 * sqrt (D x)) * - (2 * g)) * fct_cte ((1 - g * g) / (2 * g)) x) / Rsqr (comp sqrt D x)); [exact L3|].
  unfold hg_density, comp, fct_cte, Rsqr, D. rewrite Sq. field. split; [lra|]. split; [lra|exact Hg].
Qed.
Lemma hg_density_cont g x : g <> 0 -> 0 < 1 + g * g - 2 * g * x -> continuity_pt (hg_density g) x.
Proof.
  intros Hg Hb. set (D := fun x => 1 + g * g - 2 * g * x). pose proof (sqrt_lt_R0 _ Hb) as Sp.
  assert (C1 : continuity_pt D x).
  { unfold D. apply continuity_pt_minus; [apply continuity_pt_const; intros a b; reflexivity|]. apply (continuity_pt_scal id). apply derivable_continuous_pt, derivable_pt_id. }
  assert (C2 : continuity_pt (comp sqrt D) x) by (apply continuity_pt_comp; [exact C1|apply continuity_pt_sqrt; unfold D; lra]).
  change (continuity_pt (fct_cte (1 - g * g) / (fct_cte 2 * (D * comp sqrt D)))%F x).
  apply continuity_pt_div; [apply continuity_pt_const; intros a b; reflexivity| |].
  - apply continuity_pt_mult; [apply continuity_pt_const; intros a b; reflexivity|]. now apply continuity_pt_mult.
  - unfold mult_fct, fct_cte, comp, D. apply Rgt_not_eq. repeat apply Rmult_lt_0_compat; lra.
Qed.
Lemma hg_prim_increasing g x y : -1 < g < 1 -> g <> 0 -> 0 < 1 + g * g - 2 * g * x -> 0 < 1 + g * g - 2 * g * y -> x < y -> hg_prim g x < hg_prim g y.
Proof.
  intros Hg Hn Hx Hy L. unfold hg_prim. pose proof (sqrt_lt_R0 _ Hx). pose proof (sqrt_lt_R0 _ Hy). assert (P : 0 < 1 - g * g) by nra.
  destruct (Rlt_le_dec 0 g) as [G|G].
  - assert (S : sqrt (1 + g * g - 2 * g * y) < sqrt (1 + g * g - 2 * g * x)) by (apply sqrt_lt_1_alt; nra).
    apply Rmult_lt_compat_l; [apply Rdiv_lt_0_compat; lra|]. apply Rinv_lt_contravar; [now apply Rmult_lt_0_compat|exact S].
  - assert (S : sqrt (1 + g * g - 2 * g * x) < sqrt (1 + g * g - 2 * g * y)) by (apply sqrt_lt_1_alt; nra).
    assert (I : / sqrt (1 + g * g - 2 * g * y) < / sqrt (1 + g * g - 2 * g * x)) by (apply Rinv_lt_contravar; [now apply Rmult_lt_0_compat|exact S]).
    assert (K : 0 < (1 - g * g) / (2 * - g)) by (apply Rdiv_lt_0_compat; lra). replace ((1 - g * g) / (2 * g)) with (- ((1 - g * g) / (2 * - g))) by (field; lra). nra.
Qed.
Lemma hg_integral g c : -1 < g < 1 -> g <> 0 -> -1 <= c <= 1 -> forall pr : Riemann_integrable (hg_density g) (-1) c, RiemannInt pr = hg_prim g c - hg_prim g (-1).
Proof.
  intros Hg Hn Hc pr. apply integral; [lra| |]; intros x Hx; [apply hg_density_cont|apply hg_prim_lim]; try assumption; apply hg_base_pos; lra.
Qed.
Lemma hg_mu_base g p : -1 < g < 1 -> g <> 0 -> 0 <= p <= 1 -> 0 < 1 + g * (2 * p - 1) /\
  1 + g * g - 2 * g * hg_mu g p = ((1 - g * g) / (1 + g * (2 * p - 1))) * ((1 - g * g) / (1 + g * (2 * p - 1))).
Proof.
  intros Hg Hn Hp. assert (P : 0 < 1 + g * (2 * p - 1)).
  { destruct (Rle_lt_dec 0 g); [assert (g * -1 <= g * (2 * p - 1)) by (apply Rmult_le_compat_l; lra)|assert (g * 1 <= g * (2 * p - 1)) by (apply Rmult_le_compat_neg_l; lra)]; lra. }
  split; [exact P|]. unfold hg_mu. field. lra.
Qed.
Lemma hg_prim_mu g p : -1 < g < 1 -> g <> 0 -> 0 <= p <= 1 -> 0 < 1 + g * g - 2 * g * hg_mu g p /\ hg_prim g (hg_mu g p) - hg_prim g (-1) = p.
Proof.
  intros Hg Hn Hp. destruct (hg_mu_base g p Hg Hn Hp) as [P E]. assert (N : 0 < 1 - g * g) by nra. assert (Q : 0 < (1 - g * g) / (1 + g * (2 * p - 1))) by (apply Rdiv_lt_0_compat; lra).
  split; [rewrite E; now apply Rmult_lt_0_compat|]. unfold hg_prim. rewrite E, sqrt_square by lra. replace (1 + g * g - 2 * g * -1) with ((1 + g) * (1 + g)) by ring. rewrite sqrt_square by lra.
  field. repeat split; lra.
Qed.
Lemma hg_prim_le g x y : -1 < g < 1 -> g <> 0 -> 0 < 1 + g * g - 2 * g * x -> 0 < 1 + g * g - 2 * g * y -> (x <= y <-> hg_prim g x <= hg_prim g y).
Proof.
  intros Hg Hn Hx Hy. split; intros H.
  - destruct H as [H| -> ]; [left; now apply hg_prim_increasing|lra].
  - destruct (Rle_lt_dec x y) as [L|L]; [exact L|]. pose proof (hg_prim_increasing g y x Hg Hn Hy Hx L). lra.
Qed.
Lemma hg_mu_range g p : -1 < g < 1 -> g <> 0 -> 0 <= p <= 1 -> -1 <= hg_mu g p <= 1.
Proof.
  intros Hg Hn Hp. destruct (hg_prim_mu g p Hg Hn Hp) as [B E]. pose proof (hg_base_pos g (-1) Hg ltac:(lra)) as B0. pose proof (hg_base_pos g 1 Hg ltac:(lra)) as B1.
  assert (E1 : hg_prim g 1 - hg_prim g (-1) = 1).
  { unfold hg_prim. replace (1 + g * g - 2 * g * -1) with ((1 + g) * (1 + g)) by ring. replace (1 + g * g - 2 * g * 1) with ((1 - g) * (1 - g)) by ring. rewrite !sqrt_square by lra. field. lra. }
  split; apply (hg_prim_le g); try assumption; lra.
Qed.
Definition hg_sample (g p u : R) : vec := spherical_to_cart (acos (hg_mu g p)) (2 * PI * u).
Lemma hg_rising g : -1 < g < 1 -> g <> 0 -> rising (-1) 1 (hg_density g) (hg_sample g).
Proof.
  intros Hg Hn c pr f p u Hc Hf Hp Hu. rewrite (hg_integral g c Hg Hn Hc pr). destruct (hg_prim_mu g p Hg Hn Hp) as [B E]. pose proof (hg_mu_range g p Hg Hn Hp) as Rg.
  assert (Z : vz (hg_sample g p u) = hg_mu g p) by (cbn; apply cos_acos; exact Rg). rewrite Z. split; [exact Rg|]. split.
  - rewrite (hg_prim_le g _ c Hg Hn B (hg_base_pos g c Hg Hc)). lra.
  - intros Hi. exists (2 * PI * u). split; [|now apply sector]. apply azimuth_spherical; [|exact Hu]. apply sin_pos_of_cos; [pose proof (acos_bound (hg_mu g p)); lra|]. rewrite cos_acos by exact Rg. exact Hi.
Qed.
(** [g] is the mean of the cosine of the scattering angle. *)
Lemma hg_mean g : -1 < g < 1 -> g <> 0 -> forall pr : Riemann_integrable (hg_mu g) 0 1, RiemannInt pr = g.
Proof.
  intros Hg Hn pr.
  set (G := fun p => (1 + g * g) / (2 * g) * p + (1 - g * g) * (1 - g * g) / (4 * g * g) * / (1 + g * (2 * p - 1))).
  assert (P : forall p, 0 <= p <= 1 -> 0 < 1 + g * (2 * p - 1)) by (intros p Hp; apply (hg_mu_base g p Hg Hn Hp)).
  assert (D : forall p, 0 <= p <= 1 -> derivable_pt_lim G p (hg_mu g p)).
  { intros p Hp. specialize (P p Hp). unfold G.
    assert (L1 : derivable_pt_lim (fun p => 1 + g * (2 * p - 1)) p (2 * g)).
    { apply derivable_pt_lim_ext with (f := fun p => (1 - g) + (2 * g) * p); [intros; ring|]. assert (L0 : derivable_pt_lim (fct_cte (1 - g) + mult_real_fct (2 * g) id) p (0 + 2 * g * 1)).
      { apply derivable_pt_lim_plus; [apply derivable_pt_lim_const|]. apply derivable_pt_lim_scal. apply derivable_pt_lim_id. }
      replace (0 + 2 * g * 1) with (2 * g) in L0 by ring. exact L0. }
    assert (L2 : derivable_pt_lim (fct_cte ((1 - g * g) * (1 - g * g) / (4 * g * g)) / (fun p => 1 + g * (2 * p - 1))) p
       ((0 * (1 + g * (2 * p - 1)) - 2 * g * fct_cte ((1 - g * g) * (1 - g * g) / (4 * g * g)) p) / Rsqr (1 + g * (2 * p - 1)))).
    { apply (derivable_pt_lim_div _ (fun p => 1 + g * (2 * p - 1))); [apply derivable_pt_lim_const|exact L1|lra]. }
    replace (hg_mu g p) with ((1 + g * g) / (2 * g) * 1 + (0 * (1 + g * (2 * p - 1)) - 2 * g * fct_cte ((1 - g * g) * (1 - g * g) / (4 * g * g)) p) / Rsqr (1 + g * (2 * p - 1)))
      by (unfold hg_mu, fct_cte, Rsqr; field; split; lra).
    apply (derivable_pt_lim_plus (mult_real_fct ((1 + g * g) / (2 * g)) id)); [apply derivable_pt_lim_scal; apply derivable_pt_lim_id|exact L2]. }
  assert (C : forall p, 0 <= p <= 1 -> continuity_pt (hg_mu g) p).
  { intros p Hp. specialize (P p Hp). unfold hg_mu. reg. lra. }
  rewrite (integral (hg_mu g) G 0 1 ltac:(lra) C D pr). unfold G. field. repeat split; lra.
Qed.
(** Below the thresholds at which the code turns to isotropic sampling the two densities are the same
    to 2 |g|. *)
Lemma hg_density_small g x : Rabs g <= / 100 -> -1 <= x <= 1 -> Rabs (hg_density g x - uniform_density x) <= 2 * Rabs g.
Proof.
  intros Hg Hx. set (a := Rabs g) in *. assert (Ha : 0 <= a) by apply Rabs_pos. assert (Ga : - a <= g <= a) by (unfold a, Rabs; destruct (Rcase_abs g); lra).
  assert (G2 : g * g = a * a) by (unfold a, Rabs; destruct (Rcase_abs g); ring). clearbody a.
  assert (X : - a <= g * x <= a).
  { destruct (Rle_lt_dec 0 g); [assert (g * x <= g * 1) by (apply Rmult_le_compat_l; lra); assert (g * -1 <= g * x) by (apply Rmult_le_compat_l; lra); lra|].
    assert (g * x <= g * -1) by (apply Rmult_le_compat_neg_l; lra). assert (g * 1 <= g * x) by (apply Rmult_le_compat_neg_l; lra). lra. }
  unfold hg_density, uniform_density. rewrite G2. set (D := 1 + a * a - 2 * g * x).
  assert (DL : (1 - a) * (1 - a) <= D) by (unfold D; lra). assert (DU : D <= (1 + a) * (1 + a)) by (unfold D; lra). clearbody D.
  set (s := sqrt D). assert (Dp : 0 < D) by nra. assert (Sp : 0 < s) by (apply sqrt_lt_R0; exact Dp). assert (Sq : s * s = D) by (apply sqrt_sqrt; lra). clearbody s.
  assert (SL : 1 - a <= s) by (destruct (Rle_lt_dec (1 - a) s); [assumption|nra]). assert (SU : s <= 1 + a) by (destruct (Rle_lt_dec s (1 + a)); [assumption|nra]).
  rewrite <- Sq. clear Sq DL DU Dp.
  assert (C : (1 - a) * (1 - a) * (1 - a) <= s * s * s <= (1 + a) * (1 + a) * (1 + a)).
  { split; apply Rmult_le_compat; try nra; apply Rmult_le_compat; lra. }
  set (q := s * s * s) in *. assert (Q : 0 < q) by (unfold q; repeat apply Rmult_lt_0_compat; lra). clearbody q.
  replace ((1 - a * a) / (2 * q) - 1 / 2) with ((1 - a * a - q) * / (2 * q)) by (field; lra).
  assert (I : 0 < / (2 * q)) by (apply Rinv_0_lt_compat; lra). rewrite Rabs_mult, (Rabs_right (/ (2 * q))) by lra.
  apply Rmult_le_reg_r with (2 * q); [lra|]. rewrite Rmult_assoc, Rinv_l by lra. unfold Rabs. destruct (Rcase_abs (1 - a * a - q)); nra.
Qed.


Lemma rising_ext lo hi d s s' : (forall p u, 0 <= p <= 1 -> 0 <= u < 1 -> s p u = s' p u) -> rising lo hi d s -> rising lo hi d s'.
Proof. intros E H c pr f p u Hc Hf Hp Hu. rewrite <- (E p u Hp Hu). now apply H. Qed.
Lemma falling_ext lo hi d s s' : (forall p u, 0 <= p <= 1 -> 0 <= u < 1 -> s p u = s' p u) -> falling lo hi d s -> falling lo hi d s'.
Proof. intros E H c pr f p u Hc Hf Hp Hu. rewrite <- (E p u Hp Hu). now apply H. Qed.
Lemma close_to_zero_false g : EPS_ZERO <= Rabs g -> close_to_zero g = false.
Proof. intros H. now apply Rltb_false. Qed.
Lemma py_hg g p u2 u3 : -1 < g < 1 -> g <> 0 -> 0 <= p <= 1 ->
  henyey_greenstein g p u2 u3 = Some (if close_to_zero g then isotropic u2 u3 else hg_sample g p u2).
Proof.
  intros Hg Hn Hp. destruct (hg_mu_base g p Hg Hn Hp) as [P _]. unfold henyey_greenstein.
  destruct (Reqb_spec (2 * g) 0); [lra|]. destruct (Reqb_spec (1 + g * (2 * p - 1)) 0); [lra|]. cbv zeta. destruct (close_to_zero g); reflexivity.
Qed.
(** Henyey-Greenstein: the three samplers, and what happens for tiny asymmetries. *)
Theorem C116_henyey_greenstein : forall g, -1 < g < 1 -> g <> 0 ->
  normalised (-1) 1 (hg_density g) /\
  (* the mean of the cosine is g *)
  (exists pr : Riemann_integrable (hg_mu g) 0 1, True) /\ (forall pr : Riemann_integrable (hg_mu g) 0 1, RiemannInt pr = g) /\
  (forall p u, 0 <= p <= 1 -> vz (hg_sample g p u) = hg_mu g p) /\
  (EPS_ZERO <= Rabs g ->
    (forall p u u3, 0 <= p <= 1 -> henyey_greenstein g p u u3 = Some (hg_sample g p u)) /\ rising (-1) 1 (hg_density g) (hg_sample g) /\
    rising (-1) 1 (hg_density g) (k_sample_phase (PhHenyeyGreenstein g))) /\
  (/ 10 ^ 12 <= Rabs g -> rising (-1) 1 (hg_density g) (e_henyey_greenstein g)) /\
  (Rabs g < EPS_ZERO ->
    (forall p u u3, 0 <= p <= 1 -> henyey_greenstein g p u u3 = Some (isotropic u u3)) /\ (forall d1 d2, k_sample_phase (PhHenyeyGreenstein g) d1 d2 = isotropic d1 d2)) /\
  (Rabs g < / 10 ^ 12 -> forall d1 d2, e_henyey_greenstein g d1 d2 = isotropic d1 d2) /\
  (Rabs g <= / 100 -> forall x, -1 <= x <= 1 -> Rabs (hg_density g x - uniform_density x) <= 2 * Rabs g).
Proof.
  intros g Hg Hn. pose proof (hg_rising g Hg Hn) as R.
  assert (N : normalised (-1) 1 (hg_density g)).
  { split; [|split].
    - intros x Hx. unfold hg_density. pose proof (hg_base_pos g x Hg Hx) as B. pose proof (sqrt_lt_R0 _ B). apply Rlt_le, Rdiv_lt_0_compat; [nra|]. apply Rmult_lt_0_compat; [lra|]. now apply Rmult_lt_0_compat.
    - apply integrable; [lra|]. intros x Hx. apply hg_density_cont; [exact Hn|now apply hg_base_pos].
    - intros pr. rewrite (hg_integral g 1 Hg Hn ltac:(lra) pr). unfold hg_prim. replace (1 + g * g - 2 * g * -1) with ((1 + g) * (1 + g)) by ring.
      replace (1 + g * g - 2 * g * 1) with ((1 - g) * (1 - g)) by ring. rewrite !sqrt_square by lra. field. lra. }
  split; [exact N|]. split.
  { apply integrable; [lra|]. intros p Hp. destruct (hg_mu_base g p Hg Hn Hp) as [P _]. unfold hg_mu. reg. lra. }
  split; [now apply hg_mean|]. split; [intros p u Hp; cbn; apply cos_acos; now apply hg_mu_range|]. split; [|split; [|split; [|split]]].
  - intros He. split; [|split; [exact R|]].
    + intros p u u3 Hp. rewrite py_hg by assumption. now rewrite close_to_zero_false.
    + apply rising_ext with (hg_sample g); [|exact R]. intros p u Hp Hu. unfold k_sample_phase, hg_sample, hg_mu. rewrite (proj2 (Rleb_true EPS_ZERO (Rabs g))) by exact He.
      cbv zeta. do 2 f_equal. destruct (hg_mu_base g p Hg Hn Hp) as [P _]. field. lra.
  - intros He. apply rising_ext with (hg_sample g); [|exact R]. intros p u Hp Hu. unfold e_henyey_greenstein, hg_sample, hg_mu. rewrite (proj2 (Rltb_false (Rabs g) (/ 10 ^ 12))) by exact He.
    cbv zeta. do 2 f_equal. destruct (hg_mu_base g p Hg Hn Hp) as [P _]. field. lra.
  - intros He. split.
    + intros p u u3 Hp. rewrite py_hg by assumption. unfold close_to_zero. now rewrite (proj2 (Rltb_true _ _) He).
    + intros d1 d2. unfold k_sample_phase. rewrite (proj2 (Rleb_false _ _) He). reflexivity.
  - intros He d1 d2. unfold e_henyey_greenstein. rewrite (proj2 (Rltb_true _ _) He). reflexivity.
  - intros Hs x Hx. now apply hg_density_small.
Qed.
Print Assumptions C116_henyey_greenstein.

(** *** Cone and Lambertian: the cosine law inside the cone *)
Definition cosine_density (t x : R) : R := 2 * x / (sin t * sin t).
Lemma cosine_integral t c : 0 < sin t -> c <= 1 -> forall pr : Riemann_integrable (cosine_density t) c 1, RiemannInt pr = (1 - c * c) / (sin t * sin t).
Proof.
  intros Hs Hc pr. assert (P : 0 < sin t * sin t) by (now apply Rmult_lt_0_compat). set (k := sin t * sin t) in *.
  rewrite (integral (cosine_density t) (fun x => / k * (x * x)) c 1 Hc); [field; lra| |].
  - intros x _. unfold cosine_density. fold k. clearbody k. reg.
  - intros x _. replace (cosine_density t x) with (/ k * (1 * x + x * 1)) by (unfold cosine_density; fold k; field; lra).
    apply (derivable_pt_lim_scal (id * id)%F). apply derivable_pt_lim_mult; apply derivable_pt_lim_id.
Qed.
Lemma cone_height t p u : 0 < t <= PI / 2 -> 0 <= p <= 1 -> let v := spherical_to_cart (asin (sqrt p * sin t)) (2 * PI * u) in
  0 <= vz v /\ vz v * vz v = 1 - p * (sin t * sin t) /\ 0 <= asin (sqrt p * sin t) <= PI.
Proof.
  intros Ht Hp v. pose proof PI_RGT_0. assert (Hs : 0 < sin t) by (apply sin_gt_0; lra). pose proof (SIN_bound t) as [_ S1].
  assert (Sq : 0 <= sqrt p <= 1) by (split; [apply sqrt_pos|rewrite <- sqrt_1; apply sqrt_le_1; lra]).
  assert (X : 0 <= sqrt p * sin t <= 1) by (split; [apply Rmult_le_pos; lra|nra]).
  pose proof (asin_bound (sqrt p * sin t)) as B. assert (A0 : 0 <= asin (sqrt p * sin t)).
  { destruct (Rle_lt_dec 0 (asin (sqrt p * sin t))) as [L|L]; [exact L|]. assert (K : sin (asin (sqrt p * sin t)) = sqrt p * sin t) by (apply sin_asin; lra).
    assert (0 < sin (- asin (sqrt p * sin t))) by (apply sin_gt_0; lra). rewrite sin_neg in *. lra. }
  split; [cbn; apply cos_ge_0; lra|]. split; [|lra]. cbn. assert (K : sin (asin (sqrt p * sin t)) = sqrt p * sin t) by (apply sin_asin; lra).
  pose proof (sin2_cos2 (asin (sqrt p * sin t))) as Q. unfold Rsqr in Q. rewrite K in Q. pose proof (sqrt_sqrt p ltac:(lra)) as Z.
  assert (sqrt p * sin t * (sqrt p * sin t) = p * (sin t * sin t)) by (rewrite <- Z at 3; ring). lra.
Qed.
Lemma cone_falling t : 0 < t <= PI / 2 -> falling (cos t) 1 (cosine_density t) (fun p u => spherical_to_cart (asin (sqrt p * sin t)) (2 * PI * u)).
Proof.
  intros Ht c pr f p u Hc Hf Hp Hu. pose proof PI_RGT_0. assert (Hs : 0 < sin t) by (apply sin_gt_0; lra). assert (P : 0 < sin t * sin t) by (now apply Rmult_lt_0_compat).
  rewrite (cosine_integral t c Hs ltac:(lra) pr). destruct (cone_height t p u Ht Hp) as (A & B & C). set (th := asin (sqrt p * sin t)) in *.
  set (z := vz (spherical_to_cart th (2 * PI * u))) in *. assert (Ez : z = cos th) by reflexivity. clearbody th.
  assert (Ct : 0 <= cos t) by (apply cos_ge_0; lra). pose proof (sin2_cos2 t) as Q. unfold Rsqr in Q.
  assert (Z1 : z <= 1) by (rewrite Ez; apply COS_bound). assert (Z0 : cos t <= z) by (destruct (Rle_lt_dec (cos t) z); [assumption|exfalso; assert (p * (sin t * sin t) <= 1 * (sin t * sin t)) by (apply Rmult_le_compat_r; lra); nra]).
  split; [lra|]. split.
  - set (k := sin t * sin t) in *. clearbody k. assert (E : (1 - c * c) / k * k = 1 - c * c) by (field; lra). split; intros H1.
    + apply Rmult_le_reg_r with k; [exact P|]. rewrite E. nra.
    + assert (p * k <= 1 - c * c) by (rewrite <- E; apply Rmult_le_compat_r; lra). destruct (Rle_lt_dec c z); [assumption|nra].
  - intros Hi. exists (2 * PI * u). split; [|now apply sector]. apply azimuth_spherical; [|exact Hu]. apply sin_pos_of_cos; [exact C|]. rewrite <- Ez. lra.
Qed.
Theorem C116_cone : forall t, 0 < t <= PI / 2 ->
  normalised (cos t) 1 (cosine_density t) /\
  (/ 10 ^ 8 < t -> exists s, (forall p u, cone t p u = Some (s p u)) /\ falling (cos t) 1 (cosine_density t) s) /\
  falling (cos t) 1 (cosine_density t) (k_sample_phase (PhCone t)) /\ falling (cos t) 1 (cosine_density t) (e_cone t).
Proof.
  intros t Ht. pose proof PI_RGT_0. assert (Hs : 0 < sin t) by (apply sin_gt_0; lra). assert (P : 0 < sin t * sin t) by (now apply Rmult_lt_0_compat).
  pose proof (cone_falling t Ht) as F. assert (Ct : 0 <= cos t) by (apply cos_ge_0; lra). pose proof (COS_bound t) as [_ C1]. split.
  - split; [|split].
    + intros x Hx. unfold cosine_density. apply Rmult_le_pos; [lra|]. apply Rlt_le, Rinv_0_lt_compat, P.
    + apply integrable; [exact C1|]. intros x _. unfold cosine_density. set (k := sin t * sin t) in *. clearbody k. reg.
    + intros pr. rewrite (cosine_integral t (cos t) Hs C1 pr). pose proof (sin2_cos2 t) as Q. unfold Rsqr in Q. replace (1 - cos t * cos t) with (sin t * sin t) by lra. field. lra.
  - split; [|split; [exact F|exact F]]. intros L. eexists. split; [|exact F]. intros p u. unfold cone. cbv beta.
    rewrite (Rabs_right t), (proj2 (Rleb_false t (/ 10 ^ 8))), (proj2 (Rltb_false (PI / 2) t)) by lra. reflexivity.
Qed.
Print Assumptions C116_cone.
(** Lambertian: the cosine law on the whole hemisphere. *)
Theorem C116_lambertian : normalised 0 1 (fun x => 2 * x) /\ falling 0 1 (fun x => 2 * x) lambertian /\ falling 0 1 (fun x => 2 * x) e_lambertian.
Proof.
  pose proof PI_RGT_0. destruct (C116_cone (PI / 2) ltac:(lra)) as (N & _ & F & _). rewrite cos_PI2 in N, F.
  assert (E : forall x, cosine_density (PI / 2) x = 2 * x) by (intros x; unfold cosine_density; rewrite sin_PI2; field).
  assert (Lam : forall p u, 0 <= p <= 1 -> 0 <= u < 1 -> k_sample_phase (PhCone (PI / 2)) p u = lambertian p u) by (intros p u _ _; unfold k_sample_phase, lambertian; rewrite sin_PI2, Rmult_1_r; reflexivity).
  assert (Cx : forall x, continuity_pt (fun x => 2 * x) x) by (intros x; reg).
  assert (I : forall c, c <= 1 -> forall pr : Riemann_integrable (fun x => 2 * x) c 1, RiemannInt pr = 1 - c * c).
  { intros c Hc pr. rewrite (integral (fun x => 2 * x) (fun x => x * x) c 1 Hc); [ring|intros; apply Cx|].
    intros x _. replace (2 * x) with (1 * x + x * 1) by ring. apply (derivable_pt_lim_mult id id); apply derivable_pt_lim_id. }
  assert (Fl : falling 0 1 (fun x => 2 * x) lambertian).
  { apply (falling_ext _ _ _ _ _ Lam) in F. intros c pr f p u Hc Hf Hp Hu. rewrite (I c ltac:(lra) pr).
    destruct (integrable (cosine_density (PI / 2)) c 1 ltac:(lra)) as [pr' _].
    { intros x _. unfold cosine_density. rewrite sin_PI2. reg. }
    destruct (F c pr' f p u Hc Hf Hp Hu) as (A & B & C). rewrite (cosine_integral (PI / 2) c ltac:(rewrite sin_PI2; lra) ltac:(lra) pr') in B. rewrite sin_PI2 in B.
    replace ((1 - c * c) / (1 * 1)) with (1 - c * c) in B by field. auto. }
  split; [|split; [exact Fl|exact Fl]]. split; [intros; lra|]. split; [apply integrable; [lra|intros; apply Cx]|]. intros pr. rewrite (I 0 ltac:(lra) pr). ring.
Qed.
Print Assumptions C116_lambertian.

(** *** Positions *)
(** The disc of radius rho within the circle of radius r is hit with the share of its area, in every
    sector. *)
Theorem C116_circle : forall r rho f u1 u2, 0 < r -> 0 <= rho <= r -> 0 <= f <= 1 -> 0 <= u1 < 1 -> 0 <= u2 < 1 ->
  let v := circular_mask r u1 u2 in
  (vx v * vx v + vy v * vy v <= rho * rho <-> u2 <= (PI * (rho * rho)) / (PI * (r * r))) /\
  (0 < u2 -> exists a, azimuth v a /\ (a <= 2 * PI * f <-> u1 <= f)).
Proof.
  intros r rho f u1 u2 Hr Hrho Hf H1 H2 v. pose proof PI_RGT_0. pose proof (sqrt_sqrt u2 ltac:(lra)) as Sq. split.
  - unfold v, circular_mask, uniform. cbn [vx vy]. set (a := 0 + _). pose proof (sin2_cos2 a) as Q. unfold Rsqr in Q.
    replace (sqrt u2 * r * cos a * (sqrt u2 * r * cos a) + sqrt u2 * r * sin a * (sqrt u2 * r * sin a)) with (sqrt u2 * sqrt u2 * (r * r) * (sin a * sin a + cos a * cos a)) by ring.
    rewrite Q, Sq. replace (PI * (rho * rho) / (PI * (r * r))) with (rho * rho / (r * r)) by (field; lra). assert (P : 0 < r * r) by (now apply Rmult_lt_0_compat).
    set (k := r * r) in *. clearbody k. assert (E : rho * rho / k * k = rho * rho) by (field; lra). split; intros H3.
    + apply Rmult_le_reg_r with k; lra.
    + assert (u2 * k <= rho * rho / k * k) by (apply Rmult_le_compat_r; lra). lra.
  - intros Hp. exists (2 * PI * u1). split; [|now apply sector]. split; [nra|]. exists (sqrt u2 * r). split; [apply Rmult_lt_0_compat; [now apply sqrt_lt_R0|exact Hr]|].
    unfold v, circular_mask, uniform. cbn [vx vy]. replace (0 + (2 * PI - 0) * u1) with (2 * PI * u1) by ring. auto.
Qed.
Print Assumptions C116_circle.
(** Rectangles and cubes: each coordinate has its own draw and is uniform. *)
Theorem C116_rectangle : forall X Y Z a b c u1 u2 u3, 0 < X -> 0 < Y -> 0 < Z ->
  (vx (cube_mask X Y Z u1 u2 u3) <= a <-> u1 <= (a - - X) / (X - - X)) /\
  (vy (cube_mask X Y Z u1 u2 u3) <= b <-> u2 <= (b - - Y) / (Y - - Y)) /\
  (vz (cube_mask X Y Z u1 u2 u3) <= c <-> u3 <= (c - - Z) / (Z - - Z)) /\
  (vx (rectangular_mask X Y u1 u2) <= a <-> u1 <= (a - - X) / (X - - X)) /\
  (vy (rectangular_mask X Y u1 u2) <= b <-> u2 <= (b - - Y) / (Y - - Y)).
Proof.
  intros X Y Z a b c u1 u2 u3 HX HY HZ.
  assert (G : forall L x u, 0 < L -> (uniform (- L) L u <= x <-> u <= (x - - L) / (L - - L))).
  { intros L x u HL. unfold uniform. assert (E : (x - - L) / (L - - L) * (2 * L) = x + L) by (field; lra). split; intros H.
    - apply Rmult_le_reg_r with (2 * L); lra.
    - assert (u * (2 * L) <= (x - - L) / (L - - L) * (2 * L)) by (apply Rmult_le_compat_r; lra). lra. }
  cbn [cube_mask rectangular_mask vx vy vz]. repeat split; apply G; assumption.
Qed.
Print Assumptions C116_rectangle.

(** g = 1/2: half of the light is scattered above cos = 11/16 *)
Example C116_example : hg_mu (1 / 2) (1 / 2) = 11 / 16 /\ hg_mu (1 / 2) 0 = -1 /\ hg_mu (1 / 2) 1 = 1 /\ vz (isotropic 0 (1 / 2)) = 0 /\
  (exists d, henyey_greenstein (1 / 2) (1 / 2) 0 0 = Some d /\ vz d = 11 / 16 /\ azimuth d 0).
Proof.
  assert (A : hg_mu (1 / 2) (1 / 2) = 11 / 16) by (unfold hg_mu; field). pose proof PI_RGT_0.
  split; [exact A|]. split; [unfold hg_mu; field|]. split; [unfold hg_mu; field|]. split; [rewrite isotropic_height; lra|].
  rewrite py_hg by lra. assert (Cz : close_to_zero (1 / 2) = false) by (apply close_to_zero_false; rewrite Rabs_right by lra; unfold EPS_ZERO; lra). rewrite Cz.
  eexists. split; [reflexivity|]. assert (Ca : cos (acos (hg_mu (1 / 2) (1 / 2))) = 11 / 16) by (rewrite cos_acos; [exact A|rewrite A; lra]).
  split; [exact Ca|]. replace 0 with (2 * PI * 0) at 2 by ring. apply azimuth_spherical; [|lra]. apply sin_pos_of_cos; [pose proof (acos_bound (hg_mu (1 / 2) (1 / 2))); lra|]. rewrite Ca. lra.
Qed.
