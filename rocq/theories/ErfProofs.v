(** The error function, defined as (2 / sqrt PI) times the integral of exp(-t^2)
    (scipy.special.erf, used in pvtrace/data/fluro_red.py 84), with its
    derivative, its bounds -1 and 1, and Taylor bounds. *)
From Coq Require Import Reals Lra Lia.
Open Scope R_scope.

Definition bell (t : R) : R := exp (- (t * t)).

Lemma bell_cont : continuity bell.
Proof. intros x. unfold bell. reg. Qed.

Lemma integrable_cont : forall f, continuity f -> forall a b, Riemann_integrable f a b.
Proof.
  intros f Hf a b. destruct (Rle_dec a b) as [Hab|Hab].
  - apply continuity_implies_RiemannInt; [exact Hab|]. intros x _. apply Hf.
  - apply RiemannInt_P1. apply continuity_implies_RiemannInt; [lra|]. intros x _. apply Hf.
Qed.

(** the integral of exp(-t^2) from 0 to x *)
Definition bell_int (x : R) : R := RiemannInt (integrable_cont bell bell_cont 0 x).

(** scipy.special.erf *)
Definition erf (x : R) : R := 2 / sqrt PI * bell_int x.

(** Fundamental theorem for a continuous integrand. *)
Lemma ftc : forall (F f : R -> R) (Hf : continuity f), (forall x, derivable_pt_lim F x (f x)) ->
  forall a b, a <= b -> RiemannInt (integrable_cont f Hf a b) = F b - F a.
Proof.
  intros F f Hf HF a b Hab.
  assert (D : derivable F) by (intros x; exists (f x); apply HF).
  assert (C : continuity (derive F D)).
  { intros x. unfold derive. intros eps He. destruct (Hf x eps He) as (al & Ha & Hx). exists al. split; [exact Ha|].
    intros y Hy. specialize (Hx y Hy). rewrite (derive_pt_eq_0 F y (f y) (D y) (HF y)), (derive_pt_eq_0 F x (f x) (D x) (HF x)). exact Hx. }
  pose (G := mkC1 C).
  assert (I : Riemann_integrable (derive G (diff0 G)) a b) by (apply integrable_cont; exact C).
  rewrite <- (FTC_Riemann G I : RiemannInt I = F b - F a).
  apply RiemannInt_P18; [exact Hab|]. intros x _. cbn. symmetry. apply derive_pt_eq_0. apply HF.
Qed.

(** A primitive of a continuous function is differentiable. *)
Lemma prim_deriv : forall f (Hf : continuity f) a x, derivable_pt_lim (fun y => RiemannInt (integrable_cont f Hf a y)) x (f x).
Proof.
  intros f Hf a x eps He.
  destruct (Hf x (eps / 2) ltac:(lra)) as (al & Ha & Hx).
  exists (mkposreal al Ha). intros h Hh Hl. cbn in Hl.
  assert (E : RiemannInt (integrable_cont f Hf a (x + h)) - RiemannInt (integrable_cont f Hf a x) = RiemannInt (integrable_cont f Hf x (x + h))).
  { rewrite <- (RiemannInt_P26 (integrable_cont f Hf a x) (integrable_cont f Hf x (x + h)) (integrable_cont f Hf a (x + h))). ring. }
  rewrite E. clear E.
  assert (N : forall y, Rabs (y - x) < al -> f x - eps / 2 <= f y <= f x + eps / 2).
  { intros y Hy. destruct (Req_dec y x) as [->|Hn]; [lra|].
    specialize (Hx y). cbn in Hx. unfold R_dist in Hx. assert (Q : Rabs (f y - f x) < eps / 2).
    { apply Hx. split; [|exact Hy]. split; [exact I|]. intros Z. apply Hn. now symmetry. }
    apply Rabs_def2 in Q. lra. }
  assert (B : forall u v, u <= v -> (forall y, u < y < v -> Rabs (y - x) < al) ->
     (f x - eps / 2) * (v - u) <= RiemannInt (integrable_cont f Hf u v) <= (f x + eps / 2) * (v - u)).
  { intros u v Huv Hy. split.
    - rewrite <- (RiemannInt_P15 (RiemannInt_P14 u v (f x - eps / 2))). apply RiemannInt_P19; [exact Huv|].
      intros y Hr. unfold fct_cte. apply N. now apply Hy.
    - rewrite <- (RiemannInt_P15 (RiemannInt_P14 u v (f x + eps / 2))). apply RiemannInt_P19; [exact Huv|].
      intros y Hr. unfold fct_cte. apply N. now apply Hy. }
  assert (Q : Rabs (RiemannInt (integrable_cont f Hf x (x + h)) - f x * h) <= eps / 2 * Rabs h).
  { destruct (Rle_dec 0 h) as [H0|H0].
    - rewrite (Rabs_right h) in * by lra. specialize (B x (x + h) ltac:(lra)). destruct B as [B1 B2].
      { intros y Hy. apply Rabs_def1; lra. }
      replace (x + h - x) with h in * by ring. apply Rabs_le. lra.
    - rewrite (Rabs_left h) in * by lra. specialize (B (x + h) x ltac:(lra)). destruct B as [B1 B2].
      { intros y Hy. apply Rabs_def1; lra. }
      rewrite (RiemannInt_P8 (integrable_cont f Hf x (x + h)) (integrable_cont f Hf (x + h) x)).
      replace (x - (x + h)) with (- h) in * by ring. apply Rabs_le. lra. }
  replace (RiemannInt (integrable_cont f Hf x (x + h)) / h - f x) with ((RiemannInt (integrable_cont f Hf x (x + h)) - f x * h) / h) by (field; exact Hh).
  unfold Rdiv. rewrite Rabs_mult. rewrite Rabs_inv.
  pose proof (Rabs_pos_lt h Hh) as Hp.
  apply Rle_lt_trans with (eps / 2 * Rabs h * / Rabs h).
  - apply Rmult_le_compat_r; [left; now apply Rinv_0_lt_compat|exact Q].
  - rewrite Rmult_assoc, Rinv_r by lra. lra.
Qed.

Lemma bell_int_deriv : forall x, derivable_pt_lim bell_int x (bell x).
Proof. intros x. apply prim_deriv. Qed.

Lemma bell_int_0 : bell_int 0 = 0.
Proof. apply RiemannInt_P9. Qed.

Lemma bell_pos : forall t, 0 < bell t.
Proof. intros. apply exp_pos. Qed.

(** ** Bounds *)
Definition slice (x t : R) : R := exp (- (x * x) * (1 + t * t)) / (1 + t * t).
Definition slice' (x t : R) : R := exp (- (x * x) * (1 + t * t)).
Lemma s_pos : forall t, 0 < 1 + t * t. Proof. intros. nra. Qed.
Lemma slice_cont : forall x, continuity (slice x).
Proof. intros x t. unfold slice. pose proof (s_pos t). reg. lra. Qed.
Lemma slice'_cont : forall x, continuity (slice' x).
Proof. intros x t. unfold slice'. reg. Qed.
Definition slab (x : R) : R := RiemannInt (integrable_cont (slice x) (slice_cont x) 0 1).
Definition slab' (x : R) : R := RiemannInt (integrable_cont (slice' x) (slice'_cont x) 0 1).

Lemma exp_quad : forall u, u <= 1 / 2 -> 1 + u <= exp u <= 1 + u + 2 * (u * u).
Proof.
  intros u Hu. split; [apply exp_ineq1_le|].
  pose proof (exp_ineq1_le (- u)) as Q. pose proof (exp_pos u) as P. rewrite exp_Ropp in Q.
  assert (R1 : (1 - u) * exp u <= 1).
  { apply Rmult_le_compat_r with (r := exp u) in Q; [|lra]. rewrite Rinv_l in Q by lra. lra. }
  assert (1 <= (1 - u) * (1 + u + 2 * (u * u))) by nra. nra.
Qed.

Lemma slice_step : forall x d t, 0 <= t <= 1 -> Rabs d <= 1 / 4 -> 0 <= x * x + d -> exp (- (x * x + d) * (1 + t * t)) / (1 + t * t) - slice x t + d * slice' x t <= 4 * (d * d) /\
  - (4 * (d * d)) <= exp (- (x * x + d) * (1 + t * t)) / (1 + t * t) - slice x t + d * slice' x t.
Proof.
  intros x d t Ht Hd Hx. unfold slice, slice'. pose proof (s_pos t) as Hs. set (s := 1 + t * t) in *.
  assert (Hs2 : 1 <= s <= 2) by (unfold s; nra). clearbody s.
  replace (- (x * x + d) * s) with (- (x * x) * s + - (d * s)) by ring. rewrite exp_plus.
  set (e := exp (- (x * x) * s)). assert (He : 0 < e <= 1).
  { split; [apply exp_pos|]. unfold e. rewrite <- exp_0. destruct (Req_dec (x * x) 0) as [Z|Z].
    - rewrite Z. right. f_equal. ring.
    - left. apply exp_increasing. assert (0 < x * x) by nra. nra. }
  clearbody e.
  assert (Hd1 : -1/4 <= d <= 1/4) by (apply Rabs_le_inv in Hd || (unfold Rabs in Hd; destruct (Rcase_abs d)); lra).
  assert (Q : 1 + - (d * s) <= exp (- (d * s)) <= 1 + - (d * s) + 2 * (- (d * s) * - (d * s))) by (apply exp_quad; nra).
  set (w := exp (- (d * s))) in *. clearbody w.
  replace (e * w / s - e / s + d * e) with (e * (w - 1 + d * s) / s) by (field; lra).
  assert (B0 : 0 <= w - 1 + d * s) by lra.
  assert (B1 : w - 1 + d * s <= 2 * (d * d) * (s * s)) by (replace (2 * (d * d) * (s * s)) with (2 * (- (d * s) * - (d * s))) by ring; lra).
  assert (P0 : 0 <= e * (w - 1 + d * s) / s).
  { apply Rmult_le_pos; [nra|]. left. apply Rinv_0_lt_compat. lra. }
  split; [|pose proof (Rle_0_sqr d); unfold Rsqr in *; lra].
  apply Rle_trans with (2 * (d * d) * (s * s) / s).
  - apply Rmult_le_compat_r; [left; apply Rinv_0_lt_compat; lra|].
    assert (0 <= d * d) by (apply Rle_0_sqr). nra.
  - replace (2 * (d * d) * (s * s) / s) with (2 * (d * d) * s) by (field; lra).
    assert (0 <= d * d) by (apply Rle_0_sqr). nra.
Qed.

Lemma int_lin2 : forall f g k (Hf : continuity f) (Hg : continuity g) (Hh : continuity (fun x => f x + k * g x)) a b,
  RiemannInt (integrable_cont _ Hh a b) = RiemannInt (integrable_cont f Hf a b) + k * RiemannInt (integrable_cont g Hg a b).
Proof. intros. apply RiemannInt_P13. Qed.

Lemma H_step : forall x h, Rabs (2 * x * h + h * h) <= 1 / 4 ->
  Rabs (slab (x + h) - slab x + (2 * x * h + h * h) * slab' x) <= 4 * ((2 * x * h + h * h) * (2 * x * h + h * h)).
Proof.
  intros x h Hd. set (d := 2 * x * h + h * h) in *.
  assert (Ed : (x + h) * (x + h) = x * x + d) by (unfold d; ring).
  assert (C1 : continuity (fun t => slice (x + h) t + -1 * slice x t)).
  { apply continuity_plus; [apply slice_cont|]. apply (continuity_scal (slice x) (-1)). apply slice_cont. }
  assert (C2 : continuity (fun t => (slice (x + h) t + -1 * slice x t) + d * slice' x t)).
  { apply (continuity_plus (fun t => slice (x + h) t + -1 * slice x t)); [exact C1|]. apply (continuity_scal (slice' x) d). apply slice'_cont. }
  assert (E : slab (x + h) - slab x + d * slab' x = RiemannInt (integrable_cont _ C2 0 1)).
  { rewrite (int_lin2 _ _ d C1 (slice'_cont x) C2). rewrite (int_lin2 _ _ (-1) (slice_cont (x + h)) (slice_cont x) C1). unfold slab, slab'. ring. }
  rewrite E. clear E.
  assert (P : forall t, 0 < t < 1 -> - (4 * (d * d)) <= slice (x + h) t + -1 * slice x t + d * slice' x t <= 4 * (d * d)).
  { intros t Ht. pose proof (slice_step x d t ltac:(lra) Hd) as Q. 
    assert (Q0 : 0 <= x * x + d) by (rewrite <- Ed; apply Rle_0_sqr). specialize (Q Q0). 
    replace (slice (x + h) t) with (exp (- (x * x + d) * (1 + t * t)) / (1 + t * t)) by (unfold slice; now rewrite Ed). lra. }
  apply Rabs_le. split.
  - replace (- (4 * (d * d))) with (- (4 * (d * d)) * (1 - 0)) by ring.
    rewrite <- (RiemannInt_P15 (RiemannInt_P14 0 1 (- (4 * (d * d))))). apply RiemannInt_P19; [lra|].
    intros t Ht. unfold fct_cte. now apply P.
  - replace (4 * (d * d)) with (4 * (d * d) * (1 - 0)) by ring.
    rewrite <- (RiemannInt_P15 (RiemannInt_P14 0 1 (4 * (d * d)))). apply RiemannInt_P19; [lra|].
    intros t Ht. unfold fct_cte. now apply P.
Qed.

Lemma J_bell : forall x, x * slab' x = bell x * bell_int x.
Proof.
  intros x.
  assert (C : continuity (fun t => x * bell (x * t))).
  { apply (continuity_scal (fun t => bell (x * t)) x). intros t. unfold bell. reg. }
  assert (D : forall t, derivable_pt_lim (fun t => bell_int (x * t)) t (x * bell (x * t))).
  { intros t. rewrite Rmult_comm. apply (derivable_pt_lim_comp (fun t => x * t) bell_int).
    - pose proof (derivable_pt_lim_scal id x t 1 (derivable_pt_lim_id t)) as Q. rewrite Rmult_1_r in Q. exact Q.
    - apply bell_int_deriv. }
  pose proof (ftc _ _ C D 0 1 ltac:(lra)) as E. cbv beta in E. rewrite Rmult_1_r, Rmult_0_r, bell_int_0, Rminus_0_r in E.
  rewrite <- E.
  set (k := bell x).
  assert (C2 : continuity (fun t => fct_cte 0 t + k * (x * bell (x * t)))).
  { apply continuity_plus; [intros t; apply continuity_const; now intros ? ?|]. apply (continuity_scal (fun t => x * bell (x * t)) k). exact C. }
  assert (C0 : continuity (fct_cte 0)) by (intros t; apply continuity_const; now intros ? ?).
  assert (C3 : continuity (fun t => fct_cte 0 t + x * slice' x t)).
  { apply continuity_plus; [exact C0|]. apply (continuity_scal (slice' x) x). apply slice'_cont. }
  assert (Z : RiemannInt (integrable_cont _ C0 0 1) = 0) by (rewrite RiemannInt_P15; ring).
  pose proof (int_lin2 _ _ k C0 C C2 0 1) as E2. pose proof (int_lin2 _ _ x C0 (slice'_cont x) C3 0 1) as E3.
  rewrite Z, Rplus_0_l in E2, E3. unfold slab'. rewrite <- E2, <- E3.
  apply RiemannInt_P18; [lra|]. intros t _. unfold k, slice', bell, fct_cte.
  replace (- (x * x) * (1 + t * t)) with (- (x * x) + - (x * t * (x * t))) by ring. rewrite exp_plus. ring.
Qed.

Lemma H_deriv : forall x, derivable_pt_lim slab x (-2 * (bell x * bell_int x)).
Proof.
  intros x eps He. rewrite <- J_bell.
  set (A := 1 + 2 * Rabs x). assert (HA : 1 <= A) by (unfold A; pose proof (Rabs_pos x); lra).
  set (K := Rabs (slab' x) + 4 * (A * A) + 1). assert (HK : 1 <= K) by (unfold K; pose proof (Rabs_pos (slab' x)); nra).
  assert (Hdl : 0 < Rmin (Rmin 1 (/ (4 * A))) (eps / (2 * K))).
  { apply Rmin_pos; [apply Rmin_pos; [lra|apply Rinv_0_lt_compat; lra]|]. apply Rdiv_lt_0_compat; lra. }
  exists (mkposreal _ Hdl). intros h Hh Hl. cbn in Hl.
  assert (L1 : Rabs h < 1) by (eapply Rlt_le_trans; [exact Hl|]; eapply Rle_trans; [apply Rmin_l|apply Rmin_l]).
  assert (L2 : Rabs h < / (4 * A)) by (eapply Rlt_le_trans; [exact Hl|]; eapply Rle_trans; [apply Rmin_l|apply Rmin_r]).
  assert (L3 : Rabs h < eps / (2 * K)) by (eapply Rlt_le_trans; [exact Hl|]; apply Rmin_r).
  pose proof (Rabs_pos_lt h Hh) as Hp.
  set (d := 2 * x * h + h * h).
  assert (Bd : Rabs d <= A * Rabs h).
  { unfold d. eapply Rle_trans; [apply Rabs_triang|]. rewrite !Rabs_mult, (Rabs_right 2) by lra. unfold A. nra. }
  assert (Bd4 : Rabs d <= 1 / 4).
  { eapply Rle_trans; [exact Bd|]. apply Rle_trans with (A * / (4 * A)); [apply Rmult_le_compat_l; lra|]. right. field. lra. }
  pose proof (H_step x h Bd4) as S. fold d in S.
  replace ((slab (x + h) - slab x) / h - -2 * (x * slab' x)) with (((slab (x + h) - slab x + d * slab' x) - h * h * slab' x) / h) by (unfold d; field; exact Hh).
  unfold Rdiv. rewrite Rabs_mult, Rabs_inv.
  assert (Q : Rabs (slab (x + h) - slab x + d * slab' x - h * h * slab' x) <= K * (Rabs h * Rabs h)).
  { unfold Rminus at 1. eapply Rle_trans; [apply Rabs_triang|]. rewrite Rabs_Ropp, !Rabs_mult.
    assert (d * d <= A * A * (Rabs h * Rabs h)).
    { replace (d * d) with (Rabs d * Rabs d) by (rewrite <- Rabs_mult; apply Rabs_right; apply Rle_ge, Rle_0_sqr).
      pose proof (Rabs_pos d). replace (A * A * (Rabs h * Rabs h)) with ((A * Rabs h) * (A * Rabs h)) by ring. apply Rmult_le_compat; lra. }
    unfold K. nra. }
  apply Rle_lt_trans with (K * (Rabs h * Rabs h) * / Rabs h).
  { apply Rmult_le_compat_r; [left; now apply Rinv_0_lt_compat|exact Q]. }
  replace (K * (Rabs h * Rabs h) * / Rabs h) with (K * Rabs h) by (field; lra).
  apply Rlt_le_trans with (K * (eps / (2 * K))); [apply Rmult_lt_compat_l; lra|].
  replace (K * (eps / (2 * K))) with (eps / 2) by (field; lra). lra.
Qed.

Lemma H_0 : slab 0 = PI / 4.
Proof.
  assert (C : continuity (fun t => / (1 + t ^ 2))).
  { intros t. assert (1 + t ^ 2 <> 0) by (simpl; nra). reg. }
  pose proof (ftc atan _ C derivable_pt_lim_atan 0 1 ltac:(lra)) as E. rewrite atan_1, atan_0, Rminus_0_r in E. rewrite <- E.
  unfold slab. apply RiemannInt_P18; [lra|]. intros t _. unfold slice. replace (- (0 * 0) * (1 + t * t)) with 0 by ring. rewrite exp_0.
  unfold Rdiv. rewrite Rmult_1_l. f_equal. ring.
Qed.

Lemma H_pos : forall x, 0 < slab x.
Proof.
  intros x. apply Rlt_le_trans with (exp (- (x * x) * 2) / 2 * (1 - 0)).
  - rewrite Rminus_0_r, Rmult_1_r. apply Rdiv_lt_0_compat; [apply exp_pos|lra].
  - rewrite <- (RiemannInt_P15 (RiemannInt_P14 0 1 (exp (- (x * x) * 2) / 2))). apply RiemannInt_P19; [lra|].
    intros t Ht. unfold fct_cte, slice.
    assert (Hs : 1 <= 1 + t * t <= 2) by nra.
    assert (Q : exp (- (x * x) * 2) <= exp (- (x * x) * (1 + t * t))).
    { destruct (Req_dec (- (x * x) * 2) (- (x * x) * (1 + t * t))) as [Z|Z]; [rewrite Z; lra|]. left. apply exp_increasing.
      assert (0 <= x * x) by apply Rle_0_sqr. nra. }
    unfold Rdiv. apply Rmult_le_compat; [left; apply exp_pos|lra|exact Q|]. apply Rinv_le_contravar; lra.
Qed.

(** The Gaussian integral. *)
Lemma bell_square : forall x, bell_int x * bell_int x + slab x = PI / 4.
Proof.
  intros x. set (G := fun x => bell_int x * bell_int x + slab x).
  assert (D : forall y, derivable_pt_lim G y 0).
  { intros y. replace 0 with ((bell y * bell_int y + bell_int y * bell y) + -2 * (bell y * bell_int y)) by ring.
    apply (derivable_pt_lim_plus (fun x => bell_int x * bell_int x) slab); [|apply H_deriv].
    apply (derivable_pt_lim_mult bell_int bell_int); apply bell_int_deriv. }
  assert (K : constant G).
  { apply (null_derivative_1 G (fun y => exist _ 0 (D y))). intros y. apply derive_pt_eq_0. apply D. }
  assert (E : G x = G 0) by apply K. unfold G in E. rewrite E, bell_int_0, H_0. ring.
Qed.

Lemma sqrt_PI_pos : 0 < sqrt PI.
Proof. apply sqrt_lt_R0. apply PI_RGT_0. Qed.

Lemma erf_bounds : forall x, -1 < erf x < 1.
Proof.
  intros x. pose proof (bell_square x) as E. pose proof (H_pos x) as P. pose proof sqrt_PI_pos as S.
  assert (Q : sqrt PI * sqrt PI = PI) by (apply sqrt_sqrt; left; apply PI_RGT_0).
  unfold erf. set (g := bell_int x) in *.
  assert (B : - (sqrt PI / 2) < g < sqrt PI / 2) by (split; nra).
  assert (U : 2 / sqrt PI * (sqrt PI / 2) = 1) by (field; lra).
  assert (0 < 2 / sqrt PI) by (apply Rdiv_lt_0_compat; lra).
  split; nra.
Qed.

Lemma erf_deriv : forall x, derivable_pt_lim erf x (2 / sqrt PI * bell x).
Proof. intros x. apply (derivable_pt_lim_scal bell_int (2 / sqrt PI)). apply bell_int_deriv. Qed.

(** ** Taylor bounds *)
Lemma dl_eq : forall f x l l', derivable_pt_lim f x l -> l = l' -> derivable_pt_lim f x l'.
Proof. intros f x l l' D <-. exact D. Qed.
Lemma dl_expn : forall x, derivable_pt_lim (fun x => exp (- x)) x (- exp (- x)).
Proof.
  intros x. eapply dl_eq.
  - apply (derivable_pt_lim_comp (fun x => - x) exp); [|apply derivable_pt_lim_exp].
    apply (derivable_pt_lim_opp id). apply derivable_pt_lim_id.
  - cbv beta. ring.
Qed.
Ltac dl := match goal with
  | |- derivable_pt_lim (fun x => @?f x + @?g x) _ _ => apply (derivable_pt_lim_plus f g); dl
  | |- derivable_pt_lim (fun x => @?f x - @?g x) _ _ => apply (derivable_pt_lim_minus f g); dl
  | |- derivable_pt_lim (fun x => @?f x * @?g x) _ _ => apply (derivable_pt_lim_mult f g); dl
  | |- derivable_pt_lim (fun x => exp (- x)) _ _ => apply dl_expn
  | |- derivable_pt_lim (fun x => bell_int x) _ _ => apply bell_int_deriv
  | |- derivable_pt_lim (fun x => x) _ _ => apply derivable_pt_lim_id
  | |- derivable_pt_lim (fun x => ?c) _ _ => apply derivable_pt_lim_const
  end.
Lemma mono0 : forall f f' : R -> R, (forall x, derivable_pt_lim f x (f' x)) -> (forall x, 0 <= x -> 0 <= f' x) -> f 0 = 0 ->
  forall x, 0 <= x -> 0 <= f x.
Proof.
  intros f f' D P Z x Hx. destruct Hx as [Hx|<-]; [|lra].
  destruct (MVT_cor2 f f' 0 x Hx) as (c & E & Hc); [intros; apply D|]. specialize (P c ltac:(lra)). nra.
Qed.
Definition T3 u := 1 - u + u * u * (1/2) - u * u * u * (1/6).
Definition T4 u := T3 u + u * u * u * u * (1/24).
Definition T5 u := T4 u - u * u * u * u * u * (1/120).
Definition T6 u := T5 u + u * u * u * u * u * u * (1/720).
Lemma exp_T : forall u, 0 <= u -> T5 u <= exp (- u) <= T6 u.
Proof.
  assert (E0 : forall u, 0 <= u -> exp (- u) <= 1).
  { intros u [Hu|<-]; [|rewrite Ropp_0, exp_0; lra]. rewrite <- exp_0. left. apply exp_increasing. lra. }
  assert (E1 : forall u, 0 <= u -> 0 <= exp (- u) - (1 - u)).
  { apply mono0 with (f' := fun u => 1 - exp (- u)).
    - intros x. eapply dl_eq; [dl|]. cbv beta. ring.
    - intros x Hx. specialize (E0 x Hx). lra.
    - rewrite Ropp_0, exp_0. ring. }
  assert (E2 : forall u, 0 <= u -> 0 <= (1 - u + u * u * (1/2)) - exp (- u)).
  { apply mono0 with (f' := fun u => exp (- u) - (1 - u)); [|exact E1|rewrite Ropp_0, exp_0; field].
    intros x. eapply dl_eq; [dl|]. cbv beta. field. }
  assert (E3 : forall u, 0 <= u -> 0 <= exp (- u) - T3 u).
  { apply mono0 with (f' := fun u => (1 - u + u * u * (1/2)) - exp (- u)); [|exact E2|unfold T3; rewrite Ropp_0, exp_0; field].
    intros x. unfold T3. eapply dl_eq; [dl|]. cbv beta. field. }
  assert (E4 : forall u, 0 <= u -> 0 <= T4 u - exp (- u)).
  { apply mono0 with (f' := fun u => exp (- u) - T3 u); [|exact E3|unfold T4, T3; rewrite Ropp_0, exp_0; field].
    intros x. unfold T4, T3. eapply dl_eq; [dl|]. cbv beta. field. }
  assert (E5 : forall u, 0 <= u -> 0 <= exp (- u) - T5 u).
  { apply mono0 with (f' := fun u => T4 u - exp (- u)); [|exact E4|unfold T5, T4, T3; rewrite Ropp_0, exp_0; field].
    intros x. unfold T5, T4, T3. eapply dl_eq; [dl|]. cbv beta. field. }
  assert (E6 : forall u, 0 <= u -> 0 <= T6 u - exp (- u)).
  { apply mono0 with (f' := fun u => exp (- u) - T5 u); [|exact E5|unfold T6, T5, T4, T3; rewrite Ropp_0, exp_0; field].
    intros x. unfold T6, T5, T4, T3. eapply dl_eq; [dl|]. cbv beta. field. }
  intros u Hu. specialize (E5 u Hu). specialize (E6 u Hu). lra.
Qed.

(** x times these is the integral of the Taylor polynomials, at u = x^2 *)
Definition I5 u := 1 - u * (1/3) + u * u * (1/10) - u * u * u * (1/42) + u * u * u * u * (1/216) - u * u * u * u * u * (1/1320).
Definition I6 u := I5 u + u * u * u * u * u * u * (1/9360).
Lemma bell_int_T : forall x, 0 <= x -> x * I5 (x * x) <= bell_int x <= x * I6 (x * x).
Proof.
  assert (L : forall x, 0 <= x -> 0 <= bell_int x - x * I5 (x * x)).
  { apply mono0 with (f' := fun x => bell x - T5 (x * x)).
    - intros x. unfold I5. eapply dl_eq; [dl|]. unfold T5, T4, T3. cbv beta. field.
    - intros x Hx. pose proof (exp_T (x * x) ltac:(nra)). unfold bell. lra.
    - rewrite bell_int_0. ring. }
  assert (U : forall x, 0 <= x -> 0 <= x * I6 (x * x) - bell_int x).
  { apply mono0 with (f' := fun x => T6 (x * x) - bell x).
    - intros x. unfold I6, I5. eapply dl_eq; [dl|]. unfold T6, T5, T4, T3. cbv beta. field.
    - intros x Hx. pose proof (exp_T (x * x) ltac:(nra)). unfold bell. lra.
    - rewrite bell_int_0. ring. }
  intros x Hx. specialize (L x Hx). specialize (U x Hx). lra.
Qed.

Lemma bell_int_odd : forall x, bell_int (- x) = - bell_int x.
Proof.
  intros x. set (G := fun x => bell_int (- x) + bell_int x).
  assert (D : forall y, derivable_pt_lim G y 0).
  { intros y. eapply dl_eq.
    - apply (derivable_pt_lim_plus (fun x => bell_int (- x)) bell_int); [|apply bell_int_deriv].
      apply (derivable_pt_lim_comp (fun x => - x) bell_int); [|apply bell_int_deriv].
      apply (derivable_pt_lim_opp id). apply derivable_pt_lim_id.
    - cbv beta. unfold bell. replace (- y * - y) with (y * y) by ring. ring. }
  assert (K : constant G).
  { apply (null_derivative_1 G (fun y => exist _ 0 (D y))). intros y. apply derive_pt_eq_0. apply D. }
  assert (E : G x = G 0) by apply K. unfold G in E. rewrite Ropp_0, bell_int_0 in E. lra.
Qed.

Lemma PI_bounds : 314158 / 100000 < PI < 314160 / 100000.
Proof.
  pose proof (PI_2_3_7_ineq 2) as Q. cbv [sum_f_R0 tg_alt PI_2_3_7_tg Ratan_seq Nat.mul Nat.add pow] in Q.
  repeat rewrite ?S_INR in Q. simpl (INR 0) in Q. split; lra.
Qed.

(** ** The tail of the integral *)
Definition tail (y : R) : R := sqrt PI / 2 + bell_int y.
Lemma erf_tail : forall y, 1 + erf y = 2 / sqrt PI * tail y.
Proof. intros y. unfold erf, tail. field. pose proof sqrt_PI_pos. lra. Qed.
Lemma tail_pos : forall y, 0 < tail y.
Proof.
  intros y. pose proof (erf_bounds y). pose proof (erf_tail y) as E. pose proof sqrt_PI_pos.
  assert (0 < 2 / sqrt PI) by (apply Rdiv_lt_0_compat; lra). assert (0 < 2 / sqrt PI * tail y) by lra. nra.
Qed.
Lemma tail_deriv : forall y, derivable_pt_lim tail y (bell y).
Proof.
  intros y. apply dl_eq with (0 + bell y); [|ring]. unfold tail. 
  apply (derivable_pt_lim_plus (fun _ => sqrt PI / 2) bell_int); [apply derivable_pt_lim_const|apply bell_int_deriv].
Qed.
Lemma slab_le : forall x, slab x <= bell x.
Proof.
  intros x. apply Rle_trans with (bell x * (1 - 0)); [|lra].
  rewrite <- (RiemannInt_P15 (RiemannInt_P14 0 1 (bell x))). apply RiemannInt_P19; [lra|].
  intros t Ht. unfold fct_cte, slice, bell.
  assert (Hs : 1 <= 1 + t * t <= 2) by nra.
  assert (Q : exp (- (x * x) * (1 + t * t)) <= exp (- (x * x))).
  { destruct (Req_dec (- (x * x) * (1 + t * t)) (- (x * x))) as [Z|Z]; [rewrite Z; lra|]. left. apply exp_increasing.
    assert (0 <= x * x) by apply Rle_0_sqr. assert (- (x * x) * (1 + t * t) <= - (x * x)) by nra. lra. }
  pose proof (exp_pos (- (x * x) * (1 + t * t))).
  apply Rle_trans with (exp (- (x * x) * (1 + t * t)) * 1); [|lra]. apply Rmult_le_compat_l; [lra|].
  rewrite <- Rinv_1. apply Rinv_le_contravar; lra.
Qed.
Lemma tail_small : forall z, 0 < z -> tail (- z) <= 2 / (z * z).
Proof.
  intros z Hz. unfold tail. rewrite bell_int_odd.
  pose proof (bell_square z) as E. pose proof (slab_le z) as L. pose proof sqrt_PI_pos as S.
  assert (Q : sqrt PI * sqrt PI = PI) by (apply sqrt_sqrt; left; apply PI_RGT_0).
  assert (B : 0 <= bell_int z). { pose proof (mono0 bell_int bell bell_int_deriv (fun x _ => Rlt_le _ _ (bell_pos x)) bell_int_0 z). lra. }
  assert (Bz : bell z <= / (z * z)).
  { unfold bell. rewrite exp_Ropp. apply Rinv_le_contravar; [nra|]. pose proof (exp_ineq1_le (z * z)). lra. }
  assert (P3 : 1 <= sqrt PI). { rewrite <- sqrt_1. apply sqrt_le_1; pose proof PI_bounds; lra. }
  assert (F : (sqrt PI / 2 + - bell_int z) * (sqrt PI / 2 + bell_int z) = slab z) by nra.
  assert (Z : 0 < / (z * z)) by (apply Rinv_0_lt_compat; nra).
  unfold Rdiv at 2. set (t := sqrt PI / 2 + - bell_int z) in *.
  destruct (Rle_dec t 0); [lra|]. nra.
Qed.

(** Mills' inequality *)
Lemma mills : forall y, y < 0 -> tail y < bell y / (-2 * y).
Proof.
  pose (q := fun y => bell y / (-2 * y) - tail y).
  assert (D : forall y, y < 0 -> derivable_pt_lim q y (bell y / (2 * (y * y)))).
  { intros y Hy. eapply dl_eq.
    - apply (derivable_pt_lim_minus (fun y => bell y / (-2 * y)) tail); [|apply tail_deriv].
      apply (derivable_pt_lim_div bell (fun y => -2 * y)).
      + apply (derivable_pt_lim_comp (fun y => - (y * y)) exp); [|apply derivable_pt_lim_exp].
        apply (derivable_pt_lim_opp (fun y => y * y)). apply (derivable_pt_lim_mult id id); apply derivable_pt_lim_id.
      + apply (derivable_pt_lim_mult (fun _ => -2) id); [apply derivable_pt_lim_const|apply derivable_pt_lim_id].
      + lra.
    - cbv beta. fold (bell y). unfold Rsqr, id. field. lra. }
  assert (Inc : forall u v, u < v -> v < 0 -> q u < q v).
  { intros u v Huv Hv. destruct (MVT_cor2 q (fun y => bell y / (2 * (y * y))) u v Huv) as (m & Em & Hm).
    { intros m Hm. apply D. lra. }
    assert (0 < bell m / (2 * (m * m))). { apply Rdiv_lt_0_compat; [apply bell_pos|nra]. } nra. }
  intros y Hy. destruct (Rlt_dec (tail y) (bell y / (-2 * y))) as [Hl|Hl]; [exact Hl|exfalso].
  assert (Q0 : q y <= 0) by (unfold q; lra).
  pose proof (Inc (y - 1) y ltac:(lra) Hy) as Q1. set (dl := - q (y - 1)). assert (Hdl : 0 < dl) by (unfold dl; lra).
  set (z := Rmax (2 - y) (1 + 2 / dl)).
  assert (Z1 : 2 - y <= z) by apply Rmax_l. assert (Z2 : 1 + 2 / dl <= z) by apply Rmax_r.
  assert (D2 : 0 < 2 / dl) by (apply Rdiv_lt_0_compat; lra).
  pose proof (Inc (- z) (y - 1) ltac:(lra) ltac:(lra)) as Q2.
  pose proof (tail_small z ltac:(lra)) as S.
  assert (B : 0 < bell (- z) / (-2 * - z)) by (apply Rdiv_lt_0_compat; [apply bell_pos|lra]).
  assert (Lq : q (- z) < - dl) by (unfold dl; lra). change (bell (- z) / (-2 * - z) - tail (- z) < - dl) in Lq.
  assert (L : dl < tail (- z)) by lra.
  assert (U : 2 / (z * z) <= dl).
  { apply Rmult_le_reg_r with (z * z); [nra|]. replace (2 / (z * z) * (z * z)) with 2 by (field; lra).
    assert (dl * (2 / dl) = 2) by (field; lra). assert (2 <= dl * z) by nra. nra. }
  lra.
Qed.

(** the ratio of the tail to the integrand *)
Definition ratio (y : R) : R := tail y * exp (y * y).
Lemma bell_exp : forall y, bell y * exp (y * y) = 1.
Proof. intros y. unfold bell. rewrite <- exp_plus. replace (- (y * y) + y * y) with 0 by ring. apply exp_0. Qed.
Lemma ratio_deriv : forall y, derivable_pt_lim ratio y (1 + 2 * y * ratio y).
Proof.
  intros y. unfold ratio. eapply dl_eq.
  - apply (derivable_pt_lim_mult tail (fun y => exp (y * y))); [apply tail_deriv|].
    apply (derivable_pt_lim_comp (fun y => y * y) exp); [|apply derivable_pt_lim_exp].
    apply (derivable_pt_lim_mult id id); apply derivable_pt_lim_id.
  - cbv beta. rewrite bell_exp. unfold id. ring.
Qed.
Lemma ratio_increasing : forall u v, u < v -> ratio u < ratio v.
Proof.
  intros u v Huv. destruct (MVT_cor2 ratio (fun y => 1 + 2 * y * ratio y) u v Huv) as (m & Em & Hm); [intros; apply ratio_deriv|].
  assert (0 < 1 + 2 * m * ratio m).
  { unfold ratio. pose proof (tail_pos m). pose proof (exp_pos (m * m)). destruct (Rle_dec 0 m) as [Hp|Hp].
    - assert (0 <= tail m * exp (m * m)) by nra. nra.
    - pose proof (mills m ltac:(lra)) as Q.
      apply Rmult_lt_compat_r with (r := -2 * m * exp (m * m)) in Q; [|apply Rmult_lt_0_compat; lra].
      replace (bell m / (-2 * m) * (-2 * m * exp (m * m))) with (bell m * exp (m * m)) in Q by (field; lra). rewrite bell_exp in Q. lra. }
  nra.
Qed.
Lemma ratio_cont : continuity ratio.
Proof. intros y. apply derivable_continuous_pt. exists (1 + 2 * y * ratio y). apply ratio_deriv. Qed.
