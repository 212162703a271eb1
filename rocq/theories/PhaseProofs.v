From Coq Require Import Reals Lra Psatz List Bool Arith Lia.
From Verif Require Import Base Vec OpticsProofs PhaseModel.
Import ListNotations.
Open Scope R_scope.

Lemma EPS_ZERO_pos : 0 < EPS_ZERO.
Proof. unfold EPS_ZERO. apply Rdiv_lt_0_compat; lra. Qed.

Lemma spherical_unit theta phi : is_unit (spherical_to_cart theta phi).
Proof.
  unfold is_unit, spherical_to_cart, dot; simpl.
  pose proof (sin_cos_one theta). pose proof (sin_cos_one phi).
  replace (sin theta * cos phi * (sin theta * cos phi) + sin theta * sin phi * (sin theta * sin phi) + cos theta * cos theta)
    with (sin theta * sin theta * (sin phi * sin phi + cos phi * cos phi) + cos theta * cos theta) by ring.
  rewrite H0. lra.
Qed.

Lemma hg_mu_bounds g p : -1 < g < 1 -> g <> 0 -> 0 <= p <= 1 -> -1 <= hg_mu g p <= 1.
Proof.
  intros Hg Hn Hp. unfold hg_mu. cbv zeta. set (s := 2 * p - 1).
  assert (Hs : -1 <= s <= 1) by (unfold s; lra).
  assert (Hd : 0 < 1 + g * s) by nra.
  set (q := (1 - g ^ 2) / (1 + g * s)).
  assert (Hq : q * (1 + g * s) = 1 - g * g) by (unfold q; simpl; field; lra).
  assert (Hq0 : 0 < q) by (unfold q; apply Rdiv_lt_0_compat; simpl; nra).
  set (mu := 1 / (2 * g) * (1 + g ^ 2 - q ^ 2)).
  assert (Hmu : mu * (2 * g) = 1 + g * g - q * q) by (unfold mu; simpl; field; auto).
  assert (Hgs : forall a b, 0 <= a -> b <= 1 + g * s -> a * b <= a * (1 + g * s)) by (intros; now apply Rmult_le_compat_l).
  assert (Hgs' : forall a b, 0 <= a -> 1 + g * s <= b -> a * (1 + g * s) <= a * b) by (intros; now apply Rmult_le_compat_l).
  destruct (Rlt_dec 0 g).
  - pose proof (Hgs (1 + g) (1 - g) ltac:(lra) ltac:(nra)).
    pose proof (Hgs' (1 - g) (1 + g) ltac:(lra) ltac:(nra)). assert (1 - g <= q) by (apply (Rmult_le_reg_r (1 + g * s)); lra).
    assert (q <= 1 + g) by (apply (Rmult_le_reg_r (1 + g * s)); lra).
    assert ((1 - g) * (1 - g) <= q * q) by (apply Rmult_le_compat; lra).
    assert (q * q <= (1 + g) * (1 + g)) by (apply Rmult_le_compat; lra).
    split; apply (Rmult_le_reg_r (2 * g)); lra.
  - pose proof (Hgs (1 - g) (1 + g) ltac:(lra) ltac:(nra)).
    pose proof (Hgs' (1 + g) (1 - g) ltac:(lra) ltac:(nra)).
    assert (q <= 1 - g) by (apply (Rmult_le_reg_r (1 + g * s)); lra).
    assert (1 + g <= q) by (apply (Rmult_le_reg_r (1 + g * s)); lra).
    assert ((1 + g) * (1 + g) <= q * q) by (apply Rmult_le_compat; lra).
    assert (q * q <= (1 - g) * (1 - g)) by (apply Rmult_le_compat; lra).
    split; apply (Rmult_le_reg_r (- (2 * g))); lra.
Qed.

Lemma sqrt01 p : 0 <= p -> p <= 1 -> 0 <= sqrt p <= 1.
Proof. intros. split; [apply sqrt_pos|]. rewrite <- sqrt_1. now apply sqrt_le_1_alt. Qed.

Lemma cos_asin_nonneg x : -1 <= x <= 1 -> 0 <= cos (asin x) /\ cos (asin x) * cos (asin x) = 1 - x * x.
Proof.
  intros Hx. rewrite cos_asin by assumption. split; [apply sqrt_pos|].
  unfold Rsqr. apply sqrt_sqrt. nra.
Qed.

Lemma uniform_range a b u : a <= b -> 0 <= u < 1 -> a <= uniform a b u /\ uniform a b u <= b.
Proof. intros. unfold uniform. nra. Qed.

Lemma light_emit_loop_count fuel : forall n count, (count <= n)%nat -> (n - count < fuel)%nat ->
  light_emit_loop fuel n count = (n - count)%nat.
Proof.
  induction fuel as [|f IH]; intros n count H1 H2; [lia|].
  cbn [light_emit_loop]. destruct (Nat.ltb_spec n (S count)); [lia|].
  rewrite IH by lia. lia.
Qed.
