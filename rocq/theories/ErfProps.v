(** C97 for the Fluro Red emission with the true error function. *)
From Coq Require Import Reals Lra Lia List.
From Verif Require Import Base DistModel DistSpec DyeModel DyeProps ErfProofs.
Import ListNotations.
Open Scope R_scope.

(** ** The exponentially modified Gaussian of fluro_red.py 81-85 *)
Section Emg.
Variables a b c d : R.
Hypothesis Ha : 0 < a. Hypothesis Hc : 0 < c. Hypothesis Hd : 0 < d.
Let y (x : R) : R := ((x - b) / c - c / d) / sqrt 2.
Let f (x : R) : R := emg erf x a b c d.
Let level : R := d / (sqrt 2 * c).

Lemma r2 : 0 < sqrt 2 /\ sqrt 2 * sqrt 2 = 2.
Proof. split; [apply sqrt_lt_R0; lra|apply sqrt_sqrt; lra]. Qed.

Lemma f_tail : forall x, f x = a * c * sqrt 2 / d * (exp (c * c / (2 * (d * d)) - (x - b) / d) * tail (y x)).
Proof.
  intros x. destruct r2 as [R0 R1]. unfold f, emg. cbv zeta. rewrite Rabs_right by lra. replace (d / d) with 1 by (field; lra).
  replace ((x - b) / (sqrt 2 * c) - c / (sqrt 2 * d)) with (y x) by (unfold y; field; lra).
  rewrite erf_tail. rewrite sqrt_mult by (try lra; left; apply PI_RGT_0). field. pose proof sqrt_PI_pos. lra.
Qed.
Lemma f_ratio : forall x, f x = a * exp (- ((x - b) * (x - b) / (2 * (c * c)))) * (ratio (y x) / level).
Proof.
  intros x. destruct r2 as [R0 R1]. rewrite f_tail. unfold ratio, level.
  replace (exp (c * c / (2 * (d * d)) - (x - b) / d)) with (exp (- ((x - b) * (x - b) / (2 * (c * c)))) * exp (y x * y x)).
  { field. lra. }
  rewrite <- exp_plus. f_equal. unfold y.
  replace (((x - b) / c - c / d) / sqrt 2 * (((x - b) / c - c / d) / sqrt 2)) with (((x - b) / c - c / d) * ((x - b) / c - c / d) / (sqrt 2 * sqrt 2)) by (field; lra).
  rewrite R1. field. lra.
Qed.
Lemma f_deriv : forall x, derivable_pt_lim f x (a * c * sqrt 2 / d / d * (exp (c * c / (2 * (d * d)) - (x - b) / d) * bell (y x)) * (level - ratio (y x))).
Proof.
  intros x. destruct r2 as [R0 R1].
  assert (E : forall x, (fun x => a * c * sqrt 2 / d * (exp (c * c / (2 * (d * d)) - (x - b) / d) * tail (y x))) x = f x) by (intros; symmetry; apply f_tail).
  assert (Dy : forall z, derivable_pt_lim y z (1 / (c * sqrt 2))).
  { intros z. unfold y. apply dl_eq with ((1 * (1 / c) - 0) * (1 / sqrt 2) + ((z - b) * (1 / c) - c / d) * 0); [|field; lra].
    intros e He. destruct (derivable_pt_lim_mult (fun x => (x - b) * (1 / c) - c / d) (fun _ => 1 / sqrt 2) z (1 * (1 / c) - 0) 0) with (eps := e) as (dd & Hdd).
    - apply (derivable_pt_lim_minus (fun x => (x - b) * (1 / c)) (fun _ => c / d)); [|apply derivable_pt_lim_const].
      apply dl_eq with (1 * (1 / c) + (z - b) * 0); [|ring].
      apply (derivable_pt_lim_mult (fun x => x - b) (fun _ => 1 / c)); [|apply derivable_pt_lim_const].
      apply dl_eq with (1 - 0); [|ring]. apply (derivable_pt_lim_minus id (fun _ => b)); [apply derivable_pt_lim_id|apply derivable_pt_lim_const].
    - apply derivable_pt_lim_const.
    - exact He.
    - exists dd. intros h H0 H1. specialize (Hdd h H0 H1). unfold mult_fct in Hdd.
      replace (((z + h - b) / c - c / d) / sqrt 2) with (((z + h - b) * (1 / c) - c / d) * (1 / sqrt 2)) by (field; lra).
      replace (((z - b) / c - c / d) / sqrt 2) with (((z - b) * (1 / c) - c / d) * (1 / sqrt 2)) by (field; lra). exact Hdd. }
  assert (Dl : forall z, derivable_pt_lim (fun x => c * c / (2 * (d * d)) - (x - b) / d) z (- (1 / d))).
  { intros z e He. exists (mkposreal 1 ltac:(lra)). intros h H0 _.
    replace ((c * c / (2 * (d * d)) - (z + h - b) / d - (c * c / (2 * (d * d)) - (z - b) / d)) / h - - (1 / d)) with 0 by (field; lra).
    rewrite Rabs_R0. exact He. }
  assert (D : derivable_pt_lim (fun x => a * c * sqrt 2 / d * (exp (c * c / (2 * (d * d)) - (x - b) / d) * tail (y x))) x
     (a * c * sqrt 2 / d / d * (exp (c * c / (2 * (d * d)) - (x - b) / d) * bell (y x)) * (level - ratio (y x)))).
  { eapply dl_eq.
    - apply (derivable_pt_lim_scal (fun x => exp (c * c / (2 * (d * d)) - (x - b) / d) * tail (y x)) (a * c * sqrt 2 / d)).
      apply (derivable_pt_lim_mult (fun x => exp (c * c / (2 * (d * d)) - (x - b) / d)) (fun x => tail (y x))).
      + apply (derivable_pt_lim_comp (fun x => c * c / (2 * (d * d)) - (x - b) / d) exp); [apply Dl|apply derivable_pt_lim_exp].
      + apply (derivable_pt_lim_comp y tail); [apply Dy|apply tail_deriv].
    - cbv beta. unfold level, ratio.
      assert (K : tail (y x) = bell (y x) * (tail (y x) * exp (y x * y x))).
      { replace (bell (y x) * (tail (y x) * exp (y x * y x))) with (tail (y x) * (bell (y x) * exp (y x * y x))) by ring. rewrite bell_exp. ring. }
      rewrite K at 1. set (w := exp (c * c / (2 * (d * d)) - (x - b) / d)). set (m := tail (y x) * exp (y x * y x)).
      field. lra. }
  intros e He. destruct (D e He) as (dd & Hdd). exists dd. intros h H0 H1. rewrite <- !E. exact (Hdd h H0 H1).
Qed.

Lemma y_increasing : forall u v, u < v -> y u < y v.
Proof.
  intros u v Huv. destruct r2 as [R0 R1]. unfold y. apply Rmult_lt_compat_r; [now apply Rinv_0_lt_compat|].
  assert ((u - b) / c < (v - b) / c); [|lra]. apply Rmult_lt_compat_r; [now apply Rinv_0_lt_compat|lra].
Qed.
Lemma y_cont : continuity y.
Proof. intros x. unfold y. destruct r2. reg; lra. Qed.

(** From a bracket of the peak to its shape. *)
Lemma emg_shape : forall lo hi, lo < hi -> ratio (y lo) < level -> level < ratio (y hi) ->
  exists p, lo < p < hi /\ (forall u v, u < v <= p -> f u < f v) /\ (forall u v, p <= u < v -> f v < f u) /\
            f p = a * exp (- ((p - b) * (p - b) / (2 * (c * c)))).
Proof.
  intros lo hi Hlh Hlo Hhi. destruct r2 as [R0 R1].
  assert (L0 : 0 < level) by (unfold level; apply Rdiv_lt_0_compat; nra).
  pose (g := fun x => ratio (y x) - level).
  assert (Cg : continuity g).
  { intros x. unfold g. apply continuity_pt_minus; [|apply continuity_const; now intros ? ?].
    apply (continuity_pt_comp y ratio); [apply y_cont|apply ratio_cont]. }
  destruct (IVT g lo hi Cg Hlh) as (p & [P1 P2] & Pz); [unfold g; lra|unfold g; lra|].
  assert (Np : ratio (y p) = level) by (unfold g in Pz; lra).
  assert (P1' : lo < p). { destruct P1 as [P1|P1]; [exact P1|]. subst p. lra. }
  assert (P2' : p < hi). { destruct P2 as [P2|P2]; [exact P2|]. subst p. lra. }
  exists p. split; [lra|].
  assert (K : forall x, 0 < a * c * sqrt 2 / d / d * (exp (c * c / (2 * (d * d)) - (x - b) / d) * bell (y x))).
  { intros x. apply Rmult_lt_0_compat.
    - apply Rdiv_lt_0_compat; [|lra]. apply Rdiv_lt_0_compat; [|lra]. apply Rmult_lt_0_compat; [|lra]. apply Rmult_lt_0_compat; lra.
    - apply Rmult_lt_0_compat; [apply exp_pos|apply bell_pos]. }
  split; [|split].
  - intros u v [Huv Hv]. destruct (MVT_cor2 f _ u v Huv (fun m _ => f_deriv m)) as (m & Em & Hm).
    assert (ratio (y m) < level) by (rewrite <- Np; apply ratio_increasing, y_increasing; lra).
    specialize (K m). set (k := a * c * sqrt 2 / d / d * (exp (c * c / (2 * (d * d)) - (m - b) / d) * bell (y m))) in *. clearbody k. 
    assert (0 < k * (level - ratio (y m))) by (apply Rmult_lt_0_compat; lra). nra.
  - intros u v [Hu Huv]. destruct (MVT_cor2 f _ u v Huv (fun m _ => f_deriv m)) as (m & Em & Hm).
    assert (level < ratio (y m)) by (rewrite <- Np; apply ratio_increasing, y_increasing; lra).
    specialize (K m). set (k := a * c * sqrt 2 / d / d * (exp (c * c / (2 * (d * d)) - (m - b) / d) * bell (y m))) in *. clearbody k. 
    assert (k * (level - ratio (y m)) < 0) by nra. nra.
  - rewrite f_ratio, Np. field. lra.
Qed.

(** The sign of ratio - level at [x], for rational arguments: with w = (c / d - (x - b) / c),
    z = w / sqrt 2 = - y. *)
Lemma ratio_lt_level : forall x w, w = c / d - (x - b) / c -> 0 < w ->
  sqrt PI / 2 < w / sqrt 2 * I5 (w * w / 2) + d / (sqrt 2 * c) * T5 (w * w / 2) -> ratio (y x) < level.
Proof.
  intros x w Ew Hw Q. destruct r2 as [R0 R1]. set (z := w / sqrt 2) in *.
  assert (Hz : 0 < z) by (unfold z; apply Rdiv_lt_0_compat; lra).
  assert (Ey : y x = - z) by (unfold y, z; rewrite Ew; field; lra).
  assert (Zz : z * z = w * w / 2). { unfold z. replace (w / sqrt 2 * (w / sqrt 2)) with (w * w / (sqrt 2 * sqrt 2)) by (field; lra). now rewrite R1. }
  pose proof (bell_int_T z ltac:(lra)) as [B _]. pose proof (exp_T (z * z) ltac:(nra)) as [T _]. rewrite Zz in B, T.
  rewrite Ey. unfold ratio, tail. rewrite bell_int_odd. replace (- z * - z) with (z * z) by ring.
  pose proof (bell_exp z) as Be. pose proof (exp_pos (z * z)) as Pe. unfold bell in Be. rewrite Zz in *.
  assert (L0 : 0 < d / (sqrt 2 * c)) by (apply Rdiv_lt_0_compat; nra). fold level in Q, L0.
  set (e := exp (w * w / 2)) in *. set (e' := exp (- (w * w / 2))) in *.
  assert (S : sqrt PI / 2 + - bell_int z < level * e') by nra.
  apply Rmult_lt_compat_r with (r := e) in S; [|exact Pe]. replace (level * e' * e) with (level * (e' * e)) in S by ring. rewrite Be in S. lra.
Qed.
Lemma level_lt_ratio : forall x w, w = c / d - (x - b) / c -> 0 < w ->
  w / sqrt 2 * I6 (w * w / 2) + d / (sqrt 2 * c) * T6 (w * w / 2) < sqrt PI / 2 -> level < ratio (y x).
Proof.
  intros x w Ew Hw Q. destruct r2 as [R0 R1]. set (z := w / sqrt 2) in *.
  assert (Hz : 0 < z) by (unfold z; apply Rdiv_lt_0_compat; lra).
  assert (Ey : y x = - z) by (unfold y, z; rewrite Ew; field; lra).
  assert (Zz : z * z = w * w / 2). { unfold z. replace (w / sqrt 2 * (w / sqrt 2)) with (w * w / (sqrt 2 * sqrt 2)) by (field; lra). now rewrite R1. }
  pose proof (bell_int_T z ltac:(lra)) as [_ B]. pose proof (exp_T (z * z) ltac:(nra)) as [_ T]. rewrite Zz in B, T.
  rewrite Ey. unfold ratio, tail. rewrite bell_int_odd. replace (- z * - z) with (z * z) by ring.
  pose proof (bell_exp z) as Be. pose proof (exp_pos (z * z)) as Pe. unfold bell in Be. rewrite Zz in *.
  assert (L0 : 0 < d / (sqrt 2 * c)) by (apply Rdiv_lt_0_compat; nra). fold level in Q, L0.
  set (e := exp (w * w / 2)) in *. set (e' := exp (- (w * w / 2))) in *.
  assert (S : level * e' < sqrt PI / 2 + - bell_int z) by nra.
  apply Rmult_lt_compat_r with (r := e) in S; [|exact Pe]. replace (level * e' * e) with (level * (e' * e)) in S by ring. rewrite Be in S. lra.
Qed.
End Emg.

(** ** Fluro Red *)
Lemma sqrt_PI_bounds : 177245 / 100000 < sqrt PI < 177246 / 100000.
Proof.
  pose proof PI_bounds. pose proof sqrt_PI_pos.
  assert (Q : sqrt PI * sqrt PI = PI) by (apply sqrt_sqrt; left; apply PI_RGT_0). split; nra.
Qed.
Lemma sqrt2_bounds : 14142135 / 10000000 < sqrt 2 < 14142136 / 10000000.
Proof. destruct r2 as [A B]. split; nra. Qed.

Definition fa := 11477763237584664 / 10 ^ 16.
Definition fb := 59206478874548839 / 10 ^ 14.
Definition fc := 19981040318195117 / 10 ^ 15.
Definition fd := 12723704058786568 / 10 ^ 15.
Lemma f_consts : fa = 11477763237584664 / 10000000000000000 /\ fb = 59206478874548839 / 100000000000000 /\
  fc = 19981040318195117 / 1000000000000000 /\ fd = 12723704058786568 / 1000000000000000.
Proof. unfold fa, fb, fc, fd. repeat split; lra. Qed.

Lemma mul_in u h a b c d : a <= u <= b -> c <= h <= d -> 0 <= a -> 0 <= c -> a * c <= u * h <= b * d.
Proof. intros. split; apply Rmult_le_compat; lra. Qed.
Lemma lower_bracket : ratio (((60233 / 100 - fb) / fc - fc / fd) / sqrt 2) < fd / (sqrt 2 * fc).
Proof.
  destruct f_consts as (Ea & Eb & Ec & Ed).
  apply (ratio_lt_level fb fc fd ltac:(rewrite Ec; lra) ltac:(rewrite Ed; lra) _ (fc / fd - (60233 / 100 - fb) / fc) eq_refl).
  - rewrite Eb, Ec, Ed. lra.
  - pose proof sqrt_PI_bounds as S. pose proof sqrt2_bounds as R. destruct r2 as [R0 R1].
    assert (Ek : / sqrt 2 = sqrt 2 / 2). { apply Rmult_eq_reg_l with (sqrt 2); [|lra]. rewrite Rinv_r by lra. lra. }
    set (w := fc / fd - (60233 / 100 - fb) / fc).
    replace (w / sqrt 2 * I5 (w * w / 2) + fd / (sqrt 2 * fc) * T5 (w * w / 2)) with (/ sqrt 2 * (w * I5 (w * w / 2) + fd / fc * T5 (w * w / 2))) by (field; split; [rewrite Ec; lra|lra]).
    rewrite Ek. assert (V : 125334 / 100000 < w * I5 (w * w / 2) + fd / fc * T5 (w * w / 2)).
    { assert (Bw : 10566316 / 10000000 <= w <= 10566317 / 10000000) by (unfold w; rewrite Eb, Ec, Ed; lra).
    assert (Bk : 6367888 / 10000000 <= fd / fc <= 6367889 / 10000000) by (rewrite Ec, Ed; lra).
    assert (Bu : 5582351 / 10000000 <= w * w / 2 <= 5582353 / 10000000) by (split; nra).
    set (u := w * w / 2) in *. set (k := fd / fc) in *. clearbody u k w. clear Eb Ec Ed Ea.
    assert (Bt4 : 370147 / 10000000 <= 1 / 24 - u * (1 / 120) <= 370148 / 10000000) by lra.
    set (t4 := 1 / 24 - u * (1 / 120)) in *.
    pose proof (mul_in _ _ _ _ _ _ Bu Bt4 ltac:(lra) ltac:(lra)) as Mt3.
    assert (Bt3 : 1460036 / 10000000 <= 1 / 6 - u * t4 <= 1460038 / 10000000) by lra. clear Mt3.
    set (t3 := 1 / 6 - u * t4) in *.
    pose proof (mul_in _ _ _ _ _ _ Bu Bt3 ltac:(lra) ltac:(lra)) as Mt2.
    assert (Bt2 : 4184955 / 10000000 <= 1 / 2 - u * t3 <= 4184957 / 10000000) by lra. clear Mt2.
    set (t2 := 1 / 2 - u * t3) in *.
    pose proof (mul_in _ _ _ _ _ _ Bu Bt2 ltac:(lra) ltac:(lra)) as Mt1.
    assert (Bt1 : 7663809 / 10000000 <= 1 / 1 - u * t2 <= 7663812 / 10000000) by lra. clear Mt1.
    set (t1 := 1 / 1 - u * t2) in *.
    pose proof (mul_in _ _ _ _ _ _ Bu Bt1 ltac:(lra) ltac:(lra)) as Mt0.
    assert (Bt0 : 5721789 / 10000000 <= 1 / 1 - u * t1 <= 5721793 / 10000000) by lra. clear Mt0.
    set (t0 := 1 / 1 - u * t1) in *.
    assert (Bi4 : 42067 / 10000000 <= 1 / 216 - u * (1 / 1320) <= 42068 / 10000000) by lra.
    set (i4 := 1 / 216 - u * (1 / 1320)) in *.
    pose proof (mul_in _ _ _ _ _ _ Bu Bi4 ltac:(lra) ltac:(lra)) as Mi3.
    assert (Bi3 : 214611 / 10000000 <= 1 / 42 - u * i4 <= 214612 / 10000000) by lra. clear Mi3.
    set (i3 := 1 / 42 - u * i4) in *.
    pose proof (mul_in _ _ _ _ _ _ Bu Bi3 ltac:(lra) ltac:(lra)) as Mi2.
    assert (Bi2 : 880196 / 10000000 <= 1 / 10 - u * i3 <= 880197 / 10000000) by lra. clear Mi2.
    set (i2 := 1 / 10 - u * i3) in *.
    pose proof (mul_in _ _ _ _ _ _ Bu Bi2 ltac:(lra) ltac:(lra)) as Mi1.
    assert (Bi1 : 2841976 / 10000000 <= 1 / 3 - u * i2 <= 2841978 / 10000000) by lra. clear Mi1.
    set (i1 := 1 / 3 - u * i2) in *.
    pose proof (mul_in _ _ _ _ _ _ Bu Bi1 ltac:(lra) ltac:(lra)) as Mi0.
    assert (Bi0 : 8413507 / 10000000 <= 1 / 1 - u * i1 <= 8413510 / 10000000) by lra. clear Mi0.
    set (i0 := 1 / 1 - u * i1) in *.
    assert (ET : T5 u = t0) by (unfold t0, t1, t2, t3, t4, T5, T4, T3; field).
    assert (EI : I5 u = i0) by (unfold i0, i1, i2, i3, i4, I5; field).
    rewrite ET, EI.
    pose proof (mul_in _ _ _ _ _ _ Bw Bi0 ltac:(lra) ltac:(lra)) as P1. pose proof (mul_in _ _ _ _ _ _ Bk Bt0 ltac:(lra) ltac:(lra)) as P2.
      lra. }
    nra.
Qed.
Lemma upper_bracket : fd / (sqrt 2 * fc) < ratio (((60235 / 100 - fb) / fc - fc / fd) / sqrt 2).
Proof.
  destruct f_consts as (Ea & Eb & Ec & Ed).
  apply (level_lt_ratio fb fc fd ltac:(rewrite Ec; lra) ltac:(rewrite Ed; lra) _ (fc / fd - (60235 / 100 - fb) / fc) eq_refl).
  - rewrite Eb, Ec, Ed. lra.
  - pose proof sqrt_PI_bounds as S. pose proof sqrt2_bounds as R. destruct r2 as [R0 R1].
    assert (Ek : / sqrt 2 = sqrt 2 / 2). { apply Rmult_eq_reg_l with (sqrt 2); [|lra]. rewrite Rinv_r by lra. lra. }
    set (w := fc / fd - (60235 / 100 - fb) / fc).
    replace (w / sqrt 2 * I6 (w * w / 2) + fd / (sqrt 2 * fc) * T6 (w * w / 2)) with (/ sqrt 2 * (w * I6 (w * w / 2) + fd / fc * T6 (w * w / 2))) by (field; split; [rewrite Ec; lra|lra]).
    rewrite Ek. assert (V : w * I6 (w * w / 2) + fd / fc * T6 (w * w / 2) < 125320 / 100000).
    { assert (Bw : 10556306 / 10000000 <= w <= 10556307 / 10000000) by (unfold w; rewrite Eb, Ec, Ed; lra).
    assert (Bk : 6367888 / 10000000 <= fd / fc <= 6367889 / 10000000) by (rewrite Ec, Ed; lra).
    assert (Bu : 5571779 / 10000000 <= w * w / 2 <= 5571781 / 10000000) by (split; nra).
    set (u := w * w / 2) in *. set (k := fd / fc) in *. clearbody u k w. clear Eb Ec Ed Ea.
    assert (Bt5 : 75594 / 10000000 <= 1 / 120 - u * (1 / 720) <= 75595 / 10000000) by lra.
    set (t5 := 1 / 120 - u * (1 / 720)) in *.
    pose proof (mul_in _ _ _ _ _ _ Bu Bt5 ltac:(lra) ltac:(lra)) as Mt4.
    assert (Bt4 : 374546 / 10000000 <= 1 / 24 - u * t5 <= 374548 / 10000000) by lra. clear Mt4.
    set (t4 := 1 / 24 - u * t5) in *.
    pose proof (mul_in _ _ _ _ _ _ Bu Bt4 ltac:(lra) ltac:(lra)) as Mt3.
    assert (Bt3 : 1457976 / 10000000 <= 1 / 6 - u * t4 <= 1457978 / 10000000) by lra. clear Mt3.
    set (t3 := 1 / 6 - u * t4) in *.
    pose proof (mul_in _ _ _ _ _ _ Bu Bt3 ltac:(lra) ltac:(lra)) as Mt2.
    assert (Bt2 : 4187646 / 10000000 <= 1 / 2 - u * t3 <= 4187648 / 10000000) by lra. clear Mt2.
    set (t2 := 1 / 2 - u * t3) in *.
    pose proof (mul_in _ _ _ _ _ _ Bu Bt2 ltac:(lra) ltac:(lra)) as Mt1.
    assert (Bt1 : 7666734 / 10000000 <= 1 / 1 - u * t2 <= 7666737 / 10000000) by lra. clear Mt1.
    set (t1 := 1 / 1 - u * t2) in *.
    pose proof (mul_in _ _ _ _ _ _ Bu Bt1 ltac:(lra) ltac:(lra)) as Mt0.
    assert (Bt0 : 5728262 / 10000000 <= 1 / 1 - u * t1 <= 5728266 / 10000000) by lra. clear Mt0.
    set (t0 := 1 / 1 - u * t1) in *.
    assert (Bi5 : 6980 / 10000000 <= 1 / 1320 - u * (1 / 9360) <= 6981 / 10000000) by lra.
    set (i5 := 1 / 1320 - u * (1 / 9360)) in *.
    pose proof (mul_in _ _ _ _ _ _ Bu Bi5 ltac:(lra) ltac:(lra)) as Mi4.
    assert (Bi4 : 42406 / 10000000 <= 1 / 216 - u * i5 <= 42408 / 10000000) by lra. clear Mi4.
    set (i4 := 1 / 216 - u * i5) in *.
    pose proof (mul_in _ _ _ _ _ _ Bu Bi4 ltac:(lra) ltac:(lra)) as Mi3.
    assert (Bi3 : 214466 / 10000000 <= 1 / 42 - u * i4 <= 214468 / 10000000) by lra. clear Mi3.
    set (i3 := 1 / 42 - u * i4) in *.
    pose proof (mul_in _ _ _ _ _ _ Bu Bi3 ltac:(lra) ltac:(lra)) as Mi2.
    assert (Bi2 : 880503 / 10000000 <= 1 / 10 - u * i3 <= 880505 / 10000000) by lra. clear Mi2.
    set (i2 := 1 / 10 - u * i3) in *.
    pose proof (mul_in _ _ _ _ _ _ Bu Bi2 ltac:(lra) ltac:(lra)) as Mi1.
    assert (Bi1 : 2842735 / 10000000 <= 1 / 3 - u * i2 <= 2842737 / 10000000) by lra. clear Mi1.
    set (i1 := 1 / 3 - u * i2) in *.
    pose proof (mul_in _ _ _ _ _ _ Bu Bi1 ltac:(lra) ltac:(lra)) as Mi0.
    assert (Bi0 : 8416089 / 10000000 <= 1 / 1 - u * i1 <= 8416091 / 10000000) by lra. clear Mi0.
    set (i0 := 1 / 1 - u * i1) in *.
    assert (ET : T6 u = t0) by (unfold t0, t1, t2, t3, t4, t5, T6, T5, T4, T3; field).
    assert (EI : I6 u = i0) by (unfold i0, i1, i2, i3, i4, i5, I6, I5; field).
    rewrite ET, EI.
    pose proof (mul_in _ _ _ _ _ _ Bw Bi0 ltac:(lra) ltac:(lra)) as P1. pose proof (mul_in _ _ _ _ _ _ Bk Bt0 ltac:(lra) ltac:(lra)) as P2.
      lra. }
    nra.
Qed.

(** ** C97 *)
(** The Fluro Red emission rises to one peak at 602.34 nm and falls after it.  Its height is
    1.0056, not 1. *)
Theorem C97_fluro_emission_peak : exists (f : R -> R) p, (forall xs, fluro_emission erf xs = map f xs) /\
  60233 / 100 < p < 60235 / 100 /\
  (forall u v, u < v <= p -> f u < f v) /\ (forall u v, p <= u < v -> f v < f u) /\
  10053 / 10000 < f p < 10059 / 10000 /\ (forall x, 0 < f x <= f p).
Proof.
  destruct f_consts as (Ea & Eb & Ec & Ed).
  assert (Pa : 0 < fa) by (rewrite Ea; lra). assert (Pc : 0 < fc) by (rewrite Ec; lra). assert (Pd : 0 < fd) by (rewrite Ed; lra).
  destruct (emg_shape fa fb fc fd Pa Pc Pd (60233 / 100) (60235 / 100) ltac:(lra) lower_bracket upper_bracket) as (p & Hp & Up & Dn & Vp).
  exists (fun x => emg erf x fa fb fc fd), p.
  split; [intros xs; reflexivity|]. split; [exact Hp|]. split; [exact Up|]. split; [exact Dn|]. split.
  - rewrite Vp. set (u := (p - fb) * (p - fb) / (2 * (fc * fc))).
    assert (Hu : 13195 / 100000 < u < 13252 / 100000).
    { assert (K : u * (2 * (fc * fc)) = (p - fb) * (p - fb)) by (unfold u; field; lra).
      assert (1026521 / 100000 < p - fb < 1028522 / 100000) by (rewrite Eb; lra).
      assert (105374 / 1000 < (p - fb) * (p - fb) < 105786 / 1000) by (split; nra).
      assert (79848 / 100 < 2 * (fc * fc) < 79849 / 100) by (rewrite Ec; lra).
      assert (0 < u) by nra. split; nra. }
    assert (E : T5 u <= exp (- u) <= T6 u) by (apply exp_T; lra).
    assert (E1 : exp (- u) < exp (- (13195 / 100000))) by (apply exp_increasing; lra).
    assert (E2 : exp (- (13252 / 100000)) < exp (- u)) by (apply exp_increasing; lra).
    pose proof (exp_T (13195 / 100000) ltac:(lra)) as [_ F1]. pose proof (exp_T (13252 / 100000) ltac:(lra)) as [F2 _].
    unfold T6, T5, T4, T3 in F1, F2. rewrite Ea. split; lra.
  - intros x. split.
    + rewrite (f_tail fa fb fc fd Pc Pd). destruct r2. apply Rmult_lt_0_compat.
      * apply Rdiv_lt_0_compat; [|lra]. apply Rmult_lt_0_compat; [|lra]. now apply Rmult_lt_0_compat.
      * apply Rmult_lt_0_compat; [apply exp_pos|apply tail_pos].
    + destruct (Rtotal_order x p) as [Hx|[->|Hx]]; [|lra|].
      * left. apply Up. lra.
      * left. apply Dn. lra.
Qed.
Print Assumptions C97_fluro_emission_peak.

(** So the documented peak value of 1.0 is exceeded on grids that contain the peak. *)
Theorem C97_fluro_emission_peak_refuted : exists xs, increasing xs /\ (2 <= length xs)%nat /\ Forall (fun x => 200 <= x <= 900) xs /\
  ~ Forall (fun y => y <= 1) (fluro_emission erf xs).
Proof.
  destruct C97_fluro_emission_peak as (f & p & E & Hp & _ & _ & Hv & _).
  exists [500; p]. rewrite E. split; [simpl; lra|]. split; [simpl; lia|]. split; [repeat constructor; lra|].
  intros F. inversion F as [|? ? _ F2]; subst. inversion F2; subst. lra.
Qed.
Print Assumptions C97_fluro_emission_peak_refuted.

(** With the true error function the emission of both dyes can be sampled on every grid. *)
Theorem C97_emission_sampled : forall xs, increasing xs -> (2 <= length xs)%nat ->
  exists d d', mk_dist xs (lumogen_emission xs) false = MkOk (DTable false xs (lumogen_emission xs) d) /\ increasing d /\
    mk_dist xs (fluro_emission erf xs) false = MkOk (DTable false xs (fluro_emission erf xs) d') /\ increasing d'.
Proof. intros xs. apply C97_emission_usable. intros y. apply erf_bounds. Qed.
Print Assumptions C97_emission_sampled.

(** The error function is odd, has the derivative (2 / sqrt PI) exp(-x^2), stays within (-1, 1)
    and is fixed by this. *)
Example C97_erf_example : erf 0 = 0 /\ (forall x, derivable_pt_lim erf x (2 / sqrt PI * exp (- (x * x)))) /\ (forall x, -1 < erf x < 1) /\
  (forall x, erf (- x) = - erf x).
Proof.
  split; [unfold erf; rewrite bell_int_0; ring|]. split; [exact erf_deriv|]. split; [exact erf_bounds|].
  intros x. unfold erf. rewrite bell_int_odd. ring.
Qed.
