(** C101-C104: what the studio page draws. *)
From Coq Require Import Reals Lra Lia Psatz ZArith List Bool Arith.
From Verif Require Import Base Vec TallyModel ColourModel BrowserModel.
From Verif Require SpecModel.
Import ListNotations.
Open Scope R_scope.

Lemma floor_spec x : IZR (floor x) <= x < IZR (floor x) + 1.
Proof. unfold floor. destruct (archimed x). rewrite minus_IZR. lra. Qed.
Lemma floor_unique x n : IZR n <= x < IZR n + 1 -> floor x = n.
Proof.
  intros H. pose proof (floor_spec x). assert (n < floor x + 1)%Z by (apply lt_IZR; rewrite plus_IZR; lra).
  assert (floor x < n + 1)%Z by (apply lt_IZR; rewrite plus_IZR; lra). lia.
Qed.
Lemma floor_range x n : 0 <= x < INR n -> (0 <= floor x < Z.of_nat n)%Z.
Proof.
  intros H. pose proof (floor_spec x). rewrite INR_IZR_INZ in H. split.
  - assert (-1 < floor x)%Z by (apply lt_IZR; lra). lia.
  - apply lt_IZR. lra.
Qed.

(** ** The image *)
Section Image.
  Variable A : Type.
  Variable colour : R -> A.
  Variable values : nat -> R.
  Variables na nb : nat.
  Definition column (image : nat -> option A) (ia m : nat) := fold_left (fun image ib => put_pixel image ((nb - 1 - ib) * na + ia)%nat (colour (values (ia * nb + ib)%nat))) (seq 0 m) image.
  Lemma column_spec ia m image : (ia < na)%nat -> (m <= nb)%nat -> forall px py, (px < na)%nat -> (py < nb)%nat ->
    column image ia m (py * na + px)%nat = if (px =? ia)%nat && (nb - m <=? py)%nat then Some (colour (values (px * nb + (nb - 1 - py))%nat)) else image (py * na + px)%nat.
  Proof.
    intros Hia. unfold column. induction m as [|m IH]; intros Hm px py Hpx Hpy.
    - cbn. destruct (Nat.eqb_spec px ia); [|reflexivity]. destruct (Nat.leb_spec (nb - 0) py); [lia|reflexivity].
    - rewrite seq_S, fold_left_app. cbn [plus fold_left]. unfold put_pixel at 1. rewrite IH by lia.
      destruct (Nat.eqb_spec (py * na + px) ((nb - 1 - m) * na + ia)) as [E|N].
      + assert (py = nb - 1 - m)%nat by nia. assert (px = ia) by nia. subst. rewrite Nat.eqb_refl.
        destruct (Nat.leb_spec (nb - S m) (nb - 1 - m)); [|lia]. cbn. do 3 f_equal. lia.
      + destruct (Nat.eqb_spec px ia) as [->|]; [|reflexivity]. cbn. assert (py <> nb - 1 - m)%nat by nia.
        destruct (Nat.leb_spec (nb - m) py), (Nat.leb_spec (nb - S m) py); try reflexivity; lia.
  Qed.
  Lemma draw_spec px py : (px < na)%nat -> (py < nb)%nat ->
    draw_heatmap colour values na nb (py * na + px)%nat = Some (colour (values (px * nb + (nb - 1 - py))%nat)).
  Proof.
    intros Hpx Hpy. unfold draw_heatmap.
    assert (G : forall n image, (n <= na)%nat -> fold_left (fun image ia => column image ia nb) (seq 0 n) image (py * na + px)%nat =
                if (px <? n)%nat then Some (colour (values (px * nb + (nb - 1 - py))%nat)) else image (py * na + px)%nat).
    { induction n as [|n IH]; intros image Hn; [reflexivity|]. rewrite seq_S, fold_left_app. cbn [plus fold_left]. rewrite column_spec by lia. rewrite IH by lia.
      destruct (Nat.leb_spec (nb - nb) py); [|lia]. destruct (Nat.eqb_spec px n), (Nat.ltb_spec px n), (Nat.ltb_spec px (S n)); cbn; try reflexivity; lia. }
    change (fold_left (fun image ia => column image ia nb) (seq 0 na) (fun _ => None) (py * na + px)%nat = Some (colour (values (px * nb + (nb - 1 - py))%nat))).
    rewrite G by lia. destruct (Nat.ltb_spec px na); [reflexivity|lia].
  Qed.
End Image.

(** *** C101 *)
Lemma shown_spec {A} (colour : R -> A) values na nb fx fy : 0 <= fx < 1 -> 0 <= fy < 1 -> (0 < na)%nat -> (0 < nb)%nat ->
  shown (draw_heatmap colour values na nb) na nb fx fy =
  Some (colour (values (Z.to_nat (floor (fx * INR na)) * nb + (nb - 1 - Z.to_nat (floor (fy * INR nb))))%nat)).
Proof.
  intros Hx Hy Na Nb. unfold shown. apply draw_spec.
  - assert (0 <= fx * INR na < INR na) by (pose proof (lt_0_INR na Na); nra). pose proof (floor_range _ _ H). lia.
  - assert (0 <= fy * INR nb < INR nb) by (pose proof (lt_0_INR nb Nb); nra). pose proof (floor_range _ _ H). lia.
Qed.
Lemma flip_floor n y : (0 < n)%nat -> 0 <= y < 1 -> (forall k, (1 <= k)%Z -> y * INR n <> IZR k) ->
  Z.min (Z.of_nat n - 1) (floor ((1 - y) * INR n)) = (Z.of_nat n - 1 - floor (y * INR n))%Z.
Proof.
  intros Hn Hy Hk. pose proof (lt_0_INR n Hn) as P. assert (H : 0 <= y * INR n < INR n) by nra.
  pose proof (floor_range _ _ H) as F. pose proof (floor_spec (y * INR n)) as S. set (t := floor (y * INR n)) in *. clearbody t.
  destruct (Z.eq_dec t 0) as [->|Nt].
  - destruct (Req_dec (y * INR n) 0) as [E|N].
    + rewrite (floor_unique _ (Z.of_nat n)); [lia|]. rewrite <- INR_IZR_INZ. nra.
    + rewrite (floor_unique _ (Z.of_nat n - 1)); [lia|]. rewrite minus_IZR, <- INR_IZR_INZ. nra.
  - rewrite (floor_unique _ (Z.of_nat n - 1 - t)); [lia|]. rewrite !minus_IZR, <- INR_IZR_INZ. specialize (Hk t ltac:(lia)). split; nra.
Qed.

(** The bin shown in the readout always exists. *)
Theorem C101_readout_defined : forall na nb n fx fy, (0 < na)%nat -> (0 < nb)%nat -> (0 < n)%nat -> 0 <= fx < 1 -> 0 <= fy < 1 ->
  (0 <= fst (readout_heatmap na nb fx fy) < Z.of_nat na)%Z /\ (0 <= snd (readout_heatmap na nb fx fy) < Z.of_nat nb)%Z /\
  (0 <= readout_bars n fx < Z.of_nat n)%Z.
Proof.
  intros na nb n fx fy Na Nb Nn Hx Hy.
  assert (G : forall m y, (0 < m)%nat -> 0 <= y -> (0 <= Z.min (Z.of_nat m - 1) (floor (y * INR m)) < Z.of_nat m)%Z).
  { intros m y Hm H. pose proof (lt_0_INR m Hm). pose proof (floor_spec (y * INR m)). assert (-1 < floor (y * INR m))%Z by (apply lt_IZR; nra). lia. }
  unfold readout_heatmap, readout_bars. cbn [fst snd]. repeat split; try (apply G; [assumption|lra]).
Qed.
Print Assumptions C101_readout_defined.

(** The count in the readout of a heatmap is the one whose colour is under the mouse, unless the
    mouse is exactly on the upper edge of a row. *)
Theorem C101_heatmap_readout_partial : forall A (colour : R -> A) values na nb fx fy,
  (0 < na)%nat -> (0 < nb)%nat -> 0 <= fx < 1 -> 0 <= fy < 1 -> (forall k, (1 <= k)%Z -> fy * INR nb <> IZR k) ->
  let '(ia, ib) := readout_heatmap na nb fx fy in
  shown (draw_heatmap colour values na nb) na nb fx fy = Some (colour (values (Z.to_nat ia * nb + Z.to_nat ib)%nat)).
Proof.
  intros A colour values na nb fx fy Na Nb Hx Hy Hk. unfold readout_heatmap. rewrite shown_spec by assumption. rewrite flip_floor by assumption.
  assert (0 <= fx * INR na < INR na) by (pose proof (lt_0_INR na Na); nra). pose proof (floor_range _ _ H).
  assert (0 <= fy * INR nb < INR nb) by (pose proof (lt_0_INR nb Nb); nra). pose proof (floor_range _ _ H1).
  rewrite Z.min_r by lia. do 3 f_equal. f_equal. lia.
Qed.
Print Assumptions C101_heatmap_readout_partial.
(** On the edge it is the row above: with 60 rows on 300 pixels the mouse at pixel 5 is over the
    second row and reads the first. *)
Theorem C101_heatmap_readout_refuted : exists na nb (pixel height : nat) (values : nat -> R), (pixel < height)%nat /\
  let '(ia, ib) := readout_heatmap na nb (1 / 2) (INR pixel / INR height) in
  shown (draw_heatmap (fun v => v) values na nb) na nb (1 / 2) (INR pixel / INR height) <> Some (values (Z.to_nat ia * nb + Z.to_nat ib)%nat).
Proof.
  exists 1%nat, 60%nat, 5%nat, 300%nat, (fun i => INR i). split; [lia|]. unfold readout_heatmap.
  assert (E : INR 5 / INR 300 = 1 / 60) by (rewrite !INR_IZR_INZ; simpl Z.of_nat; lra). rewrite E.
  rewrite shown_spec; [|lra|lra|lia|lia].
  assert (I60 : INR 60 = 60) by (rewrite INR_IZR_INZ; simpl Z.of_nat; lra).
  rewrite (floor_unique (1 / 2 * INR 1) 0) by (simpl; lra). rewrite (floor_unique (1 / 60 * INR 60) 1) by (rewrite I60; lra).
  rewrite (floor_unique ((1 - 1 / 60) * INR 60) 59) by (rewrite I60; lra).
  intros H. injection H as H. lra.
Qed.
Print Assumptions C101_heatmap_readout_refuted.

(** Bars are drawn with a margin of two pixels that the readout ignores: on a canvas of 300 pixels
    with 100 bins the mouse on the first bar reads the second bin. *)
Theorem C101_bar_readout_refuted : exists W n i x, 0 <= x < W /\ (i < n)%nat /\ bar_left W n i <= x <= bar_left W n i + bar_width W n /\
  readout_bars n (x / W) <> Z.of_nat i.
Proof.
  exists 300, 100%nat, 0%nat, 3.
  assert (I : INR 100 = 100) by (rewrite INR_IZR_INZ; simpl Z.of_nat; lra).
  split; [lra|]. split; [lia|]. unfold bar_left, bar_width, pad, readout_bars. rewrite I. split.
  - simpl INR. split; [lra|]. pose proof (Rmax_r 1 ((300 - 2 * 2) / 100 - 1)). lra.
  - rewrite (floor_unique _ 1) by lra. cbn. lia.
Qed.
Print Assumptions C101_bar_readout_refuted.
(** The reading is never more than one bar off. *)
Theorem C101_bar_readout_partial : forall W n i x, 2 * pad < W -> (i < n)%nat -> INR n * pad <= W - 2 * pad -> 0 <= x < W ->
  bar_left W n i <= x < bar_left W n i + (W - 2 * pad) / INR n ->
  (Z.abs (readout_bars n (x / W) - Z.of_nat i) <= 1)%Z.
Proof.
  intros W n i x HW Hi Hn Hx [H1 H2]. unfold bar_left, readout_bars in *. set (L := W - 2 * pad) in *. assert (Pp : pad = 2) by reflexivity.
  assert (Pn : 0 < INR n) by (apply lt_0_INR; lia). assert (PL : 0 < L) by (unfold L; lra).
  set (w := L / INR n) in *. assert (Ew : w * INR n = L) by (unfold w; field; lra).
  pose proof (floor_spec (x / W * INR n)) as F. set (f := floor (x / W * INR n)) in *. clearbody f w.
  assert (Ex : (x / W * INR n) * W = x * INR n) by (field; lra). set (q := x / W * INR n) in *. clearbody q.
  assert (Hq : 0 <= q) by nra.
  rewrite INR_IZR_INZ in Ew, Hn, Ex, Pn. rewrite (INR_IZR_INZ i) in H1, H2.
  assert (Pi : (0 <= Z.of_nat i < Z.of_nat n)%Z) by lia. set (N := Z.of_nat n) in *. set (I := Z.of_nat i) in *. clearbody N I.
  (* q lies within (I-1, I+2) *)
  assert (Hlo : IZR I - 1 <= q). { apply (Rmult_le_reg_r W); [lra|]. rewrite Ex. unfold L in *. assert (0 <= IZR I) by (apply IZR_le; lia). assert (IZR I <= IZR N) by (apply IZR_le; lia).
    assert (x * IZR N >= (pad + IZR I * w) * IZR N) by nra. nra. }
  assert (Hhi : q < IZR I + 2). { apply (Rmult_lt_reg_r W); [lra|]. rewrite Ex. unfold L in *. assert (0 <= IZR I) by (apply IZR_le; lia). assert (IZR I + 1 <= IZR N) by (rewrite <- plus_IZR; apply IZR_le; lia).
    assert (x * IZR N < (pad + IZR I * w + w) * IZR N) by nra. nra. }
  assert (I - 2 < f)%Z by (apply lt_IZR; rewrite minus_IZR; lra). assert (f < I + 2)%Z by (apply lt_IZR; rewrite plus_IZR; lra). lia.
Qed.
Print Assumptions C101_bar_readout_partial.

(** *** C102 *)
Ltac inner a := lazymatch a with context [Rle_dec _ _] => fail | _ => idtac end.
Ltac minmax := repeat match goal with |- context [Rle_dec ?a ?b] => inner a; inner b; destruct (Rle_dec a b) end; lra.
Definition gtab (i : nat) : R := green (nth i VIRIDIS (0, 0, 0)).
Definition scaled (t : R) : R := Rmax 0 (Rmin (9999 / 10000) t) * 8.
Lemma scaled_range t : 0 <= scaled t < 8.
Proof.
  unfold scaled. pose proof (Rmax_l 0 (Rmin (9999 / 10000) t)). assert (Rmax 0 (Rmin (9999 / 10000) t) <= 9999 / 10000); [|lra].
  apply Rmax_lub; [lra|apply Rmin_l].
Qed.
Lemma scaled_mono t t' : t <= t' -> scaled t <= scaled t'.
Proof.
  intros H. unfold scaled. apply Rmult_le_compat_r; [lra|]. apply Rmax_lub; [apply Rmax_l|]. apply Rle_trans with (2 := Rmax_r _ _).
  apply Rmin_glb; [apply Rmin_l|]. apply Rle_trans with (1 := Rmin_r _ _). exact H.
Qed.
Lemma scaled_id t : 0 <= t <= 9999 / 10000 -> scaled t = t * 8.
Proof. intros H. unfold scaled. rewrite Rmin_right by lra. rewrite Rmax_right by lra. reflexivity. Qed.
Lemma scaled_strict t t' : t < t' -> 0 < t' -> t < 9999 / 10000 -> scaled t < scaled t'.
Proof.
  intros H H0 H1. unfold scaled. apply Rmult_lt_compat_r; [lra|]. unfold Rmax, Rmin.
  minmax.
Qed.
Lemma floor_idx t : let i := floor (scaled t) in (0 <= i < 8)%Z /\ IZR i <= scaled t < IZR i + 1.
Proof.
  cbv zeta. pose proof (floor_spec (scaled t)). split; [|assumption]. pose proof (scaled_range t).
  assert (-1 < floor (scaled t))%Z by (apply lt_IZR; lra). assert (floor (scaled t) < 8)%Z by (apply lt_IZR; lra). lia.
Qed.
Lemma green_spec t : let i := Z.to_nat (floor (scaled t)) in
  green (viridis t) = gtab i + (scaled t - IZR (floor (scaled t))) * (gtab (S i) - gtab i).
Proof.
  cbv zeta. unfold viridis, gtab. cbv zeta. fold (scaled t). rewrite Nat.add_1_r.
  destruct (nth (Z.to_nat (floor (scaled t))) VIRIDIS (0, 0, 0)) as [[? ?] ?]. destruct (nth (S (Z.to_nat (floor (scaled t)))) VIRIDIS (0, 0, 0)) as [[? ?] ?]. reflexivity.
Qed.
Lemma gtab_step i : (i < 8)%nat -> gtab i < gtab (S i).
Proof. intros H. do 8 (destruct i as [|i]; [unfold gtab, green; cbn; lra|]). lia. Qed.
Lemma gtab_mono i j : (i <= j)%nat -> (j <= 8)%nat -> gtab i <= gtab j.
Proof. induction 1; intros Hj; [lra|]. pose proof (gtab_step m ltac:(lia)). specialize (IHle ltac:(lia)). lra. Qed.
Lemma green_strict t t' : scaled t < scaled t' -> green (viridis t) < green (viridis t').
Proof.
  intros H. rewrite !green_spec. destruct (floor_idx t) as [R1 F1]. destruct (floor_idx t') as [R2 F2].
  set (x := scaled t) in *. set (y := scaled t') in *. set (i := floor x) in *. set (j := floor y) in *. clearbody i j x y.
  assert (Hij : (i <= j)%Z) by (assert (i < j + 1)%Z by (apply lt_IZR; rewrite plus_IZR; lra); lia).
  pose proof (gtab_step (Z.to_nat i) ltac:(lia)) as S1. pose proof (gtab_step (Z.to_nat j) ltac:(lia)) as S2.
  destruct (Z.eq_dec i j) as [->|N].
  - set (a := gtab (Z.to_nat j)) in *. set (b := gtab (S (Z.to_nat j))) in *. clearbody a b. nra.
  - pose proof (gtab_mono (S (Z.to_nat i)) (Z.to_nat j) ltac:(lia) ltac:(lia)) as G.
    set (a := gtab (Z.to_nat i)) in *. set (b := gtab (S (Z.to_nat i))) in *. set (c := gtab (Z.to_nat j)) in *. set (d := gtab (S (Z.to_nat j))) in *. clearbody a b c d. nra.
Qed.
Lemma green_mono t t' : t <= t' -> green (viridis t) <= green (viridis t').
Proof.
  intros H. destruct (Rle_lt_or_eq_dec _ _ (scaled_mono _ _ H)) as [L|E]; [left; exact (green_strict _ _ L)|].
  right. rewrite !green_spec, E. reflexivity.
Qed.
Lemma heatmap_t_range m d v : 0 <= heatmap_t m d v <= 1.
Proof. unfold heatmap_t. destruct (Rleb v 0); [lra|]. split; [apply Rmin_glb; [lra|apply Rmax_l]|apply Rmin_l]. Qed.
Lemma ln10 : 0 < ln 10.
Proof. rewrite <- ln_1. apply ln_increasing; lra. Qed.
Lemma level_mono m d v v' : 0 < m -> 0 < d -> 0 < v < v' -> 1 + ln (v / m) / ln 10 / d < 1 + ln (v' / m) / ln 10 / d.
Proof.
  intros Hm Hd H. pose proof ln10. apply Rplus_lt_compat_l. apply Rmult_lt_compat_r; [apply Rinv_0_lt_compat, Hd|].
  apply Rmult_lt_compat_r; [apply Rinv_0_lt_compat, ln10|]. apply ln_increasing; [apply Rdiv_lt_0_compat; lra|].
  apply Rmult_lt_compat_r; [apply Rinv_0_lt_compat, Hm|lra].
Qed.

(** The common scale covers every count of every heatmap, and is one of them when there are any. *)
Lemma max_acc l m : let r := fold_left (fun m v => if Rltb m v then v else m) l m in
  m <= r /\ (forall v, In v l -> v <= r) /\ (r = m \/ In r l).
Proof.
  cbv zeta. revert m. induction l as [|a l IH]; intros m; cbn [fold_left]; [repeat split; [lra|intros v []|left; reflexivity]|].
  destruct (IH (if Rltb m a then a else m)) as [I1 [I2 I3]]. destruct (Rltb m a) eqn:E.
  - apply Rltb_true in E. repeat split; [lra|intros v [<-|Hv]; [exact I1|exact (I2 v Hv)]|]. destruct I3 as [->|I3]; right; [left; reflexivity|right; exact I3].
  - apply Rltb_false in E. repeat split; [lra|intros v [<-|Hv]; [lra|exact (I2 v Hv)]|]. destruct I3 as [->|I3]; [left; reflexivity|right; right; exact I3].
Qed.
Theorem C102_common_scale : forall entries, let m := heatmap_max entries in
  1 <= m /\ (forall values v, In values entries -> In v values -> v <= m) /\
  ((exists values v, In values entries /\ In v values /\ 1 <= v) -> exists values v, In values entries /\ In v values /\ v = m).
Proof.
  intros entries. cbv zeta. unfold heatmap_max. destruct (max_acc (concat entries) 1) as [A [B C]]. split; [exact A|]. split.
  - intros values v H1 H2. apply B. apply in_concat. exists values. auto.
  - intros [values [v [H1 [H2 H3]]]]. assert (Hv : In v (concat entries)) by (apply in_concat; exists values; auto).
    destruct C as [C|C].
    + exists values, v. split; [exact H1|]. split; [exact H2|]. specialize (B v Hv). lra.
    + apply in_concat in C. destruct C as [vs [C1 C2]]. exists vs. eexists. split; [exact C1|]. split; [exact C2|reflexivity].
Qed.
Print Assumptions C102_common_scale.

Lemma tab_channels i : let '(r, g, b) := nth i VIRIDIS (0, 0, 0) in 0 <= r <= 255 /\ 0 <= g <= 255 /\ 0 <= b <= 255.
Proof. do 9 (destruct i as [|i]; [cbn; lra|]). cbn. destruct i; cbn; lra. Qed.
(** Colours are valid bytes; on every heatmap more rays give a colour that is at least as green, and
    a greener one if the larger count is above the bottom of the scale and the smaller one below
    its top. *)
Theorem C102_colours_ordered : forall m decades v v', 1 <= m -> 0 < decades ->
  (let '(r, g, b) := viridis (heatmap_t m decades v) in 0 <= r <= 255 /\ 0 <= g <= 255 /\ 0 <= b <= 255) /\
  (0 <= v <= v' -> green (viridis (heatmap_t m decades v)) <= green (viridis (heatmap_t m decades v'))) /\
  (0 <= v < v' -> 0 < heatmap_t m decades v' -> heatmap_t m decades v < 9999 / 10000 -> green (viridis (heatmap_t m decades v)) < green (viridis (heatmap_t m decades v'))).
Proof.
  intros m d v v' Hm Hd. split; [|split].
  - set (t := heatmap_t m d v). clearbody t. unfold viridis. cbv zeta. fold (scaled t). destruct (floor_idx t) as [R1 F1]. set (x := scaled t) in *. set (i := floor x) in *. clearbody i x.
    pose proof (tab_channels (Z.to_nat i)) as A. pose proof (tab_channels (Z.to_nat i + 1)) as B.
    destruct (nth (Z.to_nat i) VIRIDIS (0, 0, 0)) as [[a0 a1] a2]. destruct (nth (Z.to_nat i + 1) VIRIDIS (0, 0, 0)) as [[b0 b1] b2].
    repeat split; nra.
  - intros H. apply green_mono. pose proof (heatmap_t_range m d v') as Rg. unfold heatmap_t in *.
    destruct (Rleb v 0) eqn:E; [destruct (Rleb v' 0); lra|]. apply Rleb_false in E. replace (Rleb v' 0) with false by (symmetry; apply Rleb_false; lra).
    assert (L : 1 + ln (v / m) / ln 10 / d <= 1 + ln (v' / m) / ln 10 / d). { destruct (Req_dec v v') as [->|N]; [lra|]. left. apply level_mono; lra. }
    set (a := 1 + ln (v / m) / ln 10 / d) in *. set (b := 1 + ln (v' / m) / ln 10 / d) in *. clearbody a b. unfold Rmin, Rmax.
    minmax.
  - intros H P1 P2. apply green_strict, scaled_strict; [|exact P1|exact P2]. unfold heatmap_t in *.
    destruct (Rleb v 0) eqn:E; [exact P1|]. apply Rleb_false in E. destruct (Rleb v' 0); [lra|].
    pose proof (level_mono m d v v' ltac:(lra) Hd ltac:(lra)) as L.
    set (a := 1 + ln (v / m) / ln 10 / d) in *. set (b := 1 + ln (v' / m) / ln 10 / d) in *. clearbody a b. revert P1 P2. unfold Rmin, Rmax.
    minmax.
Qed.
Print Assumptions C102_colours_ordered.
Lemma level_pos m d v : 0 < m -> 0 < d -> 0 < v -> m < v * exp (d * ln 10) -> 0 < 1 + ln (v / m) / ln 10 / d.
Proof.
  intros Hm Hd Hv H. pose proof ln10 as L. assert (E : ln m < ln v + d * ln 10). { rewrite <- (ln_exp (d * ln 10)), <- ln_mult by (try apply exp_pos; assumption). apply ln_increasing; assumption. }
  unfold Rdiv at 3. rewrite ln_mult by (try apply Rinv_0_lt_compat; assumption). rewrite ln_Rinv by assumption.
  apply (Rmult_lt_reg_r (d * ln 10)); [nra|]. replace ((1 + (ln v + - ln m) / ln 10 / d) * (d * ln 10)) with (d * ln 10 + ln v - ln m) by (field; lra). lra.
Qed.
(** A bin that was hit looks different from an empty one if its count is above the bottom of the
    scale, m / 10 ^ decades. *)
Theorem C102_hit_bins_visible_partial : forall m decades v, 1 <= m -> 0 < decades -> 0 < v -> m < v * Rpower 10 decades ->
  viridis (heatmap_t m decades 0) = (68, 1, 84) /\ viridis (heatmap_t m decades v) <> (68, 1, 84).
Proof.
  intros m d v Hm Hd Hv H. assert (Z0 : heatmap_t m d 0 = 0) by (unfold heatmap_t; rewrite (proj2 (Rleb_true 0 0)) by lra; reflexivity).
  assert (V0 : viridis 0 = (68, 1, 84)).
  { unfold viridis. cbv zeta. fold (scaled 0). rewrite scaled_id by lra. rewrite (floor_unique (0 * 8) 0) by lra. cbn. f_equal; [f_equal|]; lra. }
  rewrite Z0. split; [exact V0|]. rewrite <- V0. intros E. assert (P : 0 < heatmap_t m d v).
  { unfold heatmap_t. replace (Rleb v 0) with false by (symmetry; apply Rleb_false; lra). pose proof (level_pos m d v ltac:(lra) Hd Hv H) as L.
    apply Rmin_glb_lt; [lra|]. apply Rlt_le_trans with (1 := L). apply Rmax_r. }
  pose proof (green_strict 0 (heatmap_t m d v) (scaled_strict _ _ P P ltac:(lra))) as G. rewrite E in G. lra.
Qed.
Print Assumptions C102_hit_bins_visible_partial.
(** Below it looks empty: with the standard three decades and 1000 rays in the fullest bin, a bin
    with one ray. *)
Theorem C102_hit_bins_visible_refuted : exists entries decades values v, In values entries /\ In v values /\ 0 < v /\
  viridis (heatmap_t (heatmap_max entries) decades v) = viridis (heatmap_t (heatmap_max entries) decades 0).
Proof.
  exists [[1000; 1; 0]], 3, [1000; 1; 0], 1. split; [left; reflexivity|]. split; [right; left; reflexivity|]. split; [lra|]. f_equal.
  assert (M : heatmap_max [[1000; 1; 0]] = 1000).
  { unfold heatmap_max. cbn [concat app fold_left]. rewrite (proj2 (Rltb_true 1 1000)) by lra. rewrite (proj2 (Rltb_false 1000 1)) by lra. rewrite (proj2 (Rltb_false 1000 0)) by lra. reflexivity. }
  rewrite M. unfold heatmap_t. rewrite (proj2 (Rleb_true 0 0)) by lra. replace (Rleb 1 0) with false by (symmetry; apply Rleb_false; lra).
  assert (L : ln (1 / 1000) = - (3 * ln 10)). { replace (1 / 1000) with (/ (10 * 10 * 10)) by lra. rewrite ln_Rinv by lra. rewrite !ln_mult by lra. ring. }
  rewrite L. pose proof ln10. replace (1 + - (3 * ln 10) / ln 10 / 3) with 0 by (field; lra). rewrite Rmax_left by lra. apply Rmin_right. lra.
Qed.
Print Assumptions C102_hit_bins_visible_refuted.
Example C102_example : heatmap_t 1000 3 1000 = 1 /\ viridis (1 / 2) = (33, 144, 141).
Proof.
  split.
  - unfold heatmap_t. replace (Rleb 1000 0) with false by (symmetry; apply Rleb_false; lra). replace (1000 / 1000) with 1 by lra. rewrite ln_1. pose proof ln10.
    replace (1 + 0 / ln 10 / 3) with 1 by (field; lra). rewrite Rmax_right by lra. apply Rmin_left. lra.
  - unfold viridis. cbv zeta. fold (scaled (1 / 2)). rewrite scaled_id by lra. rewrite (floor_unique (1 / 2 * 8) 4) by lra. change (Z.to_nat 4) with 4%nat. cbn [nth VIRIDIS Nat.add]. f_equal; [f_equal|]; lra.
Qed.

(** *** C103 *)
Lemma trunc_int w : trunc (IZR w) = w.
Proof.
  unfold trunc. destruct (Rleb 0 (IZR w)) eqn:E.
  - pose proof (floor_unique (IZR w) w ltac:(lra)) as F. exact F.
  - pose proof (floor_unique (- IZR w) (- w)%Z ltac:(rewrite opp_IZR; lra)) as F. unfold floor in F. lia.
Qed.
Lemma trunc3 a b c a' b' c' : a = a' -> b = b' -> c = c' -> (trunc a, trunc b, trunc c) = (trunc a', trunc b', trunc c').
Proof. intros -> -> ->. reflexivity. Qed.
(** Between 440 and 700 nm, at whole nanometres, the colour of bars and of the Python viewer are the same
    byte for byte. *)
Theorem C103_same_colour_partial : forall w, (440 <= w <= 700)%Z ->
  let '(r, g, b) := wavelength_to_color (IZR w) 0 in wavelength_to_rgb (IZR w) = (trunc (255 * r), trunc (255 * g), trunc (255 * b)).
Proof.
  intros w H. unfold wavelength_to_rgb. rewrite trunc_int. assert (Hr : 440 <= IZR w <= 700) by (split; apply IZR_le; lia).
  unfold wavelength_to_color, wavelength_base, base_colour, intensity. cbv zeta.
  rewrite (proj2 (Rltb_false (IZR w) 380)) by lra. rewrite (proj2 (Rltb_false 780 (IZR w))) by lra. rewrite (proj2 (Rltb_false (IZR w) 440)) by lra.
  replace ((380 <=? w)%Z && (w <? 440)%Z) with false by lia. replace ((440 <=? w)%Z) with true by lia.
  replace ((380 <=? w)%Z && (w <? 420)%Z) with false by lia. replace ((420 <=? w)%Z && (w <=? 700)%Z) with true by lia. cbn [andb].
  destruct (Z.ltb_spec w 490).
  { assert (IZR w <= 489) by (apply IZR_le; lia). rewrite (proj2 (Rltb_true (IZR w) 490)) by lra. apply trunc3; field. }
  assert (490 <= IZR w) by (apply IZR_le; lia). rewrite (proj2 (Rltb_false (IZR w) 490)) by lra. replace ((490 <=? w)%Z) with true by lia. cbn [andb].
  destruct (Z.ltb_spec w 510).
  { assert (IZR w <= 509) by (apply IZR_le; lia). rewrite (proj2 (Rltb_true (IZR w) 510)) by lra. apply trunc3; field. }
  assert (510 <= IZR w) by (apply IZR_le; lia). rewrite (proj2 (Rltb_false (IZR w) 510)) by lra. replace ((510 <=? w)%Z) with true by lia. cbn [andb].
  destruct (Z.ltb_spec w 580).
  { assert (IZR w <= 579) by (apply IZR_le; lia). rewrite (proj2 (Rltb_true (IZR w) 580)) by lra. apply trunc3; field. }
  assert (580 <= IZR w) by (apply IZR_le; lia). rewrite (proj2 (Rltb_false (IZR w) 580)) by lra. replace ((580 <=? w)%Z) with true by lia. cbn [andb].
  destruct (Z.ltb_spec w 645).
  { assert (IZR w <= 644) by (apply IZR_le; lia). rewrite (proj2 (Rltb_true (IZR w) 645)) by lra. apply trunc3; field. }
  assert (645 <= IZR w) by (apply IZR_le; lia). rewrite (proj2 (Rltb_false (IZR w) 645)) by lra. replace ((645 <=? w)%Z && (w <=? 780)%Z) with true by lia.
  apply trunc3; field.
Qed.
Print Assumptions C103_same_colour_partial.
(** In the violet they differ, and infra-red rays are black in one and red in the other. *)
Theorem C103_same_colour_refuted : exists w w',
  (let '(r, g, b) := wavelength_to_color w 0 in wavelength_to_rgb w <> (trunc (255 * r), trunc (255 * g), trunc (255 * b))) /\
  wavelength_to_rgb w' = (0, 0, 0)%Z /\ wavelength_to_color w' 0 = (1, 0, 0).
Proof.
  exists 400, 900. split; [|split].
  - unfold wavelength_to_rgb. change (trunc 400) with (trunc (IZR 400)). rewrite trunc_int. unfold wavelength_to_color, wavelength_base, base_colour, intensity. cbv zeta.
    rewrite (proj2 (Rltb_false 400 380)) by lra. rewrite (proj2 (Rltb_false 780 400)) by lra. rewrite (proj2 (Rltb_true 400 440)) by lra. cbn [Z.leb Z.ltb Z.compare andb Pos.compare Pos.compare_cont].
    intros E. injection E as _ _ E. replace ((3 / 10 + 7 / 10 * (400 - 350) / (420 - 350)) * 255 * 1) with (IZR 204) in E by (simpl IZR; field).
    replace (255 * (0 + (1 - 0) * 1)) with (IZR 255) in E by (simpl IZR; field). rewrite !trunc_int in E. discriminate.
  - unfold wavelength_to_rgb. change (trunc 900) with (trunc (IZR 900)). rewrite trunc_int. unfold base_colour, intensity. cbn [Z.leb Z.ltb Z.compare andb Pos.compare Pos.compare_cont].
    replace (0 * 255 * 0) with (IZR 0) by (simpl IZR; field). rewrite trunc_int. reflexivity.
  - unfold wavelength_to_color, wavelength_base. cbv zeta. rewrite (proj2 (Rltb_false 900 380)) by lra. rewrite (proj2 (Rltb_true 780 900)) by lra.
    rewrite (proj2 (Rltb_false 780 440)) by lra. rewrite (proj2 (Rltb_false 780 490)) by lra. rewrite (proj2 (Rltb_false 780 510)) by lra. rewrite (proj2 (Rltb_false 780 580)) by lra. rewrite (proj2 (Rltb_false 780 645)) by lra.
    f_equal; [f_equal|]; lra.
Qed.
Print Assumptions C103_same_colour_refuted.
(** Every ray is visible on the page: at every wavelength the channels lie between the floor and 1,
    and one of them is 1. *)
Theorem C103_always_visible : forall nm fl, 0 <= fl <= 1 ->
  let '(r, g, b) := wavelength_to_color nm fl in
  fl <= r <= 1 /\ fl <= g <= 1 /\ fl <= b <= 1 /\ (r = 1 \/ g = 1 \/ b = 1).
Proof.
  intros nm fl Hf. unfold wavelength_to_color, wavelength_base. cbv zeta.
  set (a := if Rltb nm 380 then 380 else nm). assert (A : 380 <= a) by (unfold a; destruct (Rltb nm 380) eqn:E; [lra|apply Rltb_false in E; lra]). clearbody a.
  set (c := if Rltb 780 a then 780 else a). assert (B : 380 <= c <= 780) by (unfold c; destruct (Rltb 780 a) eqn:E; [lra|apply Rltb_false in E; lra]). clearbody c.
  assert (K : forall x, 0 <= x <= 1 -> fl <= fl + (1 - fl) * x <= 1) by (intros; nra).
  assert (K1 : fl + (1 - fl) * 1 = 1) by ring.
  destruct (Rltb c 440) eqn:E1; [apply Rltb_true in E1|apply Rltb_false in E1; destruct (Rltb c 490) eqn:E2; [apply Rltb_true in E2|apply Rltb_false in E2; destruct (Rltb c 510) eqn:E3; [apply Rltb_true in E3|apply Rltb_false in E3;
    destruct (Rltb c 580) eqn:E4; [apply Rltb_true in E4|apply Rltb_false in E4; destruct (Rltb c 645) eqn:E5; [apply Rltb_true in E5|apply Rltb_false in E5]]]]];
  (split; [apply K; lra|split; [apply K; lra|split; [apply K; lra|auto]]]).
Qed.
Print Assumptions C103_always_visible.

(** *** C104 *)
Lemma trunc_floor x : 0 <= x -> trunc x = floor x.
Proof. intros H. unfold trunc. rewrite (proj2 (Rleb_true 0 x)) by lra. reflexivity. Qed.
Lemma axis_value p i v : axis_of_prop p = Some i -> prop_value v p = coord (v_local v) i.
Proof. destruct p; intros E; try discriminate; injection E as <-; reflexivity. Qed.
Lemma axis_of_nth p u : (u < 3)%nat -> p = nth u [PX; PY; PZ] PX -> axis_of_prop p = Some u.
Proof. intros L ->. destruct u as [|[|[|]]]; [reflexivity..|lia]. Qed.
Lemma nth_of_axis p u : axis_of_prop p = Some u -> (u < 3)%nat /\ p = nth u [PX; PY; PZ] PX.
Proof. destruct p; intros E; try discriminate; injection E as <-; (split; [lia|reflexivity]). Qed.
Lemma centred_bin h s x : valid_histogram h -> 0 < s -> h_start h = - (s / 2) -> h_stop h = s / 2 -> 0 <= x / s + 1 / 2 < 1 ->
  bin_index x h = Some (Z.to_nat (floor ((x / s + 1 / 2) * INR (h_bins h)))).
Proof.
  intros [_ Hb] Hs E1 E2 Hx. unfold bin_index. cbv zeta. rewrite E1, E2.
  replace ((x - - (s / 2)) / (s / 2 - - (s / 2)) * INR (h_bins h)) with ((x / s + 1 / 2) * INR (h_bins h)) by (field; lra).
  assert (P : 0 < INR (h_bins h)) by (apply lt_0_INR; lia). assert (Q : 0 <= (x / s + 1 / 2) * INR (h_bins h) < INR (h_bins h)) by nra.
  rewrite trunc_floor by lra. pose proof (floor_range _ _ Q) as F.
  replace ((0 <=? floor ((x / s + 1 / 2) * INR (h_bins h)))%Z) with true by lia. replace ((floor ((x / s + 1 / 2) * INR (h_bins h)) <? Z.of_nat (h_bins h))%Z) with true by lia. reflexivity.
Qed.

(** A heatmap of two coordinates along the face that ranges over the whole face, for example one
    made by [record: true], is drawn so that every ray is counted in the bin shown where it
    crossed (away from the edges between rows). *)
Theorem C104_overlay_partial : forall A (colour : R -> A) counts a b size facet axis u v p vals,
  valid_histogram a -> valid_histogram b -> facet_axis facet = Some axis ->
  (u < 3)%nat -> (v < 3)%nat -> h_prop a = nth u [PX; PY; PZ] PX -> h_prop b = nth v [PX; PY; PZ] PX -> u <> axis -> v <> axis -> u <> v ->
  0 < coord size u -> 0 < coord size v ->
  h_start a = - (coord size u / 2) -> h_stop a = coord size u / 2 -> h_start b = - (coord size v / 2) -> h_stop b = coord size v / 2 ->
  v_local vals = p -> - (coord size u / 2) <= coord p u < coord size u / 2 -> - (coord size v / 2) < coord p v < coord size v / 2 ->
  (forall k, (coord p v / coord size v + 1 / 2) * INR (h_bins b) <> IZR k) ->
  exists i, cell vals (H2 a b) = Some i /\ overlay_at (draw_heatmap colour counts (h_bins a) (h_bins b)) a b size facet p = Some (colour (counts i)).
Proof.
  intros A colour counts a b size facet axis u v p vals Va Vb Fa Lu Lv Pa0 Pb0 Nu Nv Nuv Su Sv A1 A2 B1 B2 El Hu Hv Hk.
  pose proof (axis_of_nth _ _ Lu Pa0) as Pa. pose proof (axis_of_nth _ _ Lv Pb0) as Pb. clear Pa0 Pb0.
  assert (Xu : 0 <= coord p u / coord size u + 1 / 2 < 1).
  { set (s := coord size u) in *. set (x := coord p u) in *. assert (E : x = x / s * s) by (field; lra). set (q := x / s) in *. clearbody s x q. subst x. nra. }
  assert (Xv : 0 < coord p v / coord size v + 1 / 2 < 1).
  { set (s := coord size v) in *. set (x := coord p v) in *. clear - Sv Hv. clearbody s x. assert (E : x = x / s * s) by (field; lra). set (q := x / s) in *. clearbody q. subst x. nra. }
  destruct Va as [Va1 Va2]. destruct Vb as [Vb1 Vb2].
  unfold cell. rewrite (axis_value _ _ vals Pa), (axis_value _ _ vals Pb), El.
  rewrite (centred_bin a (coord size u)) by (try split; assumption || lra). rewrite (centred_bin b (coord size v)) by (try split; assumption || lra).
  eexists. split; [reflexivity|]. unfold overlay_at. rewrite Fa. unfold texture_axes. rewrite Pa, Pb.
  rewrite (proj2 (Nat.eqb_neq u axis) Nu), (proj2 (Nat.eqb_neq v axis) Nv). cbn [orb]. unfold texture_point, canvas_point. cbn [fst snd].
  set (y := coord p v / coord size v + 1 / 2) in *. set (x := coord p u / coord size u + 1 / 2) in *. clearbody x y.
  assert (Pb' : 0 < INR (h_bins b)) by (apply lt_0_INR; lia).
  rewrite shown_spec by (lra || lia). do 4 f_equal.
  pose proof (flip_floor (h_bins b) (1 - y) ltac:(lia) ltac:(lra)) as F. replace (1 - (1 - y)) with y in F by ring.
  assert (Q : 0 <= y * INR (h_bins b) < INR (h_bins b)) by nra. pose proof (floor_range _ _ Q).
  rewrite Z.min_r in F by lia. rewrite F; [|].
  - assert (Q' : 0 <= (1 - y) * INR (h_bins b) < INR (h_bins b)) by nra. pose proof (floor_range _ _ Q'). lia.
  - intros k Hk1 E. apply (Hk (Z.of_nat (h_bins b) - k)%Z). rewrite minus_IZR, <- INR_IZR_INZ, <- E. ring.
Qed.
Print Assumptions C104_overlay_partial.
(** Otherwise not: with x from -1/2 to 1/2 in four bins on the top of a box of width 2, a ray
    that leaves at x = 1/4 is counted in the fourth column but shown in the third. *)
Theorem C104_overlay_refuted : exists a b size facet vals i,
  valid_histogram a /\ valid_histogram b /\ cell vals (H2 a b) = Some i /\
  forall counts : nat -> R, overlay_at (draw_heatmap (fun v => v) counts (h_bins a) (h_bins b)) a b size facet (v_local vals) = Some (counts 2%nat) /\ i <> 2%nat.
Proof.
  exists (Histogram PX (- (1 / 2)) (1 / 2) 4), (Histogram PY (- 1) 1 1), (V 2 2 1), (V 0 0 1), (Values 500 0 0 0 (V (1 / 4) 0 (1 / 2))), 3%nat.
  split; [split; cbn; [lra|lia]|]. split; [split; cbn; [lra|lia]|].
  assert (I4 : INR 4 = 4) by (rewrite INR_IZR_INZ; reflexivity). assert (I1 : INR 1 = 1) by reflexivity.
  split.
  - unfold cell. cbn [h_prop h_bins prop_value v_local vx vy]. unfold bin_index. cbn [h_start h_stop h_bins]. rewrite I4, I1. cbv zeta.
    replace ((1 / 4 - - (1 / 2)) / (1 / 2 - - (1 / 2)) * 4) with (IZR 3) by (simpl IZR; field). replace ((0 - -1) / (1 - -1) * 1) with (1 / 2) by field.
    rewrite trunc_int. rewrite trunc_floor by lra. rewrite (floor_unique (1 / 2) 0) by lra. reflexivity.
  - intros counts. split; [|discriminate]. unfold overlay_at.
    assert (F : facet_axis (V 0 0 1) = Some 2%nat).
    { unfold facet_axis. cbn [find coord vx vy vz]. rewrite Rabs_R0, Rabs_R1. rewrite (proj2 (Rltb_false (1 / 2) 0)) by lra. rewrite (proj2 (Rltb_true (1 / 2) 1)) by lra. reflexivity. }
    rewrite F. unfold texture_axes. cbn [h_prop axis_of_prop Nat.eqb orb]. unfold texture_point, canvas_point. cbn [fst snd coord vx vy vz v_local h_bins].
    rewrite shown_spec by (lra || lia). rewrite I4, I1. rewrite (floor_unique ((1 / 4 / 2 + 1 / 2) * 4) 2) by lra. rewrite (floor_unique ((1 - (0 / 2 + 1 / 2)) * 1) 0) by lra. reflexivity.
Qed.
Print Assumptions C104_overlay_refuted.

Lemma auto_recorders_axes : forall label facet sx sy sz, In (label, facet) SpecModel.faces -> 0 < sx -> 0 < sy -> 0 < sz ->
  exists h a b axis u v f, SpecModel.face_position [sx; sy; sz] facet = Some h /\ SpecModel.mk_hist h = Some (H2 a b) /\
    facet = [vx f; vy f; vz f] /\ facet_axis f = Some axis /\ valid_histogram a /\ valid_histogram b /\
    axis_of_prop (h_prop a) = Some u /\ axis_of_prop (h_prop b) = Some v /\ u <> axis /\ v <> axis /\ u <> v /\
    h_start a = - (coord (V sx sy sz) u / 2) /\ h_stop a = coord (V sx sy sz) u / 2 /\
    h_start b = - (coord (V sx sy sz) v / 2) /\ h_stop b = coord (V sx sy sz) v / 2.
Proof.
  intros label facet sx sy sz Hin Px Py Pz.
  assert (HB : forall s, (10 <= SpecModel.auto_bins s)%Z) by (intros s; unfold SpecModel.auto_bins; lia).
  assert (MK : forall s n p, 0 < s -> (10 <= n)%Z -> SpecModel.prop_of_name (SpecModel.prop_name p) = Some p ->
     SpecModel.mk_histogram (SpecModel.prop_name p) (- (s / 2), s / 2, n) = Some (Histogram p (- (s / 2)) (s / 2) (Z.to_nat n))).
  { intros s n p Hs Hn E. unfold SpecModel.mk_histogram. rewrite E. rewrite (proj2 (Rltb_true (- (s / 2)) (s / 2))) by lra. replace (n <? 1)%Z with false by lia. reflexivity. }
  assert (VH : forall p s n, 0 < s -> (10 <= n)%Z -> valid_histogram (Histogram p (- (s / 2)) (s / 2) (Z.to_nat n))) by (intros p s n Hs Hn; split; cbn; [lra|lia]).
  assert (T1 : Rltb (1 / 2) (Rabs 1) = true) by (rewrite Rabs_R1; apply Rltb_true; lra).
  assert (T2 : Rltb (1 / 2) (Rabs (-1)) = true) by (rewrite Rabs_left by lra; apply Rltb_true; lra).
  assert (T0 : Rltb (1 / 2) (Rabs 0) = false) by (rewrite Rabs_R0; apply Rltb_false; lra).
  assert (Q0 : Reqb 0 0 = true) by (apply Reqb_true; reflexivity). assert (Q1 : Reqb 1 0 = false) by (apply Reqb_false; lra). assert (Q2 : Reqb (-1) 0 = false) by (apply Reqb_false; lra).
  pose proof (MK sx _ PX Px (HB sx) eq_refl) as Mx. pose proof (MK sy _ PY Py (HB sy) eq_refl) as My. pose proof (MK sz _ PZ Pz (HB sz) eq_refl) as Mz.
  cbn [In SpecModel.faces] in Hin. unfold SpecModel.face_position, SpecModel.face_axis.
  repeat match goal with H : _ \/ _ |- _ => destruct H as [H|H] end; try contradiction; injection Hin as _ <-;
  rewrite ?Q0, ?Q1, ?Q2; cbn [SpecModel.other_axes nth_error];
  match goal with
  | |- exists h a b axis u v f, Some (SpecModel.HPosition _ _ (_, ?s1 / 2, _) (_, ?s2 / 2, _)) = _ /\ _ /\ [?x; ?y; ?z] = _ /\ _ =>
    eexists; do 2 eexists; eexists; do 2 eexists; exists (V x y z); split; [reflexivity|]
  end; (split; [unfold SpecModel.mk_hist; first
    [ change (SpecModel.axis_name 0) with (SpecModel.prop_name PX); change (SpecModel.axis_name 1) with (SpecModel.prop_name PY); rewrite Mx, My; reflexivity
    | change (SpecModel.axis_name 0) with (SpecModel.prop_name PX); change (SpecModel.axis_name 2) with (SpecModel.prop_name PZ); rewrite Mx, Mz; reflexivity
    | change (SpecModel.axis_name 1) with (SpecModel.prop_name PY); change (SpecModel.axis_name 2) with (SpecModel.prop_name PZ); rewrite My, Mz; reflexivity ]|]);
  (split; [reflexivity|]); (split; [unfold facet_axis; cbn [find coord vx vy vz]; rewrite ?T0, ?T1, ?T2; reflexivity|]);
  (split; [apply VH; auto|]); (split; [apply VH; auto|]); (split; [reflexivity|]); (split; [reflexivity|]); repeat split; try discriminate.
Qed.
(** The heatmaps of [record: true] and of the command that adds face recorders are of this kind:
    on every face of every box. *)
Theorem C104_auto_recorders : forall label facet sx sy sz, In (label, facet) SpecModel.faces -> 0 < sx -> 0 < sy -> 0 < sz ->
  exists h a b axis u v f, SpecModel.face_position [sx; sy; sz] facet = Some h /\ SpecModel.mk_hist h = Some (H2 a b) /\
    facet = [vx f; vy f; vz f] /\ facet_axis f = Some axis /\ valid_histogram a /\ valid_histogram b /\
    (u < 3)%nat /\ (v < 3)%nat /\ h_prop a = nth u [PX; PY; PZ] PX /\ h_prop b = nth v [PX; PY; PZ] PX /\ u <> axis /\ v <> axis /\ u <> v /\
    h_start a = - (coord (V sx sy sz) u / 2) /\ h_stop a = coord (V sx sy sz) u / 2 /\
    h_start b = - (coord (V sx sy sz) v / 2) /\ h_stop b = coord (V sx sy sz) v / 2.
Proof.
  intros label facet sx sy sz Hin Px Py Pz. destruct (auto_recorders_axes label facet sx sy sz Hin Px Py Pz) as (h & a & b & axis & u & v & f & K1 & K2 & K3 & K4 & K5 & K6 & Ka & Kb & K).
  apply nth_of_axis in Ka, Kb. exists h, a, b, axis, u, v, f. tauto.
Qed.
Print Assumptions C104_auto_recorders.

(** Their bins are a tenth of a unit wide, or slightly wider, except that there are at least 10
    and at most 60. *)
Theorem C104_auto_bins : forall s, 0 < s -> let n := SpecModel.auto_bins s in
  (s < 1 -> n = 10%Z) /\ (6 <= s -> n = 60%Z) /\ (1 <= s < 6 -> IZR n <= 10 * s < IZR n + 1).
Proof.
  intros s Hs. cbv zeta. unfold SpecModel.auto_bins. rewrite trunc_floor by lra. pose proof (floor_spec (s * 10)) as [F1 F2]. set (f := floor (s * 10)) in *. clearbody f.
  split; [|split].
  - intros H. assert (f < 10)%Z by (apply lt_IZR; lra). lia.
  - intros H. assert (59 < f)%Z by (apply lt_IZR; lra). lia.
  - intros [H1' H2']. assert (9 < f)%Z by (apply lt_IZR; lra). assert (f < 60)%Z by (apply lt_IZR; lra).
    replace (Z.max 10 (Z.min 60 f)) with f by lia. lra.
Qed.
Print Assumptions C104_auto_bins.

(** Whatever the recorder counts, the texture lies along the face and never along its normal, and
    it is spread over both directions unless both histograms count the same coordinate. *)
Theorem C104_along_face : forall a b facet axis, facet_axis facet = Some axis ->
  let '(u, v) := texture_axes axis a b in (u < 3)%nat /\ (v < 3)%nat /\ u <> axis /\ v <> axis /\ (u = v -> h_prop a = h_prop b).
Proof.
  intros a b facet axis H. assert (L : (axis < 3)%nat).
  { unfold facet_axis in H. apply find_some in H. destruct H as [H _]. cbn in H. lia. }
  clear H. unfold texture_axes. destruct axis as [|[|[|]]]; [| | |lia];
  destruct (h_prop a), (h_prop b); cbn; repeat split; try lia; try discriminate.
Qed.
Print Assumptions C104_along_face.
Example C104_along_face_example : facet_axis (V 0 0 1) = Some 2%nat /\
  texture_axes 2 (Histogram PZ 0 1 1) (Histogram PY 0 1 1) = (0, 1)%nat /\ texture_axes 2 (Histogram PY 0 1 1) (Histogram PX 0 1 1) = (1, 0)%nat.
Proof.
  split; [|split; reflexivity]. unfold facet_axis. cbn [find coord vx vy vz]. rewrite Rabs_R0, Rabs_R1.
  rewrite (proj2 (Rltb_false (1 / 2) 0)) by lra. rewrite (proj2 (Rltb_true (1 / 2) 1)) by lra. reflexivity.
Qed.

Example C101_example : readout_heatmap 10 20 (55 / 100) (11 / 200) = (5, 18)%Z /\ readout_bars 100 (1 / 2) = 50%Z.
Proof.
  assert (I10 : INR 10 = 10) by (rewrite INR_IZR_INZ; reflexivity). assert (I20 : INR 20 = 20) by (rewrite INR_IZR_INZ; reflexivity).
  assert (I100 : INR 100 = 100) by (rewrite INR_IZR_INZ; simpl Z.of_nat; lra).
  unfold readout_heatmap, readout_bars. rewrite I10, I20, I100. rewrite (floor_unique (55 / 100 * 10) 5) by lra. rewrite (floor_unique ((1 - 11 / 200) * 20) 18) by lra.
  rewrite (floor_unique (1 / 2 * 100) 50) by lra. split; reflexivity.
Qed.
Example C103_example : wavelength_to_rgb 555 = (163, 255, 0)%Z /\ wavelength_to_color 555 0 = (45 / 70, 1, 0).
Proof.
  assert (C : wavelength_to_color 555 0 = (45 / 70, 1, 0)).
  { unfold wavelength_to_color, wavelength_base. cbv zeta. rewrite (proj2 (Rltb_false 555 380)) by lra. rewrite (proj2 (Rltb_false 780 555)) by lra. rewrite (proj2 (Rltb_false 555 440)) by lra.
    rewrite (proj2 (Rltb_false 555 490)) by lra. rewrite (proj2 (Rltb_false 555 510)) by lra. rewrite (proj2 (Rltb_true 555 580)) by lra. f_equal; [f_equal|]; lra. }
  split; [|exact C]. pose proof (C103_same_colour_partial 555 ltac:(lia)) as H. rewrite C in H. rewrite H. f_equal; [f_equal|].
  - rewrite trunc_floor by lra. apply floor_unique. lra.
  - replace (255 * 1) with (IZR 255) by (simpl IZR; lra). apply trunc_int.
  - replace (255 * 0) with (IZR 0) by (simpl IZR; lra). apply trunc_int.
Qed.
(** A ray that leaves the top of a box of 2 x 2 x 1 at (3/5, -3/5) *)
Example C104_example : forall counts : nat -> R,
  let a := Histogram PX (-1) 1 4 in let b := Histogram PY (-1) 1 4 in let p := V (3 / 5) (- 3 / 5) (1 / 2) in
  cell (Values 500 0 0 0 p) (H2 a b) = Some 12%nat /\
  overlay_at (draw_heatmap (fun v => v) counts 4 4) a b (V 2 2 1) (V 0 0 1) p = Some (counts 12%nat).
Proof.
  intros counts a b p. assert (I4 : INR 4 = 4) by (rewrite INR_IZR_INZ; reflexivity).
  assert (C : cell (Values 500 0 0 0 p) (H2 a b) = Some 12%nat).
  { unfold cell, a, b, p. cbn [h_prop h_bins prop_value v_local vx vy]. unfold bin_index. cbn [h_start h_stop h_bins]. rewrite I4. cbv zeta.
    replace ((3 / 5 - -1) / (1 - -1) * 4) with (16 / 5) by field. replace ((-3 / 5 - -1) / (1 - -1) * 4) with (4 / 5) by field.
    rewrite !trunc_floor by lra. rewrite (floor_unique (16 / 5) 3) by lra. rewrite (floor_unique (4 / 5) 0) by lra. reflexivity. }
  split; [exact C|].
  assert (F : facet_axis (V 0 0 1) = Some 2%nat).
  { unfold facet_axis. cbn [find coord vx vy vz]. rewrite Rabs_R0, Rabs_R1. rewrite (proj2 (Rltb_false (1 / 2) 0)) by lra. rewrite (proj2 (Rltb_true (1 / 2) 1)) by lra. reflexivity. }
  destruct (C104_overlay_partial R (fun v => v) counts a b (V 2 2 1) (V 0 0 1) 2 0 1 p (Values 500 0 0 0 p)) as [i [C' O]];
    try (cbn; lia || lra || reflexivity || discriminate); try (split; cbn; (lia || lra)); try exact F.
  - intros k. cbn [coord p vy h_bins b]. rewrite I4. replace ((-3 / 5 / 2 + 1 / 2) * 4) with (4 / 5) by lra. intros E.
    assert (0 < k)%Z by (apply lt_IZR; lra). assert (k < 1)%Z by (apply lt_IZR; lra). lia.
  - rewrite C in C'. injection C' as <-. exact O.
Qed.
