(** Properties of the studio page: plots of angles and spectra, ray paths, number fields, selection,
    overlays. *)
From Coq Require Import Reals ZArith List Bool Arith Lra Lia.
From Verif Require Import Base Vec BrowserModel BrowserProps PageModel.
Import ListNotations.
Open Scope R_scope.

(** ** Maxima *)
Lemma fold_max_init l : forall a, a <= fold_left Rmax l a.
Proof. induction l as [|x l IH]; intros a; cbn [fold_left]; [lra|]. eapply Rle_trans; [apply Rmax_l|apply IH]. Qed.
Lemma fold_max_in l : forall a x, In x l -> x <= fold_left Rmax l a.
Proof.
  induction l as [|y l IH]; intros a x []; cbn [fold_left].
  - subst. eapply Rle_trans; [apply Rmax_r|apply fold_max_init].
  - now apply IH.
Qed.
Lemma fold_max_le l : forall a m, a <= m -> (forall x, In x l -> x <= m) -> fold_left Rmax l a <= m.
Proof.
  induction l as [|y l IH]; intros a m Ha H; cbn [fold_left]; [lra|].
  apply IH; [apply Rmax_lub; [lra|apply H; now left]|intros x Hx; apply H; now right].
Qed.
Lemma fold_max_attained l : forall a, fold_left Rmax l a = a \/ In (fold_left Rmax l a) l.
Proof.
  induction l as [|y l IH]; intros a; cbn [fold_left]; [now left|].
  destruct (IH (Rmax a y)) as [E|I]; [|now right; right].
  rewrite E. unfold Rmax. destruct (Rle_dec a y); [right; now left|now left].
Qed.

Lemma density_length edges values : length (density edges values) = length values.
Proof. unfold density. rewrite map_length, combine_length, seq_length. lia. Qed.
Lemma density_nth edges values i : (i < length values)%nat ->
  nth i (density edges values) 0 = nth i values 0 / Rmax (sin (mid edges i)) (5 / 100).
Proof.
  intros Hi. unfold density.
  set (f := fun '(i, v) => v / Rmax (sin (mid edges i)) (5 / 100)).
  rewrite (nth_indep _ 0 (f (0%nat, 0))) by (rewrite map_length, combine_length, seq_length; lia).
  rewrite map_nth, combine_nth by now rewrite seq_length.
  rewrite seq_nth by easy. reflexivity.
Qed.
Lemma max05 x : 0 < Rmax x (5 / 100).
Proof. pose proof (Rmax_r x (5 / 100)). lra. Qed.
Lemma density_max_pos d : / 10 ^ 9 <= density_max d.
Proof. apply fold_max_init. Qed.
Lemma tiny_pos : 0 < / 10 ^ 9. Proof. apply Rinv_0_lt_compat. lra. Qed.

(** The outline's vertices: left side mirrored, then right side. *)
Lemma outline_left W H edges values j : (j < length values)%nat ->
  nth (1 + j) (draw_polar W H edges values) (0, 0)
  = polar_vertex (W / 2) (H - 8) (polar_radius W H) edges (density edges values) (-1) (length values - 1 - j).
Proof.
  intros Hj. unfold draw_polar. cbv zeta. rewrite density_length. cbn [nth plus].
  rewrite app_nth1 by (rewrite map_length, rev_length, seq_length; lia).
  set (f := polar_vertex _ _ _ _ _ _).
  rewrite (nth_indep _ (0, 0) (f 0%nat)) by (rewrite map_length, rev_length, seq_length; lia).
  rewrite map_nth, rev_nth by now rewrite seq_length. rewrite seq_length, seq_nth by lia. f_equal. lia.
Qed.
Lemma outline_right W H edges values j : (j < length values)%nat ->
  nth (1 + length values + j) (draw_polar W H edges values) (0, 0)
  = polar_vertex (W / 2) (H - 8) (polar_radius W H) edges (density edges values) 1 j.
Proof.
  intros Hj. unfold draw_polar. cbv zeta. rewrite density_length. cbn [nth plus].
  rewrite app_nth2 by (rewrite map_length, rev_length, seq_length; lia).
  rewrite map_length, rev_length, seq_length.
  replace (length values + j - length values)%nat with j by lia.
  set (f := polar_vertex _ _ _ _ _ _).
  rewrite (nth_indep _ (0, 0) (f 0%nat)) by (rewrite map_length, seq_length; lia).
  rewrite map_nth, seq_nth by lia. reflexivity.
Qed.

(** Every plot of non-negative counts is symmetric, and inside the half disc that is drawn as its
    frame; the bin with most counts per solid angle touches the frame. *)
Theorem C117_inside (W H : R) (edges values : list R) (j : nat) :
  0 <= polar_radius W H -> (forall v, In v values -> 0 <= v) -> (j < length values)%nat ->
  0 <= mid edges j <= PI / 2 ->
  let n := length values in
  let right := nth (1 + n + j) (draw_polar W H edges values) (0, 0) in
  let left := nth (n - j) (draw_polar W H edges values) (0, 0) in
  let cx := W / 2 in let cy := H - 8 in
  fst left - cx = - (fst right - cx) /\ snd left = snd right
  /\ fst right >= cx /\ snd right <= cy
  /\ (fst right - cx) ^ 2 + (snd right - cy) ^ 2 <= polar_radius W H ^ 2.
Proof.
  intros HR Hv Hj Hm n right left cx cy. unfold right, left, n.
  replace (length values - j)%nat with (1 + (length values - 1 - j))%nat by lia.
  rewrite outline_right, outline_left by lia. replace (length values - 1 - (length values - 1 - j))%nat with j by lia.
  unfold polar_vertex. cbn [fst snd]. fold cx cy.
  set (d := density edges values). set (q := nth j d 0 / density_max d).
  assert (Hq : 0 <= q <= 1).
  { unfold q. pose proof (density_max_pos d). pose proof tiny_pos. split.
    - apply Rmult_le_pos; [|left; apply Rinv_0_lt_compat; lra]. unfold d. rewrite density_nth by easy.
      apply Rmult_le_pos; [apply Hv; now apply nth_In|left; apply Rinv_0_lt_compat, max05].
    - apply Rmult_le_reg_r with (density_max d); [lra|]. unfold Rdiv. rewrite Rmult_assoc, Rinv_l, Rmult_1_r, Rmult_1_l by lra.
      apply fold_max_in. apply nth_In. unfold d. now rewrite density_length. }
  clearbody q. set (R0 := polar_radius W H) in *. clearbody R0.
  pose proof PI_RGT_0. assert (0 <= sin (mid edges j)) by (apply sin_ge_0; lra). assert (0 <= cos (mid edges j)) by (apply cos_ge_0; lra).
  pose proof (sin2_cos2 (mid edges j)) as SC. unfold Rsqr in SC.
  set (s := sin (mid edges j)) in *. set (c := cos (mid edges j)) in *. clearbody s c.
  assert (0 <= q * R0) by (apply Rmult_le_pos; lra).
  assert (0 <= q * R0 * s) by (apply Rmult_le_pos; lra). assert (0 <= q * R0 * c) by (apply Rmult_le_pos; lra).
  repeat split; try lra.
  replace ((cx + 1 * (q * R0) * s - cx) ^ 2 + (cy - q * R0 * c - cy) ^ 2) with ((q * R0) ^ 2 * (s * s + c * c)) by ring.
  rewrite SC, Rmult_1_r. apply pow_incr. split; [lra|]. rewrite <- (Rmult_1_l R0) at 2. apply Rmult_le_compat_r; lra.
Qed.
Theorem C117_touches (W H : R) (edges values : list R) :
  (exists i, (i < length values)%nat /\ / 10 ^ 9 <= nth i (density edges values) 0) ->
  exists j, (j < length values)%nat
    /\ (forall i, (i < length values)%nat -> nth i (density edges values) 0 <= nth j (density edges values) 0)
    /\ nth (1 + length values + j) (draw_polar W H edges values) (0, 0)
       = (W / 2 + polar_radius W H * sin (mid edges j), H - 8 - polar_radius W H * cos (mid edges j)).
Proof.
  intros (i0 & Hi0 & Hd). set (d := density edges values) in *.
  assert (L : length d = length values) by apply density_length.
  assert (A : In (density_max d) d).
  { destruct (fold_max_attained d (/ 10 ^ 9)) as [E|I]; [|exact I].
    unfold density_max. rewrite E. assert (nth i0 d 0 <= fold_left Rmax d (/ 10 ^ 9)) by (apply fold_max_in, nth_In; lia).
    replace (/ 10 ^ 9) with (nth i0 d 0) by lra. apply nth_In. lia. }
  destruct (In_nth _ _ 0 A) as (j & Hj & Ej). exists j. rewrite L in Hj. split; [exact Hj|]. split.
  - intros i Hi. rewrite Ej. apply fold_max_in, nth_In. lia.
  - rewrite outline_right by exact Hj. unfold polar_vertex. fold d. rewrite Ej.
    pose proof (density_max_pos d). pose proof tiny_pos. f_equal; field; lra.
Qed.

(** Equal bins from [a], [w] wide, and the counts of [K] rays per unit of solid angle / 2 pi. *)
Definition even_edges (a w : R) (n : nat) : list R := map (fun i => a + INR i * w) (seq 0 (S n)).
Definition isotropic_counts (K a w : R) (n : nat) : list R :=
  map (fun i => K * (cos (a + INR i * w) - cos (a + INR (S i) * w))) (seq 0 n).
Lemma even_mid a w n i : (i < n)%nat -> mid (even_edges a w n) i = a + INR i * w + w / 2.
Proof.
  intros Hi. unfold mid, even_edges. set (f := fun i => a + INR i * w).
  rewrite (nth_indep _ 0 (f 0%nat)) by (rewrite map_length, seq_length; lia). rewrite map_nth, seq_nth by lia.
  rewrite (nth_indep _ 0 (f 0%nat)) by (rewrite map_length, seq_length; lia). rewrite map_nth, seq_nth by lia.
  unfold f. rewrite !plus_INR. change (INR 0) with 0. change (INR 1) with 1. field.
Qed.
Lemma iso_nth K a w n i : (i < n)%nat -> nth i (isotropic_counts K a w n) 0 = 2 * K * sin (w / 2) * sin (a + INR i * w + w / 2).
Proof.
  intros Hi. unfold isotropic_counts. set (f := fun i => K * _).
  rewrite (nth_indep _ 0 (f 0%nat)) by (rewrite map_length, seq_length; lia). rewrite map_nth, seq_nth by lia.
  unfold f. rewrite S_INR. cbn [plus].
  set (m := a + INR i * w + w / 2). replace (a + INR i * w) with (m - w / 2) by (unfold m; lra).
  replace (a + (INR i + 1) * w) with (m + w / 2) by (unfold m; lra). rewrite cos_minus, cos_plus. ring.
Qed.
Lemma iso_length K a w n : length (isotropic_counts K a w n) = n.
Proof. unfold isotropic_counts. now rewrite map_length, seq_length. Qed.

(** An isotropic distribution reads as a circular arc -- in every bin whose middle is at least
    arcsin 0.05 (2.9 degrees) from the poles; nearer to the poles the outline is drawn inwards, at
    the fraction sin / 0.05 of the radius. *)
Theorem C117_isotropic_partial (W H K a w : R) (n : nat) :
  0 <= a -> 0 < w -> a + INR n * w <= PI ->
  / 10 ^ 9 <= 2 * K * sin (w / 2) ->
  (exists i, (i < n)%nat /\ 1 / 20 <= sin (a + INR i * w + w / 2)) ->
  forall j, (j < n)%nat ->
  let m := a + INR j * w + w / 2 in
  let r := if Rle_dec (1 / 20) (sin m) then polar_radius W H else polar_radius W H * (20 * sin m) in
  let outline := draw_polar W H (even_edges a w n) (isotropic_counts K a w n) in
  nth (1 + n + j) outline (0, 0) = (W / 2 + r * sin m, H - 8 - r * cos m)
  /\ nth (n - j) outline (0, 0) = (W / 2 - r * sin m, H - 8 - r * cos m).
Proof.
  intros Ha Hw Hn HK (i0 & Hi0 & Hs0) j Hj m r outline. unfold outline.
  pose proof (iso_length K a w n) as L. set (vals := isotropic_counts K a w n) in *. set (edges := even_edges a w n).
  set (d := density edges vals). set (k := 2 * K * sin (w / 2)) in *.
  assert (D : forall i, (i < n)%nat -> nth i d 0 = k * (sin (a + INR i * w + w / 2) / Rmax (sin (a + INR i * w + w / 2)) (5 / 100))).
  { intros i Hi. unfold d. rewrite density_nth by lia. unfold edges. rewrite even_mid by exact Hi. unfold vals. rewrite iso_nth by exact Hi.
    unfold k, Rdiv. ring. }
  pose proof tiny_pos as Tp.
  assert (P : forall x, x / Rmax x (5 / 100) <= 1).
  { intros x. pose proof (max05 x). apply Rmult_le_reg_r with (Rmax x (5 / 100)); [lra|].
    unfold Rdiv. rewrite Rmult_assoc, Rinv_l, Rmult_1_r, Rmult_1_l by lra. apply Rmax_l. }
  assert (Q : forall x, 1 / 20 <= x -> x / Rmax x (5 / 100) = 1).
  { intros x Hx. rewrite Rmax_left by lra. field. lra. }
  assert (Hlen : length d = n) by (unfold d; now rewrite density_length).
  assert (M : density_max d = k).
  { apply Rle_antisym.
    - apply fold_max_le; [exact HK|]. intros x Hx. destruct (In_nth _ _ 0 Hx) as (i & Hi & <-). rewrite D by lia.
      rewrite <- (Rmult_1_r k) at 2. apply Rmult_le_compat_l; [lra|apply P].
    - replace k with (nth i0 d 0) by (rewrite D, Q by assumption; ring). apply fold_max_in, nth_In. lia. }
  assert (V : nth j d 0 / density_max d * polar_radius W H = r).
  { rewrite M, D by exact Hj. fold m. unfold r. destruct (Rle_dec (1 / 20) (sin m)) as [Y|N].
    - rewrite Q by exact Y. field. lra.
    - rewrite Rmax_right by lra. field. lra. }
  rewrite <- L at 1. rewrite outline_right by lia. replace (n - j)%nat with (1 + (n - 1 - j))%nat by lia. rewrite outline_left by lia.
  rewrite L. replace (n - 1 - (n - 1 - j))%nat with j by lia.
  unfold polar_vertex. fold d. rewrite V. unfold edges. rewrite even_mid by exact Hj. fold m. split; f_equal; ring.
Qed.

(** With the bins that automatic recorders get, [0, 1.5708, 18] (cli/parse.py 479), it does not: the
    first bin of an isotropic distribution is drawn inside the arc, others on it. *)
Lemma sin_bin8 : 1 / 20 <= sin (0 + INR 8 * (15708 / 10000 / 18) + 15708 / 10000 / 18 / 2).
Proof.
  change (INR 8) with (1 + 1 + 1 + 1 + 1 + 1 + 1 + 1). pose proof PI_4. pose proof PI2_1.
  apply Rle_trans with (sin (PI / 6)); [rewrite sin_PI6; lra|]. apply sin_incr_1; lra.
Qed.
Lemma PI_bin : 15708 / 10000 <= PI. Proof. pose proof PI2_1. lra. Qed.
Theorem C117_isotropic_refuted : exists W H K a w n i j,
  (a = 0 /\ w = 15708 / 10000 / INR n /\ n = 18%nat /\ (i < n)%nat /\ (j < n)%nat /\ 0 < polar_radius W H)
  /\ (let outline := draw_polar W H (even_edges a w n) (isotropic_counts K a w n) in
      let dist v := (fst v - W / 2) ^ 2 + (snd v - (H - 8)) ^ 2 in
      dist (nth (1 + n + i) outline (0, 0)) < polar_radius W H ^ 2
      /\ dist (nth (1 + n + j) outline (0, 0)) = polar_radius W H ^ 2).
Proof.
  set (w := 15708 / 10000 / 18).
  assert (Hw : 0 < w) by (unfold w; lra).
  assert (S2 : 0 < sin (w / 2)). { apply sin_gt_0; [lra|]. pose proof PI2_1. unfold w. lra. }
  exists 260, 150, (1 / (2 * sin (w / 2))), 0, w, 18%nat, 0%nat, 8%nat.
  assert (I18 : INR 18 = 18) by (rewrite INR_IZR_INZ; reflexivity).
  assert (HR : polar_radius 260 150 = 118). { unfold polar_radius, Rmin. destruct (Rle_dec (260 / 2) 150); lra. }
  split. { rewrite HR, I18. repeat split; try lia; try lra. }
  cbv zeta.
  pose proof (C117_isotropic_partial 260 150 (1 / (2 * sin (w / 2))) 0 w 18) as T.
  assert (HK : / 10 ^ 9 <= 2 * (1 / (2 * sin (w / 2))) * sin (w / 2)).
  { replace (2 * (1 / (2 * sin (w / 2))) * sin (w / 2)) with 1 by (field; lra). replace 1 with (/ 1) by lra. apply Rinv_le_contravar; lra. }
  assert (H18 : 0 + INR 18 * w <= PI) by (rewrite I18; unfold w; pose proof PI_bin; lra).
  assert (E8 : exists i, (i < 18)%nat /\ 1 / 20 <= sin (0 + INR i * w + w / 2)) by (exists 8%nat; split; [lia|exact sin_bin8]).
  specialize (T (Rle_refl 0) Hw H18 HK E8). rewrite HR in *.
  assert (G : forall r m, (260 / 2 + r * sin m - 260 / 2) ^ 2 + (150 - 8 - r * cos m - (150 - 8)) ^ 2 = r ^ 2).
  { intros r m. pose proof (sin2_cos2 m) as SC. unfold Rsqr in SC.
    replace ((260 / 2 + r * sin m - 260 / 2) ^ 2 + (150 - 8 - r * cos m - (150 - 8)) ^ 2) with (r ^ 2 * (sin m * sin m + cos m * cos m)) by ring.
    rewrite SC. ring. }
  split.
  - destruct (T 0%nat ltac:(lia)) as [-> _]. cbn [fst snd]. rewrite G. change (INR 0) with 0.
    replace (0 + 0 * w + w / 2) with (w / 2) by lra.
    assert (sin (w / 2) < w / 2) by (apply sin_lt_x; lra).
    assert (w / 2 < 1 / 20) by (unfold w; lra).
    destruct (Rle_dec (1 / 20) (sin (w / 2))); [lra|]. nra.
  - destruct (T 8%nat ltac:(lia)) as [-> _]. cbn [fst snd]. rewrite G.
    destruct (Rle_dec (1 / 20) (sin (0 + INR 8 * w + w / 2))) as [_|N]; [reflexivity|]. now destruct (N sin_bin8).
Qed.

Theorem C117_bars (W H : R) (values : list R) (i : nat) :
  4 <= H -> 4 < W -> (forall v, In v values -> 0 <= v) -> (i < length values)%nat ->
  let '(x, y, w, h) := bar W H values i in
  0 <= h <= H - 4 /\ y + h = H - 2 /\ 2 <= y
  /\ h * Rmax 1 (bars_max values) = nth i values 0 * (H - 4)
  /\ (INR (length values) * 2 <= W - 4 -> 2 <= x /\ 1 <= w /\ x + w <= W - 2
      /\ forall j, (i < j < length values)%nat -> let '(x', _, _, _) := bar W H values j in x + w + 1 <= x').
Proof.
  intros HH HW Hv Hi. unfold bar. cbv zeta.
  assert (M1 : 1 <= bars_max values) by apply fold_max_init.
  assert (Hin : In (nth i values 0) values) by now apply nth_In.
  set (q := nth i values 0 / bars_max values).
  assert (Hq : 0 <= q <= 1).
  { unfold q. split.
    - apply Rmult_le_pos; [now apply Hv|left; apply Rinv_0_lt_compat; lra].
    - apply Rmult_le_reg_r with (bars_max values); [lra|]. unfold Rdiv. rewrite Rmult_assoc, Rinv_l, Rmult_1_r, Rmult_1_l by lra.
      now apply fold_max_in. }
  assert (0 <= q * (H - 2 * 2) <= H - 4).
  { split; [apply Rmult_le_pos; lra|]. apply Rle_trans with (1 * (H - 2 * 2)); [apply Rmult_le_compat_r; lra|lra]. }
  split; [lra|]. split; [lra|]. split; [lra|]. split.
  { rewrite Rmax_right by lra. unfold q. field. lra. }
  intros HWn.
  assert (Hn : 0 < INR (length values)) by (apply lt_0_INR; lia).
  assert (B2 : 2 <= bar_width W values).
  { unfold bar_width. apply Rmult_le_reg_r with (INR (length values)); [exact Hn|]. unfold Rdiv. rewrite Rmult_assoc, Rinv_l by lra. lra. }
  assert (BN : bar_width W values * INR (length values) = W - 4) by (unfold bar_width; field; lra).
  set (bw := bar_width W values) in *. clearbody bw. rewrite Rmax_right by lra.
  assert (0 <= INR i) by apply pos_INR.
  assert (INR i + 1 <= INR (length values)) by (rewrite <- S_INR; apply le_INR; lia).
  split; [|split; [lra|split]].
  - assert (0 <= INR i * bw) by (apply Rmult_le_pos; lra). lra.
  - assert ((INR i + 1) * bw <= INR (length values) * bw) by (apply Rmult_le_compat_r; lra). lra.
  - intros j Hj. assert (INR i + 1 <= INR j) by (rewrite <- S_INR; apply le_INR; lia).
    assert ((INR i + 1) * bw <= INR j * bw) by (apply Rmult_le_compat_r; lra). lra.
Qed.
Example C117_example : bar 104 54 [5; 0; 10; 2.5] 0 = (2, 54 - 2 - 25, 24, 25).
Proof.
  unfold bar, bars_max, bar_width. cbn [fold_left length nth]. change (INR 4) with (1 + 1 + 1 + 1). change (INR 0) with 0.
  rewrite (Rmax_right 1 5), (Rmax_left 5 0), (Rmax_right 5 10), (Rmax_left 10 2.5) by lra. rewrite Rmax_right by lra.
  repeat f_equal; lra.
Qed.

(** ** Paths *)
Definition long (p : path) : bool := Nat.leb 2 (length p).
Lemma add_paths_lines paths : forall s, length (lines s) = path_count s -> (path_count s <= MAX_PATH_LINES)%nat ->
  let s' := add_paths paths s in
  lines s' = lines s ++ map line_of (firstn (MAX_PATH_LINES - path_count s) (filter long paths))
  /\ length (lines s') = path_count s' /\ (path_count s' <= MAX_PATH_LINES)%nat.
Proof.
  induction paths as [|p rest IH]; intros s HL HC; cbn [add_paths filter].
  - rewrite firstn_nil, app_nil_r. now repeat split.
  - destruct (Nat.leb_spec MAX_PATH_LINES (path_count s)) as [Hge|Hlt].
    + replace (MAX_PATH_LINES - path_count s)%nat with 0%nat by lia. cbn [firstn map]. rewrite app_nil_r. now repeat split.
    + unfold long at 1. destruct (Nat.ltb_spec (length p) 2) as [Hs|Hs].
      * rewrite (proj2 (Nat.leb_gt 2 (length p))) by lia. now apply IH.
      * rewrite (proj2 (Nat.leb_le 2 (length p))) by lia.
        destruct (IH (Paths (S (path_count s)) (lines s ++ [line_of p]))) as (A & B & C); cbn [lines path_count].
        { rewrite app_length. cbn [length]. lia. } { lia. }
        split; [|now split]. rewrite A. cbn [lines path_count].
        replace (MAX_PATH_LINES - path_count s)%nat with (S (MAX_PATH_LINES - S (path_count s))) by lia. cbn [firstn map].
        now rewrite <- app_assoc.
Qed.
(** the paths that messages carry *)
Definition paths_of (m : message) : list path := match m with MBundle ps => ps | _ => [] end.
Lemma firstn_app_cap {A} (k : nat) (a b : list A) : firstn k (a ++ b) = firstn k a ++ firstn (k - length (firstn k a)) b.
Proof.
  rewrite firstn_app. f_equal. rewrite firstn_length. destruct (Nat.le_gt_cases k (length a)).
  - rewrite Nat.min_l by lia. now replace (k - k)%nat with (k - length a)%nat by lia.
  - now rewrite Nat.min_r by lia.
Qed.
(** After the messages of any number of earlier runs, "started", and the messages of this run so far,
    the page shows this run's paths -- those with at least two points, the first 400 in order of
    arrival, and nothing of earlier runs -- as lines through the points of the path, each point in
    the colour of the wavelength the ray has there. *)
Theorem C118_paths (before during : list message) (s0 : path_state) :
  (forall m, In m during -> m <> MStarted) ->
  lines (fold_left on_message (before ++ MStarted :: during) s0)
  = map (fun p => map (fun x => (fst x, wavelength_to_color (snd x) 0.15)) p)
      (firstn 400 (filter (fun p => 2 <=? length p)%nat (concat (map paths_of during)))).
Proof.
  intros Hd. rewrite fold_left_app. cbn [fold_left]. set (s1 := fold_left on_message before s0).
  change (on_message s1 MStarted) with (Paths 0 []). clearbody s1. clear s1 before s0.
  assert (G : forall s acc, length (lines s) = path_count s -> (path_count s <= MAX_PATH_LINES)%nat ->
    lines s = map line_of (firstn MAX_PATH_LINES (filter long acc)) ->
    lines (fold_left on_message during s) = map line_of (firstn MAX_PATH_LINES (filter long (acc ++ concat (map paths_of during))))).
  { revert Hd. induction during as [|m ms IH]; intros Hd s acc HL HC Hs; cbn [fold_left map concat].
    - now rewrite app_nil_r.
    - destruct m as [|ps| |]; cbn [on_message paths_of].
      + now destruct (Hd MStarted (or_introl eq_refl)).
      + destruct (add_paths_lines ps s HL HC) as (A & B & C). rewrite app_assoc. apply IH.
        * intros m Hm. apply Hd. now right.
        * exact B. * exact C.
        * rewrite A, Hs, filter_app, firstn_app_cap, map_app. do 3 f_equal.
          rewrite <- HL, Hs, map_length. reflexivity.
      + cbn [app]. apply IH; auto. intros m Hm. apply Hd. now right.
      + cbn [app]. apply IH; auto. intros m Hm. apply Hd. now right. }
  rewrite (G (Paths 0 []) []); [|reflexivity|cbn; lia|reflexivity]. cbn [app].
  apply map_ext_in. intros p _. unfold line_of. apply map_ext. intros [x nm]. cbn [fst snd]. do 2 f_equal.
Qed.
Example C118_example :
  let p := [(V 0 0 0, 500); (V 1 0 0, 600)] in
  length (lines (fold_left on_message [MBundle [p]; MStarted; MBundle [p; [(V 0 0 0, 500)]]; MBundle (repeat p 500); MDone] (Paths 7 []))) = 400%nat.
Proof. vm_compute. reflexivity. Qed.

(** ** Number fields *)
Lemma floor_IZR_half n : floor (IZR n + 1 / 2) = n.
Proof. apply floor_unique. lra. Qed.
Lemma to_fixed6_exact n : to_fixed6 (IZR n / 10 ^ 6) = IZR n / 10 ^ 6.
Proof.
  unfold to_fixed6, to_fixed6_pos. destruct (Rltb_spec (IZR n / 10 ^ 6) 0).
  - replace (- (IZR n / 10 ^ 6) * 10 ^ 6 + 1 / 2) with (IZR (- n) + 1 / 2) by (rewrite opp_IZR; field).
    rewrite floor_IZR_half, opp_IZR. field.
  - replace (IZR n / 10 ^ 6 * 10 ^ 6 + 1 / 2) with (IZR n + 1 / 2) by field. now rewrite floor_IZR_half.
Qed.
Lemma to_fixed6_near v : Rabs (to_fixed6 v - v) <= / 10 ^ 6 / 2.
Proof.
  assert (G : forall v, Rabs (to_fixed6_pos v - v) <= / 10 ^ 6 / 2).
  { intros x. unfold to_fixed6_pos. pose proof (floor_spec (x * 10 ^ 6 + 1 / 2)) as F. set (n := IZR (floor (x * 10 ^ 6 + 1 / 2))) in *. clearbody n.
    apply Rabs_le. split; apply Rmult_le_reg_r with (10 ^ 6); lra. }
  unfold to_fixed6. destruct (Rltb v 0); [|apply G]. specialize (G (- v)).
  replace (- to_fixed6_pos (- v) - v) with (- (to_fixed6_pos (- v) - - v)) by ring. now rewrite Rabs_Ropp.
Qed.
Lemma set_nth_length {A} i (a : A) l : length (set_nth i a l) = length l.
Proof.
  unfold set_nth. rewrite app_length, firstn_length.
  destruct (skipn i l) eqn:E; pose proof (f_equal (@length A) E) as L; rewrite skipn_length in L; cbn [length] in *; lia.
Qed.
Lemma set_nth_nth {A} i (a : A) l j d : (i < length l)%nat -> nth j (set_nth i a l) d = if Nat.eqb j i then a else nth j l d.
Proof.
  revert i j. induction l as [|x l IH]; intros [|i] [|j] H; cbn in H |- *; try lia; try reflexivity.
  unfold set_nth in IH. cbn in IH. apply IH. lia.
Qed.
(** Editing one number of a field commits all its numbers.  The edited one is what was typed (0 for a
    text that is no number); the others are within 5e-7 of what they were, and unchanged if they
    are multiples of a millionth. *)
Theorem C119_edit_partial (values : list R) (i : nat) (text : option R) :
  (i < length values)%nat ->
  let new := commit values i text in
  length new = length values
  /\ nth i new 0 = match text with Some x => x | None => 0 end
  /\ (forall j, (j < length values)%nat -> j <> i -> Rabs (nth j new 0 - nth j values 0) <= 5 / 10 ^ 7)
  /\ (forall j n, (j < length values)%nat -> j <> i -> nth j values 0 = IZR n / 10 ^ 6 -> nth j new 0 = nth j values 0).
Proof.
  intros Hi new. unfold new, commit.
  set (f := fun t : option R => match t with Some x => x | None => 0 end).
  assert (L : length (set_nth i text (shown_inputs values)) = length values) by (rewrite set_nth_length; unfold shown_inputs; apply map_length).
  assert (N : forall j, (j < length values)%nat -> nth j (map f (set_nth i text (shown_inputs values))) 0
              = if Nat.eqb j i then f text else to_fixed6 (nth j values 0)).
  { intros j Hj. change 0 with (f None) at 1. rewrite map_nth. rewrite set_nth_nth by (unfold shown_inputs; now rewrite map_length).
    destruct (Nat.eqb j i); [reflexivity|]. unfold shown_inputs.
    rewrite (nth_indep _ None (Some (to_fixed6 0))) by now rewrite map_length.
    rewrite (map_nth (fun v => Some (to_fixed6 v))). reflexivity. }
  split; [now rewrite map_length|]. split; [rewrite N by easy; now rewrite Nat.eqb_refl|]. split.
  - intros j Hj Hji. rewrite N by easy. rewrite (proj2 (Nat.eqb_neq j i)) by easy. pose proof (to_fixed6_near (nth j values 0)). lra.
  - intros j n Hj Hji E. rewrite N by easy. rewrite (proj2 (Nat.eqb_neq j i)) by easy. rewrite E. apply to_fixed6_exact.
Qed.
(** A vector with a component of a tenth of a micrometre loses it when another component is edited. *)
Theorem C119_edit_refuted : exists (values : list R) (i j : nat) (x : R),
  (i < length values)%nat /\ (j < length values)%nat /\ j <> i /\ nth j values 0 <> 0
  /\ nth j (commit values i (Some x)) 0 = 0.
Proof.
  exists [1; 1 / 10 ^ 7; 2], 0%nat, 1%nat, 3. cbn [length nth]. repeat split; try lia; [lra|].
  unfold commit, shown_inputs, set_nth. cbn [map firstn skipn app nth].
  unfold to_fixed6, to_fixed6_pos. destruct (Rltb_spec (1 / 10 ^ 7) 0); [lra|].
  replace (floor (1 / 10 ^ 7 * 10 ^ 6 + 1 / 2)) with 0%Z; [lra|]. symmetry. apply floor_unique. lra.
Qed.
Example C119_example : commit [1; 2.5; -3] 1 (Some (1 / 3)) = [1; 1 / 3; -3].
Proof.
  unfold commit, shown_inputs, set_nth. cbn [map firstn skipn app].
  replace 1 with (IZR 1000000 / 10 ^ 6) at 1 by lra. replace (-3) with (IZR (-3000000) / 10 ^ 6) at 1 by lra.
  rewrite !to_fixed6_exact. repeat f_equal; lra.
Qed.

(** ** Selection *)
Lemma includes_in l n : includes l (Some n) = true <-> In n l.
Proof.
  cbn [includes]. rewrite existsb_exists. split; [intros (x & I & E); apply Nat.eqb_eq in E; now subst|intros I; exists n; split; [exact I|apply Nat.eqb_refl]].
Qed.
Definition selection_ok (p : page) : Prop :=
  sel_segment p = SView
  \/ match sel_name p with Some n => In n (items p (sel_segment p)) | None => items p (sel_segment p) = [] end.
Lemma render_ok p : selection_ok (render_inspector p).
Proof.
  unfold render_inspector, selection_ok, items_for. destruct p as [it sg nm]. cbn [items sel_segment sel_name].
  destruct sg; cbn [segment_eqb negb andb sel_segment]; [ | | |now left];
    (right; destruct nm as [n|];
     [destruct (includes _ (Some n)) eqn:E; cbn [negb andb items sel_segment sel_name];
      [now apply includes_in|]
     |cbn [includes negb andb items sel_segment sel_name]];
     match goal with |- context [first ?l] => destruct l; cbn [first]; [reflexivity|now left] end).
Qed.
Theorem C120_selection (p : page) (events : list page_event) :
  events <> [] -> selection_ok (fold_left page_step events p).
Proof.
  intros H. destruct (exists_last H) as (es & e & ->). rewrite fold_left_app. cbn [fold_left].
  set (q := fold_left page_step es p). clearbody q. destruct e as [it|s|n| |n|node name behind]; cbn [page_step]; unfold select; try apply render_ok.
  destruct (negb _); apply render_ok.
Qed.
Lemma select_in s n p : s <> SView -> In n (items p s) ->
  let q := select s (Some n) p in items q = items p /\ sel_segment q = s /\ sel_name q = Some n.
Proof.
  intros Hs Hn. unfold select, render_inspector, items_for. cbn [items sel_segment sel_name].
  replace (match s with SView => [] | _ => items p s end) with (items p s) by now destruct s.
  rewrite (proj2 (includes_in _ _) Hn), andb_false_r. now cbn.
Qed.
(** A choice made in the page is kept until another one is made or the item disappears. *)
Theorem C120_kept (p : page) (s : segment) (n : nat) (it : segment -> list nat) :
  s <> SView -> In n (items p s) ->
  (let q := select s (Some n) p in sel_segment q = s /\ sel_name q = Some n)
  /\ (sel_segment p = s -> sel_name p = Some n ->
      let q := page_step p (Scene it) in
      sel_segment q = s /\ sel_name q = (if in_dec Nat.eq_dec n (it s) then Some n else match it s with [] => None | a :: _ => Some a end))
  /\ (sel_name p = Some n -> let q := page_step p (Segment s) in sel_segment q = s /\ sel_name q = Some n)
  /\ (forall s' m, s' <> SView -> sel_name p = Some m -> ~ In m (items p s') -> let q := page_step p (Segment s') in
      sel_segment q = s' /\ sel_name q = match items p s' with [] => None | a :: _ => Some a end).
Proof.
  intros Hs Hn.
  assert (Iv : forall s', s' <> SView -> items_for p s' = items p s') by (intros []; intros; try reflexivity; congruence).
  assert (Sv : forall s', s' <> SView -> segment_eqb s' SView = false) by (intros []; intros; try reflexivity; congruence).
  split; [now destruct (select_in s n p Hs Hn) as (_ & A & B)|].
  cut ((sel_name p = Some n -> let q := page_step p (Segment s) in sel_segment q = s /\ sel_name q = Some n)
    /\ (forall s' m, s' <> SView -> sel_name p = Some m -> ~ In m (items p s') -> let q := page_step p (Segment s') in
      sel_segment q = s' /\ sel_name q = match items p s' with [] => None | a :: _ => Some a end)).
  { intros G. split; [|exact G]. clear G.
    intros E1 E2. cbn [page_step].
  unfold render_inspector, items_for. cbn [items sel_segment sel_name]. rewrite E1, E2.
  replace (match s with SView => [] | _ => it s end) with (it s) by now destruct s.
  destruct (in_dec Nat.eq_dec n (it s)) as [I|I].
  - rewrite (proj2 (includes_in _ _) I), andb_false_r. now cbn.
  - destruct (includes (it s) (Some n)) eqn:E; [now destruct I; apply includes_in|].
    destruct s; cbn [segment_eqb negb andb sel_segment sel_name]; try (now split); now destruct Hs. }
  split.
  - intros E. cbn [page_step]. rewrite (Iv s Hs), (Sv s Hs), E, (proj2 (includes_in _ _) Hn). now destruct (select_in s n p Hs Hn) as (_ & A & B).
  - intros s' m Hs' E Nm. cbn [page_step]. rewrite (Iv s' Hs'), (Sv s' Hs'), E.
    destruct (includes (items p s') (Some m)) eqn:Ei; [now apply includes_in in Ei|].
    destruct (items p s') as [|a l] eqn:El; cbn [first].
    + unfold select, render_inspector. cbn [sel_segment sel_name items]. destruct s'; try (now destruct Hs'); cbn [items_for items]; rewrite El; now cbn.
    + destruct (select_in s' a p Hs' ltac:(rewrite El; now left)) as (_ & A & B). auto.
Qed.
(** Clicking the background asks for no selection, but where anything can be selected the first item is. *)
Theorem C120_background_refuted : exists p, selection_ok p /\ sel_name p <> None /\ sel_name (page_step p Background) <> None.
Proof.
  exists (Page (fun s => match s with SNodes => [1; 2]%nat | _ => [] end) SNodes (Some 2%nat)).
  repeat split; cbn; try discriminate. right. cbn. auto.
Qed.
Theorem C120_background_partial (p : page) : sel_segment p <> SView ->
  let q := page_step p Background in
  sel_segment q = sel_segment p
  /\ (sel_name q = None <-> items p (sel_segment p) = [])
  /\ (forall a l, items p (sel_segment p) = a :: l -> sel_name q = Some a).
Proof.
  intros Hs. cbn [page_step]. unfold select, render_inspector, items_for. cbn [items sel_segment sel_name includes].
  replace (match sel_segment p with SView => [] | _ => items p (sel_segment p) end) with (items p (sel_segment p)) by now destruct (sel_segment p).
  destruct (sel_segment p); try (now destruct Hs); cbn [segment_eqb negb andb sel_segment sel_name];
    match goal with |- context [first ?l] => destruct l; cbn [first] end;
    (split; [reflexivity|split; [split; intros E; congruence|intros; congruence]]).
Qed.
(** Two clicks on a recorder's face select its node, then the recorder -- when the first node hit
    behind the face is the owner, or no node is hit. *)
Theorem C120_two_clicks_partial (p : page) (node name : nat) (behind : option nat) :
  In node (items p SNodes) -> In name (items p SRecorders) -> (behind = None \/ behind = Some node) ->
  (sel_segment p, sel_name p) <> (SNodes, Some node) -> (sel_segment p, sel_name p) <> (SRecorders, Some name) ->
  let q := page_step p (ClickRecorder node name behind) in
  (sel_segment q, sel_name q) = (SNodes, Some node)
  /\ (let r := page_step q (ClickRecorder node name behind) in
      (sel_segment r, sel_name r) = (SRecorders, Some name)
      /\ (let t := page_step r (ClickRecorder node name behind) in (sel_segment t, sel_name t) = (SRecorders, Some name))).
Proof.
  intros Hn Hr Hb N1 N2.
  assert (F : page_step p (ClickRecorder node name behind) = select SNodes (Some node) p).
  { cbn [page_step]. destruct Hb as [ -> | -> ];
    (destruct p as [it sg [nm|]]; cbn [items sel_segment sel_name includes existsb] in *;
     destruct sg; cbn [segment_eqb andb orb negb]; try reflexivity; rewrite orb_false_r;
     match goal with |- context [Nat.eqb nm ?m] => destruct (Nat.eqb_spec nm m); [subst; congruence|reflexivity] end). }
  rewrite F. destruct (select_in SNodes node p ltac:(easy) Hn) as (I1 & S1 & M1). set (q := select SNodes (Some node) p) in *. clearbody q.
  split; [congruence|].
  assert (F2 : page_step q (ClickRecorder node name behind) = select SRecorders (Some name) q).
  { cbn [page_step]. rewrite S1, M1. cbn. rewrite Nat.eqb_refl. reflexivity. }
  cbv zeta. rewrite F2. assert (Hr' : In name (items q SRecorders)) by now rewrite I1.
  destruct (select_in SRecorders name q ltac:(easy) Hr') as (I2 & S2 & M2). set (r := select SRecorders (Some name) q) in *. clearbody r.
  split; [congruence|].
  assert (F3 : page_step r (ClickRecorder node name behind) = select SRecorders (Some name) r).
  { cbn [page_step]. rewrite S2, M2. cbn. rewrite Nat.eqb_refl. reflexivity. }
  rewrite F3. assert (Hr2 : In name (items r SRecorders)) by now rewrite I2.
  destruct (select_in SRecorders name r ltac:(easy) Hr2) as (_ & S3 & M3). congruence.
Qed.
(** If another node lies behind the face, that node is selected however often the face is clicked. *)
Theorem C120_two_clicks_refuted : exists p node name other,
  In node (items p SNodes) /\ In name (items p SRecorders) /\ other <> node
  /\ forall k, let q := Nat.iter (S k) (fun p => page_step p (ClickRecorder node name (Some other))) p in
       (sel_segment q, sel_name q) = (SNodes, Some other).
Proof.
  set (it := fun s => match s with SNodes => [1; 2]%nat | SRecorders => [3%nat] | _ => [] end).
  exists (Page it SNodes None), 1%nat, 3%nat, 2%nat. repeat split; cbn; auto.
  intros k. cbv zeta.
  assert (G : Nat.iter (S k) (fun p => page_step p (ClickRecorder 1 3 (Some 2%nat))) (Page it SNodes None) = Page it SNodes (Some 2%nat)).
  { induction k as [|k IH]; [reflexivity|]. change (Nat.iter (S (S k)) ?f ?x) with (f (Nat.iter (S k) f x)). cbv beta. rewrite IH. reflexivity. }
  change (let q := Nat.iter (S k) (fun p => page_step p (ClickRecorder 1 3 (Some 2%nat))) (Page it SNodes None) in (sel_segment q, sel_name q) = (SNodes, Some 2%nat)).
  cbv zeta. now rewrite G.
Qed.
Example C120_example :
  let it := fun s => match s with SNodes => [1; 2]%nat | SRecorders => [3%nat] | _ => [] end in
  let p := fold_left page_step [Scene it; ClickNode 2; ClickRecorder 1 3 (Some 1%nat); ClickRecorder 1 3 (Some 1%nat)] (Page (fun _ => []) SNodes None) in
  (sel_segment p, sel_name p) = (SRecorders, Some 3%nat).
Proof. reflexivity. Qed.

(** ** Layers *)
Lemma existsb_eqb_in n l : existsb (Nat.eqb n) l = true <-> In n l.
Proof. apply (includes_in l n). Qed.
(** the overlays the user has switched off: those whose last toggle was to off *)
Fixpoint off_after (es : list layer_event) (hidden0 : list nat) (n : nat) : Prop :=
  match es with
  | [] => In n hidden0
  | e :: es' => match e with LToggle m on => if Nat.eqb m n then on = false else off_after es' hidden0 n | _ => off_after es' hidden0 n end
  end.
Lemma hidden_spec es s n : In n (lay_hidden (fold_left layer_step es s)) <-> off_after (rev es) (lay_hidden s) n.
Proof.
  induction es as [|e es IH] using rev_ind; [reflexivity|]. rewrite fold_left_app, rev_app_distr. cbn [fold_left rev app off_after].
  set (t := fold_left layer_step es s) in *. clearbody t. destruct e as [ns os|ev|i|m on]; cbn [layer_step lay_hidden]; try exact IH.
  destruct (Nat.eqb_spec m n) as [->|Hm]; destruct on.
  - rewrite filter_In, Nat.eqb_refl. cbn. split; [intros []; discriminate|discriminate].
  - rewrite in_app_iff. cbn. split; auto.
  - rewrite filter_In, IH. destruct (Nat.eqb_spec n m); [congruence|]. cbn. tauto.
  - rewrite in_app_iff, filter_In, IH. destruct (Nat.eqb_spec n m); [congruence|]. cbn. intuition congruence.
Qed.
(** An overlay is shown exactly when its last switch was not off, its event is the chosen one, and its
    node is the isolated one, if one is isolated. *)
Theorem C121_visible (es : list layer_event) (s : layers) (o : overlay) :
  let t := fold_left layer_step es s in
  visible t o = true <->
  ~ off_after (rev es) (lay_hidden s) (ov_name o)
  /\ (lay_event t = None \/ lay_event t = Some (ov_event o))
  /\ (isolate t = None \/ isolate t = Some (ov_node o)).
Proof.
  intros t. rewrite <- hidden_spec. fold t. unfold visible. rewrite <- existsb_eqb_in.
  rewrite !andb_true_iff, !negb_true_iff, not_true_iff_false.
  destruct (isolate t) as [i|]; destruct (lay_event t) as [e|]; rewrite ?negb_false_iff, ?Nat.eqb_eq; intuition congruence.
Qed.
(** While the isolated node exists, its overlays are not dimmed away; isolating a text that names no
    node isolates nothing. *)
Theorem C121_isolation_partial (es : list layer_event) (s : layers) (o : overlay) (n : option nat) :
  let t := fold_left layer_step (es ++ [LIsolate n]) s in
  (isolate t <> None -> exists k, isolate t = Some k /\ n = Some k /\ In k (lay_nodes t))
  /\ (n = Some (ov_node o) -> In (ov_node o) (lay_nodes t) -> isolate t = Some (ov_node o))
  /\ (isolate t = None <-> forall k, n = Some k -> ~ In k (lay_nodes t)).
Proof.
  intros t. unfold t. rewrite fold_left_app. cbn [fold_left layer_step isolate lay_nodes].
  set (u := fold_left layer_step es s). clearbody u. split; [|split].
  - destruct n as [k|]; [|easy]. destruct (includes (lay_nodes u) (Some k)) eqn:E; [|easy]. intros _. exists k. repeat split. now apply includes_in.
  - intros -> I. now rewrite (proj2 (includes_in _ _) I).
  - destruct n as [k|]; [|easy]. destruct (includes (lay_nodes u) (Some k)) eqn:E.
    + split; [discriminate|]. intros H. destruct (H k eq_refl). now apply includes_in.
    + split; [|auto]. intros _ k' [= <-] I. apply includes_in in I. congruence.
Qed.
(** A node stays isolated after it is deleted or renamed: then every overlay of the new scene is hidden. *)
Theorem C121_isolation_refuted : exists es s,
  let t := fold_left layer_step es s in
  lay_overlays t <> [] /\ lay_hidden t = [] /\ lay_event t = None
  /\ (forall k, isolate t = Some k -> ~ In k (lay_nodes t))
  /\ (forall o, In o (lay_overlays t) -> In (ov_node o) (lay_nodes t) /\ visible t o = false).
Proof.
  exists [LScene [1; 2]%nat [Overlay 5 1 0; Overlay 6 2 0]; LIsolate (Some 2%nat); LScene [1; 3]%nat [Overlay 5 1 0; Overlay 6 3 0]],
    (Layers [] [] [] None None).
  cbv zeta. cbn. repeat split; try discriminate.
  - intros k [= <-] [|[|[]]]; discriminate.
  - destruct H as [<-|[<-|[]]]; cbn; auto.
  - destruct H as [<-|[<-|[]]]; reflexivity.
Qed.
Example C121_example :
  let t := fold_left layer_step [LScene [1; 2]%nat [Overlay 5 1 0; Overlay 6 2 1]; LToggle 6 false; LToggle 6 true; LEvent (Some 1%nat); LIsolate (Some 2%nat)] (Layers [] [] [] None None) in
  map (visible t) (lay_overlays t) = [false; true].
Proof. reflexivity. Qed.

Print Assumptions C117_inside.
Print Assumptions C117_touches.
Print Assumptions C117_isotropic_partial.
Print Assumptions C117_isotropic_refuted.
Print Assumptions C117_bars.
Print Assumptions C118_paths.
Print Assumptions C119_edit_partial.
Print Assumptions C119_edit_refuted.
Print Assumptions C120_selection.
Print Assumptions C120_kept.
Print Assumptions C120_background_refuted.
Print Assumptions C120_background_partial.
Print Assumptions C120_two_clicks_partial.
Print Assumptions C120_two_clicks_refuted.
Print Assumptions C121_visible.
Print Assumptions C121_isolation_partial.
Print Assumptions C121_isolation_refuted.
