(** C14: the per-ray random streams. *)
From Coq Require Import ZArith Reals Lra Lia List.
From Verif Require Import RngModel.
Import ListNotations.
Open Scope Z_scope.

Lemma W_pos : 0 < W. Proof. reflexivity. Qed.
Lemma word_is_word x : is_word (word x).
Proof. unfold is_word, word. apply Z.mod_pos_bound. reflexivity. Qed.
Lemma word_id x : is_word x -> word x = x.
Proof. intros H. apply Z.mod_small. exact H. Qed.

Lemma is_word_bits x : is_word x <-> 0 <= x /\ Z.shiftr x 64 = 0.
Proof.
  unfold is_word, W. rewrite Z.shiftr_div_pow2 by lia. split; intros [H1 H2]; split; try assumption.
  - apply Z.div_small. lia.
  - destruct (Z_lt_dec x (2 ^ 64)); [assumption|]. exfalso.
    assert (1 <= x / 2 ^ 64) by (apply Z.div_le_lower_bound; lia). lia.
Qed.
Lemma word_lxor x y : is_word x -> is_word y -> is_word (Z.lxor x y).
Proof.
  rewrite !is_word_bits. intros [X1 X2] [Y1 Y2]. split; [apply Z.lxor_nonneg; tauto|]. now rewrite Z.shiftr_lxor, X2, Y2.
Qed.
Lemma word_shiftr x k : 0 <= k -> is_word x -> is_word (Z.shiftr x k).
Proof.
  rewrite !is_word_bits. intros Hk [X1 X2]. split; [now apply Z.shiftr_nonneg|].
  rewrite Z.shiftr_shiftr, Z.add_comm, <- Z.shiftr_shiftr, X2 by lia. apply Z.shiftr_0_l.
Qed.
Lemma word_lor x y : is_word x -> is_word y -> is_word (Z.lor x y).
Proof.
  rewrite !is_word_bits. intros [X1 X2] [Y1 Y2]. split; [apply Z.lor_nonneg; tauto|]. now rewrite Z.shiftr_lor, X2, Y2.
Qed.

(** ** The mixing function is injective *)
Lemma lxor_zero_eq a b : Z.lxor a b = 0 -> a = b.
Proof. apply Z.lxor_eq. Qed.

Lemma shiftr_fixed d k : 0 <= d -> 1 <= k -> d = Z.shiftr d k -> d = 0.
Proof.
  intros Hd Hk E. rewrite Z.shiftr_div_pow2 in E by lia.
  assert (2 <= 2 ^ k) by (change 2 with (2 ^ 1) at 1; apply Z.pow_le_mono_r; lia).
  assert (d / 2 ^ k <= d / 2) by (apply Z.div_le_compat_l; lia).
  pose proof (Z.mul_div_le d 2 ltac:(lia)). lia.
Qed.
Lemma xorshift_inj k x y : 1 <= k -> 0 <= x -> 0 <= y -> Z.lxor x (Z.shiftr x k) = Z.lxor y (Z.shiftr y k) -> x = y.
Proof.
  intros Hk Hx Hy E. apply lxor_zero_eq. apply (shiftr_fixed _ k); [apply Z.lxor_nonneg; tauto|assumption|].
  apply lxor_zero_eq. rewrite Z.shiftr_lxor.
  assert (E' : Z.lxor (Z.lxor x (Z.shiftr x k)) (Z.lxor y (Z.shiftr y k)) = 0) by (rewrite E; apply Z.lxor_nilpotent).
  rewrite <- E'. rewrite !Z.lxor_assoc. f_equal. rewrite <- !Z.lxor_assoc. f_equal. apply Z.lxor_comm.
Qed.
Lemma mul_inj c c' x y : (c * c') mod W = 1 -> is_word x -> is_word y -> word (x * c) = word (y * c) -> x = y.
Proof.
  intros Hc Hx Hy E. unfold word in E.
  assert (G : forall z, is_word z -> ((z * c) mod W * c') mod W = z).
  { intros z Hz. rewrite Z.mul_mod_idemp_l by discriminate. rewrite <- Z.mul_assoc, <- Z.mul_mod_idemp_r, Hc, Z.mul_1_r by discriminate.
    now apply Z.mod_small. }
  rewrite <- (G x Hx), <- (G y Hy), E. reflexivity.
Qed.

Lemma mix_inj x y : is_word x -> is_word y -> mix x = mix y -> x = y.
Proof.
  intros Hx Hy E. unfold mix in E. cbv zeta in E.
  apply xorshift_inj in E; [|lia|apply word_is_word|apply word_is_word].
  apply (mul_inj _ 0x319642B2D24D8EC3) in E; [|reflexivity| |].
  2,3: apply word_lxor; [apply word_is_word|apply word_shiftr; [lia|apply word_is_word]].
  apply xorshift_inj in E; [|lia|apply word_is_word|apply word_is_word].
  apply (mul_inj _ 0x96DE1B173F119089) in E; [|reflexivity| |].
  2,3: apply word_lxor; [assumption|apply word_shiftr; [lia|assumption]].
  apply xorshift_inj in E; [assumption|lia|apply Hx|apply Hy].
Qed.

Definition wf_rng (g : rng) : Prop := is_word (s0 g) /\ is_word (s1 g) /\ is_word (s2 g) /\ is_word (s3 g).
Definition all_zero (g : rng) : Prop := s0 g = 0 /\ s1 g = 0 /\ s2 g = 0 /\ s3 g = 0.

Lemma mix_word x : is_word x -> is_word (mix x).
Proof. intros Hx. unfold mix. cbv zeta. apply word_lxor; [apply word_is_word|apply word_shiftr; [lia|apply word_is_word]]. Qed.
Lemma seed_wf seed : wf_rng (rng_seed seed).
Proof. unfold rng_seed, splitmix64, wf_rng; simpl. repeat split; apply mix_word; apply word_is_word. Qed.
Lemma next_wf g : wf_rng g -> wf_rng (rng_next g).
Proof.
  intros (H0 & H1 & H2 & H3). unfold rng_next, wf_rng; cbn [s0 s1 s2 s3].
  split; [apply word_lxor; [assumption|now apply word_lxor]|].
  split; [apply word_lxor; [assumption|now apply word_lxor]|].
  split; [apply word_lxor; [now apply word_lxor|apply word_is_word]|].
  unfold rotl. apply word_lor; [apply word_is_word|]. apply word_shiftr; [lia|]. now apply word_lxor.
Qed.

Lemma next_word_distinct a : is_word a -> word (a + gamma) <> a.
Proof.
  intros Ha E. unfold word in E. assert (Hm : (a + gamma - a) mod W = 0).
  { rewrite Zminus_mod, E. rewrite (Z.mod_small a) by exact Ha. now rewrite Z.sub_diag. }
  replace (a + gamma - a) with gamma in Hm by lia. discriminate Hm.
Qed.

Lemma seed_nonzero seed : ~ all_zero (rng_seed seed).
Proof.
  unfold rng_seed, splitmix64, all_zero; simpl. intros (E0 & E1 & _). 
  assert (H := mix_inj _ _ (word_is_word (word (seed + gamma) + gamma)) (word_is_word (seed + gamma)) ltac:(congruence)).
  revert H. apply next_word_distinct. apply word_is_word.
Qed.

Lemma rotl_zero x k : 0 < k < 64 -> is_word x -> rotl x k = 0 -> x = 0.
Proof.
  intros Hk Hx E. unfold rotl in E. apply Z.lor_eq_0_iff in E. destruct E as [E1 E2].
  rewrite Z.shiftr_div_pow2 in E2 by lia. rewrite Z.shiftl_mul_pow2 in E1 by lia. unfold word, W, is_word in *.
  assert (P : 0 < 2 ^ k) by (apply Z.pow_pos_nonneg; lia). assert (Q : 0 < 2 ^ (64 - k)) by (apply Z.pow_pos_nonneg; lia).
  assert (x < 2 ^ (64 - k)).
  { destruct (Z_lt_dec x (2 ^ (64 - k))); [assumption|]. exfalso. assert (1 <= x / 2 ^ (64 - k)) by (apply Z.div_le_lower_bound; lia). lia. }
  assert (PQ : 2 ^ (64 - k) * 2 ^ k = 2 ^ 64) by (rewrite <- Z.pow_add_r by lia; f_equal; lia).
  rewrite Z.mod_small in E1 by nia. nia.
Qed.
Lemma shift17_fixed a : is_word a -> a = word (Z.shiftl a 17) -> a = 0.
Proof.
  intros Ha E. rewrite Z.shiftl_mul_pow2 in E by lia. unfold word in E.
  assert (H : (a * (2 ^ 17 - 1)) mod W = 0).
  { replace (a * (2 ^ 17 - 1)) with (a * 2 ^ 17 - a) by ring. rewrite Zminus_mod, <- E. rewrite (Z.mod_small a) by exact Ha. now rewrite Z.sub_diag. }
  apply (mul_inj (2 ^ 17 - 1) 0xFFF7FFFBFFFDFFFF); [reflexivity|assumption|split; reflexivity|].
  unfold word. rewrite H. reflexivity.
Qed.

Lemma next_nonzero g : wf_rng g -> ~ all_zero g -> ~ all_zero (rng_next g).
Proof.
  intros (W0 & W1 & W2 & W3) Hg (E0 & E1 & E2 & E3). apply Hg. unfold rng_next in *; cbn [s0 s1 s2 s3] in *.
  apply rotl_zero in E3; [|lia|now apply word_lxor]. rewrite E3, Z.lxor_0_r in E0.
  apply lxor_zero_eq in E1. apply lxor_zero_eq in E2. rewrite E0, Z.lxor_0_r in E1, E2.
  assert (H1 : s1 g = 0) by (apply shift17_fixed; [assumption|congruence]).
  rewrite H1, Z.lxor_0_r in E3. unfold all_zero. repeat split; congruence.
Qed.

Lemma after_wf k : forall g, wf_rng g -> ~ all_zero g -> wf_rng (rng_after k g) /\ ~ all_zero (rng_after k g).
Proof.
  induction k as [|k IH]; intros g H1 H2; [now split|]. simpl. apply IH; [now apply next_wf|now apply next_nonzero].
Qed.

(** Every draw of every stream is in [0, 1); it is a multiple of 2^-53. *)
Theorem C14_draws_in_unit_interval : forall seed i k,
  (0 <= nth_draw k (rng_seed (ray_seed seed i)) < 1)%R /\
  exists z, 0 <= z < 2 ^ 53 /\ (nth_draw k (rng_seed (ray_seed seed i)) * 2 ^ 53)%R = IZR z.
Proof.
  intros seed i k. unfold nth_draw, rng_draw. set (g := rng_after k _). set (z := Z.shiftr (rng_result g) 11).
  assert (Hz : 0 <= z < 2 ^ 53).
  { assert (H := word_is_word (s0 g + s3 g)). unfold z, rng_result. rewrite Z.shiftr_div_pow2 by lia.
    unfold is_word, W in H. split; [apply Z.div_pos; lia|]. apply Z.div_lt_upper_bound; [lia|]. change (2 ^ 11 * 2 ^ 53) with (2 ^ 64). lia. }
  assert (HR : (0 <= IZR z < 9007199254740992)%R).
  { split; [apply IZR_le; lia|]. apply IZR_lt. change 9007199254740992 with (2 ^ 53). lia. }
  split.
  - split; lra.
  - exists z. split; [exact Hz|]. replace (2 ^ 53)%R with 9007199254740992%R by lra. field.
Qed.
Print Assumptions C14_draws_in_unit_interval.

(** The state is never all-zero, at seeding and after any number of draws. *)
Theorem C14_state_never_zero : forall seed i k, ~ all_zero (rng_after k (rng_seed (ray_seed seed i))).
Proof. intros. apply after_wf; [apply seed_wf|apply seed_nonzero]. Qed.
Print Assumptions C14_state_never_zero.

(** Rays with different indices start from different states: already the first word
    differs. *)
Theorem C14_distinct_streams : forall seed i j, Z.of_nat i < 2 ^ 64 -> Z.of_nat j < 2 ^ 64 -> i <> j ->
  s0 (rng_seed (ray_seed seed i)) <> s0 (rng_seed (ray_seed seed j)).
Proof.
  intros seed i j Hi Hj Hne E. apply Hne. unfold rng_seed, splitmix64 in E; simpl in E.
  apply mix_inj in E; [|apply word_is_word|apply word_is_word]. unfold ray_seed, word in E.
  rewrite !Z.add_mod_idemp_l in E by discriminate.
  assert (H : (seed + Z.of_nat i + gamma - (seed + Z.of_nat j + gamma)) mod W = 0).
  { rewrite Zminus_mod, E, Z.sub_diag. reflexivity. }
  replace (seed + Z.of_nat i + gamma - (seed + Z.of_nat j + gamma)) with (Z.of_nat i - Z.of_nat j) in H by lia.
  apply Z.mod_divide in H; [|discriminate]. destruct H as [q Hq]. unfold W in Hq. nia.
Qed.
Print Assumptions C14_distinct_streams.

(** ** The step is injective *)
Lemma rotl_lxor_form x k : 0 < k < 64 -> is_word x -> rotl x k = Z.lxor (word (Z.shiftl x k)) (Z.shiftr x (64 - k)).
Proof.
  intros Hk Hz. unfold rotl. symmetry. apply Z.lxor_lor.
  apply Z.bits_inj'. intros n Hn. rewrite Z.land_spec, Z.bits_0. unfold word, W.
  destruct (Z_lt_dec n k).
  - assert (E : Z.testbit (Z.shiftl x k mod 2 ^ 64) n = false).
    { rewrite Z.mod_pow2_bits_low by lia. rewrite Z.shiftl_spec by lia. apply Z.testbit_neg_r. lia. }
    now rewrite E.
  - replace (Z.testbit (Z.shiftr x (64 - k)) n) with false; [apply Bool.andb_false_r|]. symmetry.
    rewrite Z.shiftr_spec by lia. apply is_word_bits in Hz. destruct Hz as [_ Hz].
    replace (n + (64 - k)) with ((n - k) + 64) by lia. rewrite <- Z.shiftr_spec by lia. rewrite Hz. apply Z.bits_0.
Qed.
Lemma word_shiftl_lxor x y k : word (Z.shiftl (Z.lxor x y) k) = Z.lxor (word (Z.shiftl x k)) (word (Z.shiftl y k)).
Proof.
  unfold word, W. rewrite Z.shiftl_lxor. rewrite <- !Z.land_ones by lia. apply Z.bits_inj'. intros n Hn.
  rewrite ?Z.land_spec, ?Z.lxor_spec, ?Z.land_spec. destruct (Z.testbit (Z.ones 64) n); now rewrite ?Bool.andb_true_r, ?Bool.andb_false_r.
Qed.
Lemma lxor4 a b c d : Z.lxor (Z.lxor a b) (Z.lxor c d) = Z.lxor (Z.lxor a c) (Z.lxor b d).
Proof. rewrite !Z.lxor_assoc. f_equal. rewrite <- !Z.lxor_assoc. f_equal. apply Z.lxor_comm. Qed.
Lemma rotl_lxor x y k : 0 < k < 64 -> is_word x -> is_word y -> rotl (Z.lxor x y) k = Z.lxor (rotl x k) (rotl y k).
Proof.
  intros Hk Hx Hy. rewrite !rotl_lxor_form by (assumption || now apply word_lxor).
  rewrite word_shiftl_lxor, Z.shiftr_lxor. apply lxor4.
Qed.

Definition rng_xor (g h : rng) : rng := Rng (Z.lxor (s0 g) (s0 h)) (Z.lxor (s1 g) (s1 h)) (Z.lxor (s2 g) (s2 h)) (Z.lxor (s3 g) (s3 h)).
Lemma rng_eta g h : s0 g = s0 h -> s1 g = s1 h -> s2 g = s2 h -> s3 g = s3 h -> g = h.
Proof. destruct g, h; simpl; intros; congruence. Qed.
Lemma xor_zero g h : all_zero (rng_xor g h) <-> g = h.
Proof.
  split.
  - intros (E0 & E1 & E2 & E3). cbn [s0 s1 s2 s3 rng_xor] in *. apply rng_eta; now apply lxor_zero_eq.
  - intros ->. unfold all_zero, rng_xor; cbn. now rewrite !Z.lxor_nilpotent.
Qed.
Lemma xor_wf g h : wf_rng g -> wf_rng h -> wf_rng (rng_xor g h).
Proof. intros (A & B & C & D) (E & F & G & H). unfold wf_rng; cbn. repeat split; now apply word_lxor. Qed.
Lemma next_linear g h : wf_rng g -> wf_rng h -> rng_next (rng_xor g h) = rng_xor (rng_next g) (rng_next h).
Proof.
  intros (A & B & C & D) (E & F & G & H). unfold rng_next, rng_xor. cbn [s0 s1 s2 s3]. f_equal.
  - now rewrite (lxor4 (s3 g)), lxor4.
  - now rewrite (lxor4 (s2 g)), lxor4.
  - now rewrite word_shiftl_lxor, (lxor4 (s2 g)), lxor4.
  - rewrite lxor4. apply rotl_lxor; [lia|now apply word_lxor|now apply word_lxor].
Qed.
Lemma next_inj g h : wf_rng g -> wf_rng h -> g <> h -> rng_next g <> rng_next h.
Proof.
  intros Hg Hh Hne E. apply xor_zero in E. rewrite <- next_linear in E by assumption. revert E.
  apply next_nonzero; [now apply xor_wf|]. rewrite xor_zero. exact Hne.
Qed.
Lemma after_inj k : forall g h, wf_rng g -> wf_rng h -> g <> h -> rng_after k g <> rng_after k h.
Proof. induction k as [|k IH]; intros g h Hg Hh Hne; [exact Hne|]. simpl. apply IH; [now apply next_wf|now apply next_wf|now apply next_inj]. Qed.

(** The streams of different rays never fall into step: after the same number of draws the
    two states are still different. *)
Theorem C14_streams_stay_distinct : forall seed i j k, Z.of_nat i < 2 ^ 64 -> Z.of_nat j < 2 ^ 64 -> i <> j ->
  rng_after k (rng_seed (ray_seed seed i)) <> rng_after k (rng_seed (ray_seed seed j)).
Proof.
  intros seed i j k Hi Hj Hne. apply after_inj; [apply seed_wf|apply seed_wf|]. intros E.
  apply (C14_distinct_streams seed i j Hi Hj Hne). now rewrite E.
Qed.
Print Assumptions C14_streams_stay_distinct.

(** Concrete values: the published first outputs of splitmix64 from state 0, the seed wrapping
    round at 2^64, a state, and a draw strictly between 0 and 1. *)
Example C14_example :
  rng_seed 0 = Rng 0xE220A8397B1DCDAF 0x6E789E6AA1B965F4 0x06C45D188009454F 0xF88BB8A8724C81EC /\
  ray_seed (2 ^ 64 - 1) 1 = 0 /\ rng_result (rng_seed 0) = 0xDAAC60E1ED6A4F9B /\
  (0 < nth_draw 0 (rng_seed 0) < 1)%R /\ rng_after 1 (rng_seed 0) <> rng_seed 0.
Proof.
  split; [vm_compute; reflexivity|]. split; [vm_compute; reflexivity|]. split; [vm_compute; reflexivity|].
  split; [|vm_compute; discriminate].
  unfold nth_draw, rng_draw. cbn [rng_after].
  set (z := Z.shiftr _ 11). let v := eval vm_compute in z in assert (E : z = v) by (vm_compute; reflexivity).
  rewrite E. lra.
Qed.
