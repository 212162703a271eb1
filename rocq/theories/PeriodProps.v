(** C128: the period of the generator of the compiled engine. *)
From Coq Require Import ZArith NArith Znumtheory List Lia Bool.
From Verif Require Import RngModel RngProps PrimeProofs.
Import ListNotations.
Open Scope Z_scope.

Definition zero_rng : rng := Rng 0 0 0 0.
Lemma zero_wf : wf_rng zero_rng.
Proof. unfold wf_rng, is_word, zero_rng, W; cbn. lia. Qed.
Lemma xor_comm g h : rng_xor g h = rng_xor h g.
Proof. unfold rng_xor. f_equal; apply Z.lxor_comm. Qed.
Lemma xor_assoc a b c : rng_xor (rng_xor a b) c = rng_xor a (rng_xor b c).
Proof. unfold rng_xor; cbn. f_equal; apply Z.lxor_assoc. Qed.
Lemma xor_0_r g : rng_xor g zero_rng = g.
Proof. destruct g. unfold rng_xor; cbn. now rewrite !Z.lxor_0_r. Qed.
Lemma xor_0_l g : rng_xor zero_rng g = g.
Proof. now rewrite xor_comm, xor_0_r. Qed.
Lemma xor_self g : rng_xor g g = zero_rng.
Proof. unfold rng_xor. now rewrite !Z.lxor_nilpotent. Qed.
Lemma next_zero : rng_next zero_rng = zero_rng.
Proof. reflexivity. Qed.
Lemma zero_iff g : all_zero g <-> g = zero_rng.
Proof. destruct g. unfold all_zero, zero_rng; cbn. split; [intros (-> & -> & -> & ->)|intros H; injection H]; auto. Qed.
Lemma xor4 a b c d : rng_xor (rng_xor a b) (rng_xor c d) = rng_xor (rng_xor a c) (rng_xor b d).
Proof. unfold rng_xor; cbn. f_equal; apply lxor4. Qed.

(** ** Polynomials over the two-element field, as numbers: bit [i] is the coefficient of x^i.  [ev a g]: the
    polynomial with the step for x, applied to a state. *)
Fixpoint ev (a : positive) (g : rng) : rng :=
  match a with xH => g | xO p => rng_next (ev p g) | xI p => rng_xor g (rng_next (ev p g)) end.
Definition evN (a : N) (g : rng) : rng := match a with N0 => zero_rng | Npos p => ev p g end.
Lemma ev_wf a g : wf_rng g -> wf_rng (ev a g).
Proof. intros H. induction a; cbn [ev]; auto using next_wf, xor_wf. Qed.
Lemma evN_wf a g : wf_rng g -> wf_rng (evN a g).
Proof. intros H. destruct a; [apply zero_wf|now apply ev_wf]. Qed.
Lemma ev_linear a g h : wf_rng g -> wf_rng h -> ev a (rng_xor g h) = rng_xor (ev a g) (ev a h).
Proof.
  intros Hg Hh. induction a as [a IH|a IH|]; cbn [ev].
  - rewrite IH, next_linear by now apply ev_wf. apply xor4.
  - rewrite IH, next_linear by now apply ev_wf. reflexivity.
  - reflexivity.
Qed.
Lemma ev_next a g : wf_rng g -> ev a (rng_next g) = rng_next (ev a g).
Proof.
  intros Hg. induction a as [a IH|a IH|]; cbn [ev].
  - rewrite IH. symmetry. apply next_linear; [exact Hg|]. apply next_wf. now apply ev_wf.
  - now rewrite IH.
  - reflexivity.
Qed.
Lemma ev_zero a : ev a zero_rng = zero_rng.
Proof. induction a as [a IH|a IH|]; cbn [ev]; try rewrite IH; reflexivity. Qed.
Lemma evN_zero a : evN a zero_rng = zero_rng.
Proof. destruct a; [reflexivity|apply ev_zero]. Qed.
Lemma evN_double a g : evN (N.double a) g = rng_next (evN a g).
Proof. destruct a; reflexivity. Qed.
Lemma evN_succ_double a g : evN (N.succ_double a) g = rng_xor g (rng_next (evN a g)).
Proof. destruct a; cbn; [now rewrite next_zero, xor_0_r|reflexivity]. Qed.
Lemma evN_lxor a b g : wf_rng g -> evN (N.lxor a b) g = rng_xor (evN a g) (evN b g).
Proof.
  intros Hg. destruct a as [|a]; [cbn [N.lxor evN]; now rewrite xor_0_l|]. destruct b as [|b]; [cbn [N.lxor evN]; now rewrite xor_0_r|].
  cbn [N.lxor evN]. revert b. induction a as [a IH|a IH|]; intros b; destruct b as [b|b|]; cbn [Pos.lxor ev].
  - rewrite evN_double, IH, next_linear by now apply ev_wf. rewrite xor4, xor_self. now rewrite xor_0_l.
  - rewrite evN_succ_double, IH, next_linear by now apply ev_wf. now rewrite xor_assoc.
  - cbn [evN ev]. now rewrite (xor_comm g), xor_assoc, xor_self, xor_0_r.
  - rewrite evN_succ_double, IH, next_linear by now apply ev_wf. rewrite <- !xor_assoc. f_equal. apply xor_comm.
  - rewrite evN_double, IH, next_linear by now apply ev_wf. reflexivity.
  - cbn [evN ev]. apply xor_comm.
  - cbn [evN ev]. now rewrite <- xor_assoc, xor_self, xor_0_l.
  - cbn [evN ev]. reflexivity.
  - now rewrite xor_self.
Qed.

(** ** The characteristic polynomial *)
Definition P : N := 0x10003c03c3f3ecb1904b4edcf26259f850280002bcefd1a5e9d116f2bb0f0f001%N.
Definition is_zero (g : rng) : bool := (s0 g =? 0) && (s1 g =? 0) && (s2 g =? 0) && (s3 g =? 0).
(** the step with masks instead of divisions: the kernel computes it much faster *)
Definition mask : Z := 0xffffffffffffffff.
Definition fast_next (g : rng) : rng :=
  let '(Rng a b c d) := g in
  let b2 := Z.lxor c a in let b3 := Z.lxor d b in
  Rng (Z.lxor a b3) (Z.lxor b b2) (Z.lxor b2 (Z.land (Z.shiftl b 17) mask)) (Z.lxor (Z.land (Z.shiftl b3 45) mask) (Z.shiftr b3 19)).
Lemma word_mask x : word x = Z.land x mask.
Proof. change mask with (Z.ones 64). rewrite Z.land_ones by discriminate. reflexivity. Qed.
Lemma fast_next_spec g : wf_rng g -> fast_next g = rng_next g.
Proof.
  intros (A & B & C & D). destruct g as [a b c d]. cbn [s0 s1 s2 s3] in *. unfold fast_next, rng_next. cbn [s0 s1 s2 s3].
  rewrite rotl_lxor_form; [|lia|now apply word_lxor]. rewrite !word_mask. reflexivity.
Qed.
Fixpoint fast_ev (a : positive) (g : rng) : rng :=
  match a with xH => g | xO p => fast_next (fast_ev p g) | xI p => rng_xor g (fast_next (fast_ev p g)) end.
Definition fast_evN (a : N) (g : rng) : rng := match a with N0 => zero_rng | Npos p => fast_ev p g end.
Lemma fast_ev_spec a g : wf_rng g -> fast_evN a g = evN a g.
Proof.
  intros Hg. destruct a as [|a]; [reflexivity|]. cbn [fast_evN evN]. induction a as [a IH|a IH|]; cbn [fast_ev ev]; [| |reflexivity];
    (rewrite IH, fast_next_spec by (now apply ev_wf)); reflexivity.
Qed.
Lemma P_on_units : forallb (fun k => is_zero (fast_evN P (Rng 0 0 0 (2 ^ Z.of_nat k)))) (seq 0 64) = true.
Proof. vm_compute. reflexivity. Qed.
Lemma word_ind (Q : Z -> Prop) : Q 0 -> (forall k, (k < 64)%nat -> Q (2 ^ Z.of_nat k)) ->
  (forall x y, is_word x -> is_word y -> Q x -> Q y -> Q (Z.lxor x y)) -> forall x, is_word x -> Q x.
Proof.
  intros Q0 Qk Qx. assert (G : forall n, (n <= 64)%nat -> forall x, 0 <= x < 2 ^ Z.of_nat n -> Q x).
  { induction n as [|n IH]; intros Hn x Hx; [cbn in Hx; now replace x with 0 by lia|].
    assert (E : 2 ^ Z.of_nat (S n) = 2 * 2 ^ Z.of_nat n) by (rewrite Nat2Z.inj_succ, Z.pow_succ_r by lia; reflexivity). rewrite E in Hx.
    assert (Pn : 0 < 2 ^ Z.of_nat n) by (apply Z.pow_pos_nonneg; lia).
    assert (B64 : 2 ^ Z.of_nat n < W) by (unfold W; apply Z.pow_lt_mono_r; lia).
    destruct (Z_lt_le_dec x (2 ^ Z.of_nat n)) as [L|L]; [apply IH; lia|].
    set (y := x - 2 ^ Z.of_nat n). assert (Hy : 0 <= y < 2 ^ Z.of_nat n) by (unfold y; lia).
    replace x with (Z.lxor (2 ^ Z.of_nat n) y).
    - apply Qx; [unfold is_word; lia|unfold is_word; lia|apply Qk; lia|apply IH; lia].
    - rewrite <- Z.add_nocarry_lxor; [unfold y; lia|]. apply Z.bits_inj'. intros m Hm. rewrite Z.land_spec, Z.bits_0.
      destruct (Z.eq_dec m (Z.of_nat n)) as [->|Nm].
      + rewrite andb_comm. destruct (Z.eq_dec y 0) as [->|Ny]; [now rewrite Z.bits_0|]. rewrite Z.bits_above_log2; [reflexivity|lia|]. apply Z.log2_lt_pow2; lia.
      + rewrite Z.pow2_bits_false by lia. reflexivity. }
  intros x Hx. apply (G 64%nat); [lia|]. exact Hx.
Qed.
Lemma is_zero_spec g : is_zero g = true -> g = zero_rng.
Proof.
  unfold is_zero. intros H. repeat (apply andb_prop in H; destruct H as [H ?]).
  repeat match goal with K : (_ =? _) = true |- _ => apply Z.eqb_eq in K end. apply zero_iff. repeat split; assumption.
Qed.
Lemma evN_next a g : wf_rng g -> evN a (rng_next g) = rng_next (evN a g).
Proof. intros Hg. destruct a; [reflexivity|now apply ev_next]. Qed.
(** The states that P sends to zero form a space closed under the step.  It contains the states of the
    last word, hence those of the first, of the third and of the second. *)
Lemma P_zero g : wf_rng g -> evN P g = zero_rng.
Proof.
  assert (L : forall g h, wf_rng g -> wf_rng h -> evN P g = zero_rng -> evN P h = zero_rng -> evN P (rng_xor g h) = zero_rng).
  { intros g1 h1 Hg Hh E1 E2. cbn [evN P] in *. rewrite ev_linear, E1, E2 by assumption. apply xor_self. }
  assert (N : forall g, wf_rng g -> evN P g = zero_rng -> evN P (rng_next g) = zero_rng).
  { intros g1 Hg E1. rewrite evN_next, E1 by exact Hg. apply next_zero. }
  assert (Z0 : is_word 0) by (unfold is_word, W; lia).
  assert (D : forall x, is_word x -> evN P (Rng 0 0 0 x) = zero_rng).
  { apply word_ind; [apply (evN_zero P)| |].
    - intros k Hk. pose proof P_on_units as U. rewrite forallb_forall in U. specialize (U k). rewrite in_seq in U. specialize (U ltac:(lia)).
      rewrite fast_ev_spec in U; [now apply is_zero_spec|]. unfold wf_rng; cbn [s0 s1 s2 s3]. repeat split; try apply Z0; unfold W; [apply Z.pow_nonneg|apply Z.pow_lt_mono_r]; lia.
    - intros x y Hx Hy Ex Ey. replace (Rng 0 0 0 (Z.lxor x y)) with (rng_xor (Rng 0 0 0 x) (Rng 0 0 0 y)) by reflexivity. apply L; auto; unfold wf_rng; cbn; auto. }
  assert (WR : forall x, is_word x -> is_word (rotl x 45)).
  { intros x Hx. unfold rotl. apply word_lor; [apply word_is_word|]. apply word_shiftr; [lia|exact Hx]. }
  assert (A : forall x, is_word x -> evN P (Rng x 0 0 0) = zero_rng).
  { intros x Hx. replace (Rng x 0 0 0) with (rng_xor (rng_next (Rng 0 0 0 x)) (Rng 0 0 0 (rotl x 45))).
    - apply L; [apply next_wf; unfold wf_rng; cbn; auto|unfold wf_rng; cbn; auto|apply N; [unfold wf_rng; cbn; auto|now apply D]|apply D; auto].
    - unfold rng_next, rng_xor. cbn [s0 s1 s2 s3]. change (word (Z.shiftl 0 17)) with 0; repeat (rewrite ?Z.lxor_0_r, ?Z.lxor_0_l, ?Z.lxor_nilpotent); reflexivity. }
  assert (BC : forall x, is_word x -> evN P (Rng 0 x x 0) = zero_rng).
  { intros x Hx. replace (Rng 0 x x 0) with (rng_xor (rng_next (Rng x 0 0 0)) (Rng x 0 0 0)).
    - apply L; [apply next_wf; unfold wf_rng; cbn; auto|unfold wf_rng; cbn; auto|apply N; [unfold wf_rng; cbn; auto|now apply A]|apply A; auto].
    - unfold rng_next, rng_xor. cbn [s0 s1 s2 s3]. change (word (Z.shiftl 0 17)) with 0; repeat (rewrite ?Z.lxor_0_r, ?Z.lxor_0_l, ?Z.lxor_nilpotent); reflexivity. }
  assert (WS : forall x, is_word (word (Z.shiftl x 17))) by (intros x; apply word_is_word).
  assert (C1 : forall x, is_word x -> evN P (Rng 0 0 (Z.lxor x (word (Z.shiftl x 17))) 0) = zero_rng).
  { intros x Hx. replace (Rng 0 0 (Z.lxor x (word (Z.shiftl x 17))) 0) with (rng_xor (rng_next (Rng 0 x x 0)) (rng_xor (Rng x 0 0 0) (Rng 0 0 0 (rotl x 45)))).
    - assert (W1 : wf_rng (Rng 0 x x 0)) by (unfold wf_rng; cbn; auto). assert (W2 : wf_rng (Rng x 0 0 0)) by (unfold wf_rng; cbn; auto). assert (W3 : wf_rng (Rng 0 0 0 (rotl x 45))) by (unfold wf_rng; cbn; auto).
      apply L; [now apply next_wf|now apply xor_wf|apply N; [exact W1|now apply BC]|apply L; auto].
    - unfold rng_next, rng_xor. cbn [s0 s1 s2 s3]. change (word (Z.shiftl 0 17)) with 0; repeat (rewrite ?Z.lxor_0_r, ?Z.lxor_0_l, ?Z.lxor_nilpotent); reflexivity. }
  (* x + (x << 17) reaches every word: from the top bit downwards *)
  assert (Cc : forall n, (n <= 64)%nat -> forall x, 0 <= x < 2 ^ Z.of_nat n -> evN P (Rng 0 0 (word (Z.shiftl x (64 - Z.of_nat n))) 0) = zero_rng).
  { induction n as [n IH] using lt_wf_ind. intros Hn x Hx. set (y := word (Z.shiftl x (64 - Z.of_nat n))).
    assert (Wy : is_word y) by apply word_is_word.
    replace (Rng 0 0 y 0) with (rng_xor (Rng 0 0 (Z.lxor y (word (Z.shiftl y 17))) 0) (Rng 0 0 (word (Z.shiftl y 17)) 0)).
    2:{ unfold rng_xor. cbn [s0 s1 s2 s3]. f_equal; rewrite Z.lxor_assoc, Z.lxor_nilpotent; apply Z.lxor_0_r. }
    assert (Sh : word (Z.shiftl y 17) = word (Z.shiftl x (64 - Z.of_nat n + 17))).
    { unfold y, word. rewrite !Z.shiftl_mul_pow2 by lia. rewrite Z.mul_mod_idemp_l by discriminate. rewrite <- Z.mul_assoc, <- Z.pow_add_r by lia. reflexivity. }
    assert (WX : is_word (Z.lxor y (word (Z.shiftl y 17)))) by (apply word_lxor; auto).
    apply L; [unfold wf_rng; cbn [s0 s1 s2 s3]; auto|unfold wf_rng; cbn [s0 s1 s2 s3]; auto|now apply C1|]. rewrite Sh.
    destruct (le_lt_dec 17 n) as [Ln|Ln].
    - replace (64 - Z.of_nat n + 17) with (64 - Z.of_nat (n - 17)) by lia.
      replace (word (Z.shiftl x (64 - Z.of_nat (n - 17)))) with (word (Z.shiftl (x mod 2 ^ Z.of_nat (n - 17)) (64 - Z.of_nat (n - 17)))).
      + apply IH; [lia|lia|]. apply Z.mod_pos_bound. apply Z.pow_pos_nonneg; lia.
      + unfold word. rewrite !Z.shiftl_mul_pow2 by lia. set (m := Z.of_nat (n - 17)). assert (0 <= m <= 64) by lia. unfold W.
        replace (2 ^ 64) with (2 ^ m * 2 ^ (64 - m)) by (rewrite <- Z.pow_add_r by lia; f_equal; lia).
        rewrite !Z.mul_mod_distr_r by (apply Z.pow_nonzero; lia). rewrite Z.mod_mod by (apply Z.pow_nonzero; lia). reflexivity.
    - replace (word (Z.shiftl x (64 - Z.of_nat n + 17))) with 0; [apply (evN_zero P)|]. unfold word, W. rewrite Z.shiftl_mul_pow2 by lia.
      replace (64 - Z.of_nat n + 17) with (64 + (17 - Z.of_nat n)) by lia. rewrite Z.pow_add_r by lia. symmetry.
      replace (x * (2 ^ 64 * 2 ^ (17 - Z.of_nat n))) with (x * 2 ^ (17 - Z.of_nat n) * 2 ^ 64) by ring. apply Z.mod_mul. discriminate. }
  assert (C : forall x, is_word x -> evN P (Rng 0 0 x 0) = zero_rng).
  { intros x Hx. rewrite <- (word_id x Hx). specialize (Cc 64%nat ltac:(lia) x). cbn [Z.of_nat] in Cc. replace (Z.shiftl x (64 - Z.of_nat 64)) with x in Cc by reflexivity. apply Cc. exact Hx. }
  assert (B : forall x, is_word x -> evN P (Rng 0 x 0 0) = zero_rng).
  { intros x Hx. replace (Rng 0 x 0 0) with (rng_xor (Rng 0 x x 0) (Rng 0 0 x 0)); [apply L; auto; unfold wf_rng; cbn; auto|]. unfold rng_xor; cbn [s0 s1 s2 s3]. repeat (rewrite ?Z.lxor_0_r, ?Z.lxor_0_l, ?Z.lxor_nilpotent); reflexivity. }
  intros (H0 & H1 & H2 & H3). destruct g as [a b c d]. cbn [s0 s1 s2 s3] in *.
  replace (Rng a b c d) with (rng_xor (rng_xor (Rng a 0 0 0) (Rng 0 b 0 0)) (rng_xor (Rng 0 0 c 0) (Rng 0 0 0 d))).
  2:{ unfold rng_xor; cbn [s0 s1 s2 s3]. now rewrite !Z.lxor_0_r, !Z.lxor_0_l. }
  apply L; [apply xor_wf|apply xor_wf|apply L|apply L]; auto; unfold wf_rng; cbn; auto.
Qed.

(** ** Arithmetic modulo the characteristic polynomial *)
Definition xtime (r : N) : N := let d := N.double r in if N.testbit r 255 then N.lxor d P else d.
Fixpoint mulmod (a : positive) (b : N) : N :=
  match a with xH => b | xO p => xtime (mulmod p b) | xI p => N.lxor b (xtime (mulmod p b)) end.
Definition mulN (a b : N) : N := match a with N0 => N0 | Npos p => mulmod p b end.
Lemma xtime_spec r g : wf_rng g -> evN (xtime r) g = rng_next (evN r g).
Proof.
  intros Hg. unfold xtime. cbv zeta. destruct (N.testbit r 255); [|apply evN_double]. rewrite evN_lxor, P_zero, xor_0_r by exact Hg. apply evN_double.
Qed.
Lemma mulN_spec a b g : wf_rng g -> evN (mulN a b) g = evN a (evN b g).
Proof.
  intros Hg. destruct a as [|a]; [reflexivity|]. cbn [mulN evN]. induction a as [a IH|a IH|]; cbn [mulmod ev].
  - rewrite evN_lxor, xtime_spec, IH by exact Hg. reflexivity.
  - rewrite xtime_spec, IH by exact Hg. reflexivity.
  - reflexivity.
Qed.
(** squares: the bits spread, those above x^255 replaced by the powers of x in a table *)
Fixpoint spread (p : positive) : positive := match p with xH => xH | xO p => xO (xO (spread p)) | xI p => xI (xO (spread p)) end.
Definition spreadN (a : N) : N := match a with N0 => N0 | Npos p => Npos (spread p) end.
Fixpoint cut (n : nat) (p : positive) : N * N :=
  match n with
  | O => (0%N, Npos p)
  | S n => match p with
           | xH => (1%N, 0%N)
           | xO p => let '(a, b) := cut n p in (N.double a, b)
           | xI p => let '(a, b) := cut n p in (N.succ_double a, b)
           end
  end.
Fixpoint powers (n : nat) (t : N) : list N := match n with O => [] | S n => t :: powers n (xtime (xtime t)) end.
Definition above : list N := Eval vm_compute in powers 128 (Nat.iter 256 xtime 1%N).
Definition beyond : N := Eval vm_compute in Nat.iter 512 xtime 1%N.
Fixpoint pick (p : positive) (table : list N) (acc : N) {struct table} : N :=
  match table with
  | [] => N.lxor acc (mulmod (spread p) beyond)
  | t :: table => match p with xH => N.lxor acc t | xO p => pick p table acc | xI p => pick p table (N.lxor acc t) end
  end.
Definition square (r : N) : N :=
  match r with
  | N0 => N0
  | Npos p => let '(a, b) := cut 128 p in match b with N0 => spreadN a | Npos b => pick b above (spreadN a) end
  end.
(** x^n *)
Fixpoint powmod (n : positive) : N :=
  match n with xH => 2%N | xO p => square (powmod p) | xI p => xtime (square (powmod p)) end.
Lemma above_powers : above = powers 128 (Nat.iter 256 xtime 1%N) /\ beyond = Nat.iter 256 xtime (Nat.iter 256 xtime 1%N).
Proof. vm_compute. split; reflexivity. Qed.
Fixpoint steps (n : nat) (g : rng) : rng := match n with O => g | S n => rng_next (steps n g) end.
Lemma steps_wf n g : wf_rng g -> wf_rng (steps n g).
Proof. intros H. induction n; cbn [steps]; auto using next_wf. Qed.
Lemma iter_xtime n t g : wf_rng g -> evN (Nat.iter n xtime t) g = steps n (evN t g).
Proof. intros Hg. induction n as [|n IH]; [reflexivity|]. cbn [Nat.iter nat_rect steps]. change (nat_rect (fun _ => N) t (fun _ => xtime) n) with (Nat.iter n xtime t). now rewrite xtime_spec, IH. Qed.
Lemma steps_add a b g : steps (a + b) g = steps a (steps b g).
Proof. induction a as [|a IH]; cbn [steps Nat.add]; [reflexivity|now rewrite IH]. Qed.
Lemma steps_xor n g h : wf_rng g -> wf_rng h -> steps n (rng_xor g h) = rng_xor (steps n g) (steps n h).
Proof. intros Hg Hh. induction n as [|n IH]; cbn [steps]; [reflexivity|]. rewrite IH. apply next_linear; now apply steps_wf. Qed.
Lemma evN_steps n a g : wf_rng g -> evN a (steps n g) = steps n (evN a g).
Proof. intros Hg. induction n as [|n IH]; cbn [steps]; [reflexivity|]. rewrite evN_next, IH by now apply steps_wf. reflexivity. Qed.
Lemma spread_square p g : wf_rng g -> ev (spread p) g = ev p (ev p g).
Proof.
  intros Hg. induction p as [p IH|p IH|]; cbn [spread ev]; [| |reflexivity]; rewrite IH.
  - assert (W1 : wf_rng (ev p g)) by now apply ev_wf. rewrite ev_linear by (auto using next_wf). rewrite next_linear by (apply ev_wf; auto using next_wf).
    rewrite (ev_next p (ev p g)) by assumption. generalize (rng_next (ev p g)), (rng_next (rng_next (ev p (ev p g)))). intros x y.
    rewrite xor_assoc, <- (xor_assoc x x y), xor_self, xor_0_l. reflexivity.
  - rewrite ev_next by now apply ev_wf. reflexivity.
Qed.
Lemma spread_double a g : evN (spreadN (N.double a)) g = rng_next (rng_next (evN (spreadN a) g)).
Proof. destruct a; reflexivity. Qed.
Lemma spread_succ_double a g : evN (spreadN (N.succ_double a)) g = rng_xor g (rng_next (rng_next (evN (spreadN a) g))).
Proof. destruct a; cbn; [now rewrite !next_zero, xor_0_r|reflexivity]. Qed.
Lemma cut_spread n : forall p a b g, wf_rng g -> cut n p = (a, b) -> evN (Npos (spread p)) g = rng_xor (evN (spreadN a) g) (steps (2 * n) (evN (spreadN b) g)).
Proof.
  induction n as [|n IH]; intros p a b g Hg E; cbn [cut] in E.
  - injection E as <- <-. cbn. now rewrite xor_0_l.
  - replace (2 * S n)%nat with (S (S (2 * n))) by lia. destruct p as [p|p|].
    + destruct (cut n p) as [a' b'] eqn:C. injection E as <- <-. rewrite spread_succ_double. cbn [steps]. cbn [spread evN ev]. change (ev (spread p) g) with (evN (Npos (spread p)) g).
      rewrite (IH p a' b' g Hg C). rewrite next_linear by auto using evN_wf, steps_wf. rewrite next_linear by auto using next_wf, evN_wf, steps_wf. now rewrite xor_assoc.
    + destruct (cut n p) as [a' b'] eqn:C. injection E as <- <-. rewrite spread_double. cbn [steps]. cbn [spread evN ev]. change (ev (spread p) g) with (evN (Npos (spread p)) g).
      rewrite (IH p a' b' g Hg C). rewrite next_linear by auto using evN_wf, steps_wf. rewrite next_linear by auto using next_wf, evN_wf, steps_wf. reflexivity.
    + injection E as <- <-. cbn [spreadN spread evN ev]. replace (steps (S (S (2 * n))) zero_rng) with zero_rng; [now rewrite xor_0_r|].
      clear. generalize (S (S (2 * n))). intros m. induction m as [|m IH]; [reflexivity|]. cbn [steps]. now rewrite <- IH.
Qed.
Lemma pick_spec n : forall p t acc g, wf_rng g -> beyond = Nat.iter (2 * n) xtime t ->
  evN (pick p (powers n t) acc) g = rng_xor (evN acc g) (evN (Npos (spread p)) (evN t g)).
Proof.
  induction n as [|n IH]; intros p t acc g Hg E; cbn [powers pick].
  - rewrite evN_lxor by exact Hg. change (mulmod (spread p) beyond) with (mulN (Npos (spread p)) beyond). rewrite mulN_spec, E by exact Hg. reflexivity.
  - assert (E2 : beyond = Nat.iter (2 * n) xtime (xtime (xtime t))).
    { rewrite E. replace (2 * S n)%nat with (2 * n + 2)%nat by lia. unfold Nat.iter. rewrite nat_rect_plus. reflexivity. }
    assert (Wt : wf_rng (evN t g)) by now apply evN_wf.
    destruct p as [p|p|].
    + rewrite (IH _ _ _ g Hg E2). rewrite evN_lxor, !xtime_spec by exact Hg. rewrite !evN_next by auto using next_wf. cbn [spread evN ev]. now rewrite xor_assoc.
    + rewrite (IH _ _ _ g Hg E2). rewrite !xtime_spec by exact Hg. rewrite !evN_next by auto using next_wf. reflexivity.
    + rewrite evN_lxor by exact Hg. reflexivity.
Qed.
Lemma square_spec r g : wf_rng g -> evN (square r) g = evN r (evN r g).
Proof.
  intros Hg. destruct r as [|p]; [reflexivity|]. unfold square. destruct (cut 128 p) as [a b] eqn:C. cbn [evN]. rewrite <- spread_square by exact Hg.
  change (ev (spread p) g) with (evN (Npos (spread p)) g). rewrite (cut_spread 128 p a b g Hg C). destruct above_powers as [A B]. destruct b as [|b].
  - cbn [spreadN evN]. replace (steps (2 * 128) zero_rng) with zero_rng; [now rewrite xor_0_r|]. generalize (2 * 128)%nat. intros m. induction m as [|m IH]; [reflexivity|]. cbn [steps]. now rewrite <- IH.
  - rewrite A, pick_spec; [|exact Hg|exact B]. f_equal. rewrite iter_xtime by exact Hg. change (evN 1 g) with g. rewrite evN_steps by exact Hg. reflexivity.
Qed.
Lemma after_add a b g : rng_after (a + b) g = rng_after b (rng_after a g).
Proof. revert g. induction a as [|a IH]; intros g; cbn [rng_after Nat.add]; auto. Qed.
Lemma after_next a g : rng_after a (rng_next g) = rng_next (rng_after a g).
Proof. change (rng_after a (rng_next g)) with (rng_after (S a) g). rewrite <- Nat.add_1_r, after_add. reflexivity. Qed.
Lemma after_keeps_wf k : forall g, wf_rng g -> wf_rng (rng_after k g).
Proof. induction k as [|k IH]; intros g H; [exact H|]. cbn. apply IH. now apply next_wf. Qed.
Lemma powmod_spec n g : wf_rng g -> evN (powmod n) g = rng_after (Pos.to_nat n) g.
Proof.
  revert g. induction n as [n IH|n IH|]; intros g Hg; cbn [powmod].
  - rewrite xtime_spec, square_spec by exact Hg. rewrite (IH g Hg). rewrite IH by now apply after_keeps_wf.
    rewrite Pos2Nat.inj_xI. rewrite <- after_add, <- after_next. cbn [rng_after]. f_equal. lia.
  - rewrite square_spec by exact Hg. rewrite (IH g Hg). rewrite IH by now apply after_keeps_wf.
    rewrite Pos2Nat.inj_xO, <- after_add. f_equal. lia.
  - reflexivity.
Qed.
Lemma whole_period : powmod (Z.to_pos (2 ^ 256 - 1)) = 1%N.
Proof. vm_compute. reflexivity. Qed.
(** the inverses of x^((2^256 - 1) / q) + 1 for the prime factors q *)
Definition inverses : list N :=
  [0x54d6a48aae687fb68b7f13ce6607e276afab085596734aa97762f281b25ed783;
   0x9b17f5767b72e1a3c673d4c3e369b20235e972559753b37fdedc95dc103781f;
   0xf4646ef27133b2d46393a4c40448d75b8f3adcab0a20793ef8bb26f5b81e7ecf;
   0x618e9a9a97b4105e9870464ee696824b10a336ec58f59159b1165cabfe23cd76;
   0x56ced9120f236c15fdd49ed161d46abc0269afa58693de573c5dcc0645c4b0ff;
   0x5b7382b05dc5a20686e618650a39fab806017ce589bb2d98cf9b5a05139e793f;
   0x24d5461cfd63732f63b6b60adc840b312db07c0c8c7b46872d3955d70f9e6ac5;
   0x1c10854fe79f6066b6b1fe5c68be2282e701b5777ef01c8fd5b0ea5458d18c36;
   0xc3bc6f4888606c0bfb4a6ce96aa43d28506b49c1c962aba2928641dd24af8cf8;
   0x2b0b5d0e0d5dcbfd343a0c7c13920e58856efc82f8b6f3e99a6368bb225afce6;
   0xca8fcba3c0dd08871d4e3f7290e3e7fb8436109b90a55fd4bc6fe9d31b611e5]%N.
Lemma no_shorter : forallb (fun '(q, h) => N.eqb (mulN h (N.lxor (powmod (Z.to_pos ((2 ^ 256 - 1) / q))) 1)) 1) (combine period_primes inverses) = true.
Proof. vm_compute. reflexivity. Qed.

Lemma prime_step q g : In q period_primes -> wf_rng g -> rng_after (Z.to_nat ((2 ^ 256 - 1) / q)) g = g -> g = zero_rng.
Proof.
  intros Hq Hg E.
  assert (Hh : exists h, In (q, h) (combine period_primes inverses)).
  { unfold period_primes, inverses in *. cbn [In combine] in *. repeat (destruct Hq as [<-|Hq]; [eexists; repeat (first [left; reflexivity|right])|]). contradiction. }
  destruct Hh as [h Hh]. pose proof no_shorter as NS. rewrite forallb_forall in NS. specialize (NS _ Hh). cbv beta iota in NS. apply N.eqb_eq in NS.
  assert (Ev : evN (mulN h (N.lxor (powmod (Z.to_pos ((2 ^ 256 - 1) / q))) 1)) g = evN 1 g) by now rewrite NS.
  assert (Pq : 0 < (2 ^ 256 - 1) / q).
  { clear - Hq. unfold period_primes in Hq. cbn [In] in Hq. repeat (destruct Hq as [<-|Hq]; [vm_compute; reflexivity|]). contradiction. }
  rewrite mulN_spec, evN_lxor, powmod_spec in Ev by exact Hg. cbn [evN ev] in Ev.
  replace (Pos.to_nat (Z.to_pos ((2 ^ 256 - 1) / q))) with (Z.to_nat ((2 ^ 256 - 1) / q)) in Ev.
  - rewrite E, xor_self, evN_zero in Ev. now symmetry.
  - rewrite <- (Z2Pos.id ((2 ^ 256 - 1) / q)) at 1 by exact Pq. apply Z2Nat.inj_pos.
Qed.
Lemma period_divides g k : wf_rng g -> ~ all_zero g -> 0 < k -> rng_after (Z.to_nat k) g = g -> (2 ^ 256 - 1 | k).
Proof.
  intros Hg Nz Hk E. rewrite <- period_factors.
  apply (order_divides (fun k => rng_after (Z.to_nat k) g = g)); [reflexivity| | |exact period_primes_prime|rewrite period_factors; reflexivity| | |exact Hk|exact E].
  - intros a b Ha Hb Ea Eb. now rewrite Z2Nat.inj_add, after_add, Ea, Eb by assumption.
  - intros a b Ha Hb Ea Eb. rewrite Z2Nat.inj_add, after_add, Eb in Ea by assumption. exact Ea.
  - rewrite period_factors. rewrite <- (Z2Pos.id (2 ^ 256 - 1)) by reflexivity. rewrite Z2Nat.inj_pos, <- powmod_spec by exact Hg. now rewrite whole_period.
  - intros q Hq Eq. rewrite period_factors in Eq. apply Nz, zero_iff. now apply (prime_step q).
Qed.
Lemma period_closes g : wf_rng g -> rng_after (Z.to_nat (2 ^ 256 - 1)) g = g.
Proof.
  intros Hg. rewrite <- (Z2Pos.id (2 ^ 256 - 1)) by reflexivity. rewrite Z2Nat.inj_pos, <- powmod_spec by exact Hg. now rewrite whole_period.
Qed.

(** The generator of a ray comes back to a state after exactly 2^256 - 1 draws: two states are equal only
    if the number of draws between them is a multiple of that. *)
Theorem C128_period : forall seed i j k, let g := rng_seed (ray_seed seed i) in
  rng_after j g = rng_after k g <-> (2 ^ 256 - 1 | Z.of_nat k - Z.of_nat j).
Proof.
  intros seed i j k g. assert (Hg : wf_rng g) by apply seed_wf. assert (Nz : ~ all_zero g) by apply seed_nonzero. clearbody g.
  assert (G : forall j d, rng_after j g = rng_after (j + d) g <-> (2 ^ 256 - 1 | Z.of_nat d)).
  { clear j k. intros j d. rewrite after_add. destruct (after_wf j g Hg Nz) as [Hj Zj]. set (h := rng_after j g) in *. clearbody h. clear g Hg Nz.
    set (N := 2 ^ 256 - 1) in *. split.
    - intros E. destruct d as [|d]; [now apply Z.divide_0_r|]. apply (period_divides h); auto; [lia|]. now rewrite Nat2Z.id.
    - intros [m Em]. assert (PN : 0 < N) by reflexivity. pose proof (period_closes h Hj) as C. fold N in C. clearbody N.
      assert (Hm : 0 <= m) by nia. revert d Em. pattern m. apply natlike_ind; [intros d Ed; replace d with 0%nat by lia; reflexivity| |exact Hm].
      intros x Hx IH d Ed. replace d with (Z.to_nat N + (d - Z.to_nat N))%nat by nia. rewrite after_add, C. apply IH. nia. }
  destruct (Nat.le_ge_cases j k) as [L|L].
  - replace k with (j + (k - j))%nat at 1 by lia. rewrite G. now replace (Z.of_nat (k - j)) with (Z.of_nat k - Z.of_nat j) by lia.
  - split.
    + intros E. symmetry in E. replace j with (k + (j - k))%nat in E by lia. apply G in E. replace (Z.of_nat k - Z.of_nat j) with (- Z.of_nat (j - k)) by lia. now apply Z.divide_opp_r.
    + intros D. symmetry. replace j with (k + (j - k))%nat by lia. apply G. replace (Z.of_nat (j - k)) with (- (Z.of_nat k - Z.of_nat j)) by lia. now apply Z.divide_opp_r.
Qed.

(** ** One cycle through all states *)
Definition encode (g : rng) : Z := s0 g + W * (s1 g + W * (s2 g + W * s3 g)).
Lemma encode_inj g h : wf_rng g -> wf_rng h -> encode g = encode h -> g = h.
Proof.
  intros (A & B & C & D) (A' & B' & C' & D') E. unfold encode, is_word in *. set (w := W) in *. assert (Pw : 0 < w) by reflexivity. clearbody w.
  assert (G : forall x y x' y', 0 <= x < w -> 0 <= x' < w -> x + w * y = x' + w * y' -> x = x' /\ y = y').
  { intros x y x' y' Hx Hx' H. assert (y = y') by nia. subst. lia. }
  destruct (G _ _ _ _ A A' E) as [E0 E1]. destruct (G _ _ _ _ B B' E1) as [E1' E2]. destruct (G _ _ _ _ C C' E2) as [E2' E3]. now apply rng_eta.
Qed.
Lemma encode_range g : wf_rng g -> ~ all_zero g -> 0 < encode g < 2 ^ 256.
Proof.
  intros (A & B & C & D) Nz. unfold encode, is_word in *. replace (2 ^ 256) with (W * (W * (W * W))) by reflexivity. set (w := W) in *. assert (Pw : 1 < w) by reflexivity. clearbody w.
  assert (0 <= s2 g + w * s3 g < w * w) by nia. assert (0 <= s1 g + w * (s2 g + w * s3 g) < w * (w * w)) by nia. split; [|nia].
  destruct (Z.eq_dec (s0 g + w * (s1 g + w * (s2 g + w * s3 g))) 0) as [E|]; [exfalso|nia].
  apply Nz. assert (s0 g = 0) by nia. assert (s1 g + w * (s2 g + w * s3 g) = 0) by nia. assert (s1 g = 0) by nia. assert (s2 g + w * s3 g = 0) by nia. unfold all_zero. repeat split; nia.
Qed.
Lemma rng_dec (g h : rng) : g = h \/ g <> h.
Proof. destruct g as [a b c d], h as [a' b' c' d']. destruct (Z.eq_dec a a'), (Z.eq_dec b b'), (Z.eq_dec c c'), (Z.eq_dec d d'); [left; congruence|right..]; congruence. Qed.
Lemma search_bound (Q : nat -> Prop) : (forall k, Q k \/ ~ Q k) -> forall n, (exists k, (k < n)%nat /\ Q k) \/ forall k, (k < n)%nat -> ~ Q k.
Proof.
  intros D n. induction n as [|n [(k & Hk & Qk)|IH]]; [right; intros; lia|left; exists k; split; [lia|exact Qk]|].
  destruct (D n) as [Y|Y]; [left; exists n; split; [lia|exact Y]|]. right. intros k Hk. destruct (Nat.eq_dec k n) as [->|]; [exact Y|apply IH; lia].
Qed.
Lemma one_cycle g t : wf_rng g -> ~ all_zero g -> wf_rng t -> ~ all_zero t -> exists k, (k < Z.to_nat (2 ^ 256 - 1))%nat /\ rng_after k g = t.
Proof.
  intros Hg Ng Ht Nt. destruct (search_bound (fun k => rng_after k g = t) (fun k => rng_dec _ _) (Z.to_nat (2 ^ 256 - 1))) as [H|H]; [exact H|exfalso].
  pose proof (fun k => period_divides g k Hg Ng) as PD.
  assert (ER : forall h, wf_rng h -> ~ all_zero h -> 0 < encode h <= 2 ^ 256 - 1) by (intros h H1 H2; pose proof (encode_range h H1 H2); lia).
  set (N := 2 ^ 256 - 1) in *. assert (PN : 0 < N) by reflexivity. clearbody N.
  enough (N + 1 <= N) by lia.
  apply (pigeon (N + 1) N (fun i => encode (if i <? N then rng_after (Z.to_nat i) g else t) - 1)); [lia| |].
  - intros i Hi. destruct (i <? N); [destruct (after_wf (Z.to_nat i) g Hg Ng) as [A B]; pose proof (ER _ A B); lia|pose proof (ER _ Ht Nt); lia].
  - assert (J : forall i, wf_rng (rng_after (Z.to_nat i) g)) by (intros i; apply (after_wf (Z.to_nat i) g Hg Ng)).
    assert (G : forall i j, 0 <= i < j -> j < N -> rng_after (Z.to_nat i) g <> rng_after (Z.to_nat j) g).
    { intros i j Hij Hj E. replace (Z.to_nat j) with (Z.to_nat (j - i) + Z.to_nat i)%nat in E by lia. rewrite after_add in E.
      assert (E2 : g = rng_after (Z.to_nat (j - i)) g).
      { destruct (rng_dec g (rng_after (Z.to_nat (j - i)) g)) as [Y|Y]; [exact Y|]. exfalso. revert E. apply after_inj; auto. }
      symmetry in E2. apply PD in E2; [|lia]. apply Z.divide_pos_le in E2; lia. }
    intros i j Hi Hj E. assert (E1 : encode (if i <? N then rng_after (Z.to_nat i) g else t) = encode (if j <? N then rng_after (Z.to_nat j) g else t)) by lia. clear E.
    apply encode_inj in E1; [|destruct (i <? N); auto|destruct (j <? N); auto].
    destruct (Z.ltb_spec i N) as [Li|Li], (Z.ltb_spec j N) as [Lj|Lj]; [| | |lia].
    + destruct (Z.lt_trichotomy i j) as [L|[L|L]]; [exfalso; apply (G i j); auto; lia|exact L|exfalso; apply (G j i); auto; lia].
    + exfalso. apply (H (Z.to_nat i)); [lia|exact E1].
    + exfalso. apply (H (Z.to_nat j)); [lia|now symmetry].
Qed.
(** Over a period the generator goes through every state but zero, so whatever three of its words are,
    every 64-bit number is drawn from exactly one position: all draws are equally frequent (the number 0
    one time less). *)
Theorem C128_equidistributed : forall seed i v a b c, is_word v -> is_word a -> is_word b -> is_word c ->
  ~ (v = 0 /\ a = 0 /\ b = 0 /\ c = 0) ->
  let at_ k := rng_after k (rng_seed (ray_seed seed i)) in
  let here k := Z.of_nat k < 2 ^ 256 - 1 /\ rng_result (at_ k) = v /\ s1 (at_ k) = a /\ s2 (at_ k) = b /\ s3 (at_ k) = c in
  exists k, here k /\ forall k', here k' -> k' = k.
Proof.
  intros seed i v a b c Hv Ha Hb Hc Nz at_ here.
  set (t := Rng (word (v - c)) a b c).
  assert (Ht : wf_rng t) by (unfold wf_rng, t; cbn; repeat split; try apply Ha; try apply Hb; try apply Hc; apply word_is_word).
  assert (Rt : rng_result t = v).
  { unfold rng_result, t, word; cbn [s0 s3]. rewrite Z.add_mod_idemp_l by discriminate. replace (v - c + c) with v by ring. now apply word_id. }
  assert (Nt : ~ all_zero t).
  { intros (E0 & E1 & E2 & E3). apply Nz. cbn in E1, E2, E3. subst a b c. repeat split. rewrite <- Rt. unfold rng_result. now rewrite E0. }
  assert (U : forall g, wf_rng g -> rng_result g = v -> s1 g = a -> s2 g = b -> s3 g = c -> g = t).
  { intros g (W0 & W1 & W2 & W3) Er E1 E2 E3. apply rng_eta; [|exact E1|exact E2|exact E3]. unfold t; cbn [s0]. rewrite <- Er, <- E3. unfold rng_result, word.
    rewrite Zminus_mod_idemp_l. replace (s0 g + s3 g - s3 g) with (s0 g) by ring. symmetry. now apply word_id. }
  assert (Hg := seed_wf (ray_seed seed i)). assert (Ng := seed_nonzero (ray_seed seed i)).
  destruct (one_cycle (rng_seed (ray_seed seed i)) t Hg Ng Ht Nt) as (k & Hk & Ek).
  exists k. split.
  - unfold here, at_. rewrite Ek. split; [|repeat split; exact Rt]. apply Z2Nat.inj_lt; [lia|vm_compute; discriminate|]. now rewrite Nat2Z.id.
  - intros k' (Lk & Er & E1 & E2 & E3). assert (E : at_ k' = at_ k).
    { transitivity t; [apply U; auto; apply (after_wf k' _ Hg Ng)|symmetry; exact Ek]. }
    apply C128_period in E. destruct E as [m Em].
    assert (Lk0 : Z.of_nat k < 2 ^ 256 - 1) by (apply Z2Nat.inj_lt; [lia|vm_compute; discriminate|]; now rewrite Nat2Z.id).
    set (N := 2 ^ 256 - 1) in *. assert (PN : 0 < N) by reflexivity. clearbody N. assert (m = 0) by nia. lia.
Qed.
Example C128_example : let g := rng_seed 7 in rng_after 1 g <> g /\ rng_after 2 g <> g /\ rng_after 2 g <> rng_after 1 g.
Proof. vm_compute. repeat split; discriminate. Qed.

Print Assumptions C128_period.
Print Assumptions C128_equidistributed.
