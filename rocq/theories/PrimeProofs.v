(** Orders and primes, for the period of the generator: an order lemma, primality by trial division and by
    certificates (Pocklington). *)
From Coq Require Import ZArith Znumtheory Zpow_facts List Lia.
Import ListNotations.
Open Scope Z_scope.

Definition product (l : list Z) : Z := fold_right Z.mul 1 l.
Lemma prime_factor_of_cofactor qs : (forall q, In q qs -> prime q) ->
  forall d e, product qs = d * e -> 1 < e -> exists q, In q qs /\ (q | e).
Proof.
  induction qs as [|q qs IH]; intros Hp d e E He.
  - cbn in E. exfalso. assert (d = 1 \/ d <= 0 \/ 1 < d) by lia. nia.
  - cbn [product fold_right] in E. fold (product qs) in E. assert (Pq : prime q) by (apply Hp; now left).
    assert (D : (q | d * e)) by (exists (product qs); lia).
    apply prime_mult in D; [|exact Pq]. destruct D as [[d' ->]|D]; [|exists q; split; [now left|exact D]].
    destruct (IH (fun x Hx => Hp x (or_intror Hx)) d' e) as (x & Hx & Dx).
    + destruct Pq as [Pq _]. apply Z.mul_reg_l with q; lia.
    + exact He.
    + exists x. split; [now right|exact Dx].
Qed.

(** Periods: a set of numbers closed under sums and differences.  If it contains [N], a product of primes,
    but none of the [N / q], every positive member is a multiple of [N]. *)
Section Order.
Variable f : Z -> Prop.
Hypothesis f0 : f 0.
Hypothesis fadd : forall a b, 0 <= a -> 0 <= b -> f a -> f b -> f (a + b).
Hypothesis fsub : forall a b, 0 <= a -> 0 <= b -> f (a + b) -> f a -> f b.
Lemma f_multiple a k : 0 <= a -> 0 <= k -> f a -> f (a * k).
Proof.
  intros Ha Hk H. pattern k. apply natlike_ind; [now rewrite Z.mul_0_r| |exact Hk].
  intros x Hx IH. rewrite Z.mul_succ_r. apply fadd; auto; nia.
Qed.
Lemma f_gcd : forall n, 0 <= n -> forall a b, 0 <= a < n -> 0 <= b -> f a -> f b -> f (Z.gcd a b).
Proof.
  intros n Hn. pattern n. apply natlike_ind; [lia| |exact Hn]. clear n Hn. intros n Hn IH a b Ha Hb Fa Fb.
  destruct (Z.eq_dec a 0) as [->|Na]; [rewrite Z.gcd_0_l, Z.abs_eq by exact Hb; exact Fb|].
  rewrite <- Z.gcd_mod by exact Na. pose proof (Z.mod_pos_bound b a ltac:(lia)).
  assert (Dp : 0 <= b / a) by (apply Z.div_pos; lia).
  apply IH; [lia|lia| |exact Fa].
  apply fsub with (a * (b / a)); [nia|lia| |apply f_multiple; [lia|exact Dp|exact Fa]].
  rewrite <- Z.div_mod by exact Na. exact Fb.
Qed.
Lemma order_divides (qs : list Z) : (forall q, In q qs -> prime q) -> 0 < product qs -> f (product qs) ->
  (forall q, In q qs -> ~ f (product qs / q)) -> forall k, 0 < k -> f k -> (product qs | k).
Proof.
  intros Hp HN FN Hq k Hk Fk. set (N := product qs) in *.
  assert (Fd : f (Z.gcd k N)) by (apply (f_gcd (k + 1)); [lia|lia|lia|exact Fk|exact FN]).
  pose proof (Z.gcd_nonneg k N) as Gp. destruct (Z.gcd_divide_r k N) as [e Ee]. destruct (Z.gcd_divide_l k N) as [m Em].
  set (d := Z.gcd k N) in *. destruct (Z_le_gt_dec e 1) as [Le|Gt].
  - assert (e = 1) by nia. assert (N = d) by nia. exists m. lia.
  - exfalso. destruct (prime_factor_of_cofactor qs Hp d e) as (q & Hin & [e' Ee']); [fold N; lia|lia|].
    apply (Hq q Hin). destruct (Hp q Hin) as [Hq1 _].
    replace (N / q) with (d * e'). { apply f_multiple; [lia|nia|exact Fd]. }
    rewrite Ee, Ee'. replace (e' * q * d) with (d * e' * q) by ring. now rewrite Z.div_mul by lia.
Qed.
End Order.

(** ** Trial division *)
Fixpoint no_div (k : nat) (d n : Z) : bool :=
  match k with O => true | S k => negb (n mod d =? 0) && no_div k (d + 1) n end.
Lemma no_div_spec k : forall d n, 0 < d -> no_div k d n = true -> forall x, d <= x < d + Z.of_nat k -> ~ (x | n).
Proof.
  induction k as [|k IH]; intros d n Hd H x Hx; [lia|]. cbn [no_div] in H. apply andb_prop in H. destruct H as [H1 H2].
  destruct (Z.eq_dec x d) as [->|Nx].
  - intros D. apply Z.mod_divide in D; [|lia]. rewrite D in H1. discriminate.
  - apply (IH (d + 1) n); [lia|exact H2|lia].
Qed.
Lemma prime_of_divisors n b : 1 < n -> n < b * b -> 0 < b -> (forall x, 1 < x < b -> ~ (x | n)) -> prime n.
Proof.
  intros Hn Hb Pb H. apply prime_alt. split; [exact Hn|]. intros x Hx D. destruct D as [y Ey].
  destruct (Z_lt_le_dec x b) as [L|L]; [now apply (H x); [lia|exists y]|].
  assert (1 < y) by nia. apply (H y); [nia|]. exists x. lia.
Qed.
Definition small_prime (k : nat) (n : Z) : bool := (1 <? n) && no_div k 2 n && (n <? (2 + Z.of_nat k) * (2 + Z.of_nat k)).
Lemma small_prime_spec k n : small_prime k n = true -> prime n.
Proof.
  unfold small_prime. intros H. apply andb_prop in H. destruct H as [H H3]. apply andb_prop in H. destruct H as [H1 H2].
  apply Z.ltb_lt in H1, H3. apply prime_of_divisors with (2 + Z.of_nat k); [exact H1|exact H3|lia|].
  intros x Hx. apply (no_div_spec k 2 n); [lia|exact H2|lia].
Qed.

(** ** Certificates: a number [n] with a base [a] whose order modulo every divisor of [n] is at least
    [product qs], more than the square root of [n]. *)
Lemma pigeon (F p : Z) (g : Z -> Z) : 0 <= p -> (forall i, 0 <= i < F -> 0 <= g i < p) ->
  (forall i j, 0 <= i < F -> 0 <= j < F -> g i = g j -> i = j) -> F <= p.
Proof.
  intros Hp Hg Hi. destruct (Z_le_gt_dec F 0) as [?|HF]; [lia|].
  assert (L : (length (map (fun i => g (Z.of_nat i)) (seq 0 (Z.to_nat F))) <= length (map Z.of_nat (seq 0 (Z.to_nat p))))%nat).
  { apply NoDup_incl_length.
    - assert (G : forall l, (forall x, In x l -> (x < Z.to_nat F)%nat) -> NoDup l -> NoDup (map (fun i => g (Z.of_nat i)) l)).
      { induction l as [|x l IH]; intros B N; cbn [map]; [constructor|]. inversion N as [|? ? Nx Nl]; subst. constructor.
        - rewrite in_map_iff. intros (y & E & Hy). apply Hi in E; [|pose proof (B y (or_intror Hy)); lia|pose proof (B x (or_introl eq_refl)); lia].
          apply Nat2Z.inj in E. subst. contradiction.
        - apply IH; [intros; apply B; now right|exact Nl]. }
      apply G; [intros x Hx; apply in_seq in Hx; lia|apply seq_NoDup].
    - intros y Hy. apply in_map_iff in Hy. destruct Hy as (i & <- & Hin). apply in_seq in Hin.
      destruct (Hg (Z.of_nat i)) as [A B]; [lia|]. apply in_map_iff. exists (Z.to_nat (g (Z.of_nat i))). split; [lia|]. apply in_seq. lia. }
  rewrite !map_length, !seq_length in L. lia.
Qed.
Lemma pocklington (n a c : Z) (qs : list Z) : 1 < n -> (forall q, In q qs -> prime q) ->
  n - 1 = product qs * c -> 0 < c -> 0 < product qs -> n < product qs * product qs ->
  a ^ (n - 1) mod n = 1 -> (forall q, In q qs -> Z.gcd (a ^ ((n - 1) / q) - 1) n = 1) -> prime n.
Proof.
  intros Hn Hp Hc Pc PF HF H1 Hq. set (F := product qs) in *.
  apply prime_of_divisors with F; [exact Hn|exact HF|exact PF|]. intros p Hp1 Dp.
  enough (F <= p) by lia. set (b := a ^ c).
  assert (Md : forall x, x mod n = 1 -> x mod p = 1).
  { intros x Hx. destruct Dp as [m Em]. rewrite Z.mod_eq in Hx by lia. symmetry. apply Z.mod_unique with (x / n * m); [lia|]. nia. }
  assert (FF : b ^ F mod p = 1). { unfold b. rewrite <- Z.pow_mul_r by lia. rewrite (Z.mul_comm c F), <- Hc. now apply Md. }
  assert (Fq : forall q, In q qs -> b ^ (F / q) mod p <> 1).
  { intros q Hin E. destruct (Hp q Hin) as [Q1 _].
    assert (Dq : (q | F)). { unfold F. clear - Hin. induction qs as [|x l IH]; [contradiction|]. cbn. destruct Hin as [->|Hin]; [apply Z.divide_factor_l|apply Z.divide_mul_r; auto]. }
    destruct Dq as [F' EF]. assert (EQ : (n - 1) / q = c * (F / q)).
    { rewrite Hc, EF, Z.div_mul by lia. replace (F' * q * c) with (c * F' * q) by ring. now rewrite Z.div_mul by lia. }
    assert (D : (p | Z.gcd (a ^ ((n - 1) / q) - 1) n)).
    { apply Z.gcd_greatest; [|exact Dp]. rewrite EQ, Z.pow_mul_r; [|lia|rewrite EF, Z.div_mul by lia; nia].
      apply Z.mod_divide; [lia|]. fold b. rewrite Zminus_mod, E, (Z.mod_small 1 p) by lia. now rewrite Z.sub_diag, Z.mod_0_l by lia. }
    rewrite (Hq q Hin) in D. apply Z.divide_1_r_nonneg in D; lia. }
  assert (Ord : forall k, 0 < k -> b ^ k mod p = 1 -> (F | k)).
  { apply (order_divides (fun k => b ^ k mod p = 1)).
    - rewrite Z.pow_0_r. apply Z.mod_small. lia.
    - intros x y Hx Hy Ex Ey. rewrite Z.pow_add_r, Z.mul_mod, Ex, Ey by lia. apply Z.mod_small. lia.
    - intros x y Hx Hy Ex Ey. rewrite Z.pow_add_r, Z.mul_mod, Ey, Z.mul_1_l, Z.mod_mod in Ex by lia. exact Ex.
    - exact Hp.
    - exact PF.
    - exact FF.
    - exact Fq. }
  apply (pigeon F p (fun i => b ^ i mod p)); [lia|intros i _; apply Z.mod_pos_bound; lia|].
  assert (G : forall i j, 0 <= i <= j -> j < F -> b ^ i mod p = b ^ j mod p -> i = j).
  { intros i j Hi Hj E. destruct (Z.eq_dec i j) as [?|Ne]; [assumption|exfalso].
    assert (K : b ^ (j - i) mod p = 1).
    { assert (E2 : (b ^ i * b ^ (F - i)) mod p = (b ^ j * b ^ (F - i)) mod p) by (rewrite (Z.mul_mod (b ^ i)), (Z.mul_mod (b ^ j)), E by lia; reflexivity).
      rewrite <- !Z.pow_add_r in E2 by lia. replace (i + (F - i)) with F in E2 by ring. replace (j + (F - i)) with (F + (j - i)) in E2 by ring.
      rewrite FF, Z.pow_add_r, Z.mul_mod, FF, Z.mul_1_l, Z.mod_mod in E2 by lia. now symmetry. }
    apply Ord in K; [|lia]. apply Z.divide_pos_le in K; lia. }
  intros i j Hi Hj E. destruct (Z_le_gt_dec i j); [apply G; auto; lia|symmetry; apply G; auto; lia].
Qed.
(** the conditions, computed *)
Definition certified (n a c : Z) (qs : list Z) : bool :=
  (1 <? n) && (n - 1 =? product qs * c) && (0 <? c) && (0 <? product qs) && (n <? product qs * product qs)
  && (Zpow_mod a (n - 1) n =? 1) && forallb (fun q => Z.gcd (Zpow_mod a ((n - 1) / q) n - 1) n =? 1) qs.
Lemma gcd_mod_sub x n : 1 < n -> Z.gcd (x mod n - 1) n = Z.gcd (x - 1) n.
Proof.
  intros Hn. rewrite (Z.gcd_comm (x mod n - 1)), (Z.gcd_comm (x - 1)). symmetry.
  replace (x - 1) with (x mod n - 1 + (x / n) * n) by (rewrite (Z.mod_eq x n) by lia; ring). apply Z.gcd_add_mult_diag_r.
Qed.
Lemma certified_spec n a c qs : (forall q, In q qs -> prime q) -> certified n a c qs = true -> prime n.
Proof.
  unfold certified. intros Hp H. repeat (apply andb_prop in H; destruct H as [H ?]).
  repeat match goal with K : (_ <? _) = true |- _ => apply Z.ltb_lt in K | K : (_ =? _) = true |- _ => apply Z.eqb_eq in K end.
  apply (pocklington n a c qs); try assumption.
  - rewrite <- Zpow_mod_correct by lia. assumption.
  - intros q Hin. match goal with K : forallb _ _ = true |- _ => rewrite forallb_forall in K; apply K in Hin end.
    apply Z.eqb_eq in Hin. rewrite Zpow_mod_correct, gcd_mod_sub in Hin by lia. exact Hin.
Qed.

(** ** The prime factors of 2^256 - 1 *)
Definition period_primes : list Z :=
  [3; 5; 17; 257; 641; 65537; 274177; 6700417; 67280421310721; 59649589127497217; 5704689200685129054721].
Ltac small k := apply (small_prime_spec k); vm_compute; reflexivity.
Ltac each := let q := fresh in let H := fresh in intros q H; cbn [In] in H; repeat (destruct H as [<-|H]); [..|contradiction].
Lemma prime_18533742247 : prime 18533742247.
Proof. apply (certified_spec _ 6 (2 * 3 * 3 * 3 * 181) [1896229]); [each; small 1500%nat|vm_compute; reflexivity]. Qed.
Lemma prime_116503103764643 : prime 116503103764643.
Proof. apply (certified_spec _ 2 (2 * 7 * 449) [18533742247]); [each; exact prime_18533742247|vm_compute; reflexivity]. Qed.
Lemma prime_55515497 : prime 55515497.
Proof. apply (certified_spec _ 3 8 [6939437]); [each; small 2700%nat|vm_compute; reflexivity]. Qed.
Lemma prime_733803839347 : prime 733803839347.
Proof. apply (certified_spec _ 2 (2 * 3 * 2203) [55515497]); [each; exact prime_55515497|vm_compute; reflexivity]. Qed.
Lemma prime_67280421310721 : prime 67280421310721.
Proof. apply (certified_spec _ 3 2998279 [2; 2; 2; 2; 2; 2; 2; 2; 5; 47; 373]); [each; first [small 0%nat | small 1%nat | small 5%nat | small 18%nat]|vm_compute; reflexivity]. Qed.
Lemma prime_59649589127497217 : prime 59649589127497217.
Proof. apply (certified_spec _ 3 512 [116503103764643]); [each; exact prime_116503103764643|vm_compute; reflexivity]. Qed.
Lemma prime_5704689200685129054721 : prime 5704689200685129054721.
Proof. apply (certified_spec _ 21 (512 * 243 * 5 * 12497) [733803839347]); [each; exact prime_733803839347|vm_compute; reflexivity]. Qed.
Lemma period_primes_prime q : In q period_primes -> prime q.
Proof.
  unfold period_primes. cbn [In]. intros H. repeat (destruct H as [<-|H]); try contradiction;
    try exact prime_67280421310721; try exact prime_59649589127497217; try exact prime_5704689200685129054721;
    first [small 0%nat | small 1%nat | small 3%nat | small 15%nat | small 24%nat | small 255%nat | small 522%nat | small 2587%nat].
Qed.
Lemma period_factors : product period_primes = 2 ^ 256 - 1.
Proof. vm_compute. reflexivity. Qed.
